(** The densities of the branches of the normal sampler. *)
From Coq Require Import ZArith Reals List Lra Lia.
From Coquelicot Require Import Coquelicot.
From Verif Require Import Base Arith RealArith M_Random S_Normal P_RBounds P_QBounds P_NormEnv P_Norm.
Import ListNotations.
Open Scope R_scope.

(** ** Primitives *)
Section Test.
Variable h : R -> R.
Hypothesis Hh : forall x, continuous h x.

Definition prim (f : R -> R) (x : R) : R := RInt f 0 x.
Lemma prim_derive (f : R -> R) x : (forall y, continuous f y) -> is_derive (prim f) x (f x).
Proof.
  intros Hf. apply (is_derive_RInt f (prim f) 0 x).
  - exists (mkposreal 1 Rlt_0_1). intros y _. apply (RInt_correct f 0 y). apply (ex_RInt_continuous f). intros z _; apply Hf.
  - apply Hf.
Qed.
Lemma derive_cont (F f : R -> R) : (forall x, is_derive F x (f x)) -> forall x, continuous F x.
Proof. intros H x. apply (ex_derive_continuous (V := R_NormedModule) F x). exists (f x). apply H. Qed.

Definition H1 := prim h.
Definition H2 := prim H1.
Definition H3 := prim H2.
Lemma D1 x : is_derive H1 x (h x). Proof. apply prim_derive, Hh. Qed.
Lemma C1 x : continuous H1 x. Proof. apply (derive_cont H1 h D1). Qed.
Lemma D2 x : is_derive H2 x (H1 x). Proof. apply prim_derive, C1. Qed.
Lemma C2 x : continuous H2 x. Proof. apply (derive_cont H2 H1 D2). Qed.
Lemma D3 x : is_derive H3 x (H2 x). Proof. apply prim_derive, C2. Qed.

(** integral of f(a + c u) over u in [0,1] *)
Lemma unit_int (F f : R -> R) a c : c <> 0 -> (forall x, is_derive F x (f x)) -> (forall x, continuous f x) ->
  RInt (fun u => f (a + c * u)) 0 1 = (F (a + c) - F a) / c.
Proof.
  intros Hc HF Hf. apply is_RInt_unique.
  replace ((F (a + c) - F a) / c) with (minus (F (a + c * 1) / c) (F (a + c * 0) / c)).
  2:{ unfold minus, plus, opp; simpl. rewrite Rmult_1_r, Rmult_0_r, Rplus_0_r. field. exact Hc. }
  apply (is_RInt_derive (fun u => F (a + c * u) / c)).
  - intros x _. auto_derive.
    + eexists. apply HF.
    + replace (Derive (fun x0 => F x0) (a + c * x)) with (f (a + c * x)) by (symmetry; apply is_derive_unique, HF).
      field. exact Hc.
  - intros x _. apply (continuous_comp (fun u => a + c * u) f); [|apply Hf].
    apply (ex_derive_continuous (V := R_NormedModule) (fun u => a + c * u)). auto_derive. auto.
Qed.

Lemma sum3_int :
  RInt (fun u1 => RInt (fun u2 => RInt (fun u3 => h (2 * (u1 + u2 + u3) - 3)) 0 1) 0 1) 0 1 =
  (H3 3 - 3 * H3 1 + 3 * H3 (-1) - H3 (-3)) / 8.
Proof.
  transitivity (RInt (fun u1 => (H2 (2 * u1 + 1) - 2 * H2 (2 * u1 - 1) + H2 (2 * u1 - 3)) / 4) 0 1).
  - apply RInt_ext. intros u1 _.
    transitivity (RInt (fun u2 => (H1 ((2 * u1 - 1) + 2 * u2) - H1 ((2 * u1 - 3) + 2 * u2)) / 2) 0 1).
    + apply RInt_ext. intros u2 _.
      transitivity (RInt (fun u3 => h ((2 * (u1 + u2) - 3) + 2 * u3)) 0 1).
      * apply RInt_ext. intros u3 _. f_equal. ring.
      * rewrite (unit_int H1 h _ 2) by (try lra; auto using D1). f_equal. f_equal; f_equal; ring.
    + apply is_RInt_unique.
      apply (is_RInt_ext (fun u2 => plus (scal (/ 2) (H1 ((2 * u1 - 1) + 2 * u2))) (scal (- / 2) (H1 ((2 * u1 - 3) + 2 * u2))))).
      { intros x _. unfold plus, scal; simpl. unfold mult; simpl. field. }
      replace ((H2 (2 * u1 + 1) - 2 * H2 (2 * u1 - 1) + H2 (2 * u1 - 3)) / 4) with
        (plus (scal (/ 2) ((H2 ((2 * u1 - 1) + 2) - H2 (2 * u1 - 1)) / 2)) (scal (- / 2) ((H2 ((2 * u1 - 3) + 2) - H2 (2 * u1 - 3)) / 2))).
      2:{ unfold plus, scal; simpl. unfold mult; simpl.
          replace (2 * u1 - 1 + 2) with (2 * u1 + 1) by ring. replace (2 * u1 - 3 + 2) with (2 * u1 - 1) by ring. field. }
      assert (G : forall a, is_RInt (fun u => H1 (a + 2 * u)) 0 1 ((H2 (a + 2) - H2 a) / 2)).
      { intros a. rewrite <- (unit_int H2 H1 a 2) by (try lra; auto using D2, C1). apply (RInt_correct (fun u => H1 (a + 2 * u))).
        apply (ex_RInt_continuous (V := R_CompleteNormedModule)). intros z _. apply (continuous_comp (fun u => a + 2 * u) H1); [|apply C1].
        apply (ex_derive_continuous (V := R_NormedModule) (fun u => a + 2 * u)). auto_derive. auto. }
      apply (is_RInt_plus (V := R_NormedModule)); apply (is_RInt_scal (V := R_NormedModule)); apply G.
  - apply is_RInt_unique.
    assert (G : forall a, is_RInt (fun u => H2 (a + 2 * u)) 0 1 ((H3 (a + 2) - H3 a) / 2)).
    { intros a. rewrite <- (unit_int H3 H2 a 2) by (try lra; auto using D3, C2). apply (RInt_correct (fun u => H2 (a + 2 * u))).
      apply (ex_RInt_continuous (V := R_CompleteNormedModule)). intros z _. apply (continuous_comp (fun u => a + 2 * u) H2); [|apply C2].
      apply (ex_derive_continuous (V := R_NormedModule) (fun u => a + 2 * u)). auto_derive. auto. }
    apply (is_RInt_ext (fun u => plus (plus (scal (/ 4) (H2 (1 + 2 * u))) (scal (- / 2) (H2 (-1 + 2 * u)))) (scal (/ 4) (H2 (-3 + 2 * u))))).
    { intros x _. unfold plus, scal; simpl. unfold mult; simpl.
      replace (2 * x + 1) with (1 + 2 * x) by ring. replace (2 * x - 1) with (-1 + 2 * x) by ring.
      replace (2 * x - 3) with (-3 + 2 * x) by ring. field. }
    replace ((H3 3 - 3 * H3 1 + 3 * H3 (-1) - H3 (-3)) / 8) with
      (plus (plus (scal (/ 4) ((H3 (1 + 2) - H3 1) / 2)) (scal (- / 2) ((H3 (-1 + 2) - H3 (-1)) / 2))) (scal (/ 4) ((H3 (-3 + 2) - H3 (-3)) / 2))).
    2:{ unfold plus, scal; simpl. unfold mult; simpl. replace (1 + 2) with 3 by ring. replace (-1 + 2) with 1 by ring.
        replace (-3 + 2) with (-1) by ring. field. }
    apply (is_RInt_plus (V := R_NormedModule)); [apply (is_RInt_plus (V := R_NormedModule))|];
      apply (is_RInt_scal (V := R_NormedModule)); apply G.
Qed.

(** integral of h times a quadratic *)
Lemma quad_int a b c l u : is_RInt (fun x => h x * (a + b * x + c * (x * x))) l u
  ((fun x => H1 x * (a + b * x + c * (x * x)) - H2 x * (b + 2 * c * x) + H3 x * (2 * c)) u -
   (fun x => H1 x * (a + b * x + c * (x * x)) - H2 x * (b + 2 * c * x) + H3 x * (2 * c)) l).
Proof.
  apply (is_RInt_derive (fun x => H1 x * (a + b * x + c * (x * x)) - H2 x * (b + 2 * c * x) + H3 x * (2 * c))).
  - intros x _.
    auto_derive.
    + repeat split; eexists; [apply D1|apply D2|apply D3].
    + replace (Derive (fun x0 => H1 x0) x) with (h x) by (symmetry; apply is_derive_unique, D1).
      replace (Derive (fun x0 => H2 x0) x) with (H1 x) by (symmetry; apply is_derive_unique, D2).
      replace (Derive (fun x0 => H3 x0) x) with (H2 x) by (symmetry; apply is_derive_unique, D3). ring.
  - intros x _. apply (continuous_mult h (fun x => a + b * x + c * (x * x))); [apply Hh|].
    apply (ex_derive_continuous (V := R_NormedModule) (fun x => a + b * x + c * (x * x))). auto_derive. auto.
Qed.

Lemma dens3_int : is_RInt (fun x => h x * dens3 x) (-3) 3 ((H3 3 - 3 * H3 1 + 3 * H3 (-1) - H3 (-3)) / 8).
Proof.
  pose proof (quad_int (9 / 16) (6 / 16) (1 / 16) (-3) (-1)) as I1.
  pose proof (quad_int (3 / 8) 0 (- (1 / 8)) (-1) 1) as I2.
  pose proof (quad_int (9 / 16) (- (6 / 16)) (1 / 16) 1 3) as I3.
  apply (is_RInt_ext _ (fun x => h x * dens3 x)) in I1.
  2:{ intros x Hx. rewrite Rmin_left, Rmax_right in Hx by lra. f_equal. unfold dens3. rewrite Rabs_left by lra.
      destruct (Rlt_dec (- x) 1); [lra|]. destruct (Rle_dec (- x) 3); [|lra]. field. }
  apply (is_RInt_ext _ (fun x => h x * dens3 x)) in I2.
  2:{ intros x Hx. rewrite Rmin_left, Rmax_right in Hx by lra. f_equal. unfold dens3.
      destruct (Rlt_dec (Rabs x) 1) as [_|N]; [field|]. exfalso. apply N. apply Rabs_def1; lra. }
  apply (is_RInt_ext _ (fun x => h x * dens3 x)) in I3.
  2:{ intros x Hx. rewrite Rmin_left, Rmax_right in Hx by lra. f_equal. unfold dens3. rewrite Rabs_pos_eq by lra.
      destruct (Rlt_dec x 1); [lra|]. destruct (Rle_dec x 3); [|lra]. field. }
  pose proof (is_RInt_Chasles _ _ _ _ _ _ I1 I2) as I12. pose proof (is_RInt_Chasles _ _ _ _ _ _ I12 I3) as I.
  match type of I with is_RInt _ _ _ ?v => replace ((H3 3 - 3 * H3 1 + 3 * H3 (-1) - H3 (-3)) / 8) with v; [exact I|] end.
  unfold plus; simpl. field.
Qed.

Lemma sum2_int : RInt (fun u1 => RInt (fun u2 => h (3 / 2 * (u1 + u2 - 1))) 0 1) 0 1 =
  (H2 (3 / 2) - 2 * H2 0 + H2 (- (3 / 2))) * (4 / 9).
Proof.
  transitivity (RInt (fun u1 => (H1 (0 + 3 / 2 * u1) - H1 (- (3 / 2) + 3 / 2 * u1)) / (3 / 2)) 0 1).
  - apply RInt_ext. intros u1 _.
    transitivity (RInt (fun u2 => h (3 / 2 * (u1 - 1) + 3 / 2 * u2)) 0 1).
    + apply RInt_ext. intros u2 _. f_equal. field.
    + rewrite (unit_int H1 h _ (3 / 2)) by (try lra; auto using D1). f_equal. f_equal; f_equal; field.
  - assert (G : forall a, is_RInt (fun u => H1 (a + 3 / 2 * u)) 0 1 ((H2 (a + 3 / 2) - H2 a) / (3 / 2))).
    { intros a. rewrite <- (unit_int H2 H1 a (3 / 2)) by (try lra; auto using D2, C1). apply (RInt_correct (fun u => H1 (a + 3 / 2 * u))).
      apply (ex_RInt_continuous (V := R_CompleteNormedModule)). intros z _. apply (continuous_comp (fun u => a + 3 / 2 * u) H1); [|apply C1].
      apply (ex_derive_continuous (V := R_NormedModule) (fun u => a + 3 / 2 * u)). auto_derive. auto. }
    apply is_RInt_unique.
    apply (is_RInt_ext (fun u => plus (scal (2 / 3) (H1 (0 + 3 / 2 * u))) (scal (- (2 / 3)) (H1 (- (3 / 2) + 3 / 2 * u))))).
    { intros x _. unfold plus, scal; simpl. unfold mult; simpl. field. }
    replace ((H2 (3 / 2) - 2 * H2 0 + H2 (- (3 / 2))) * (4 / 9)) with
      (plus (scal (2 / 3) ((H2 (0 + 3 / 2) - H2 0) / (3 / 2))) (scal (- (2 / 3)) ((H2 (- (3 / 2) + 3 / 2) - H2 (- (3 / 2))) / (3 / 2)))).
    2:{ unfold plus, scal; simpl. unfold mult; simpl. replace (0 + 3 / 2) with (3 / 2) by ring.
        replace (- (3 / 2) + 3 / 2) with 0 by ring. field. }
    apply (is_RInt_plus (V := R_NormedModule)); apply (is_RInt_scal (V := R_NormedModule)); apply G.
Qed.
Lemma dens2_int : is_RInt (fun x => h x * dens2 x) (- (3 / 2)) (3 / 2) ((H2 (3 / 2) - 2 * H2 0 + H2 (- (3 / 2))) * (4 / 9)).
Proof.
  pose proof (quad_int (2 / 3) (4 / 9) 0 (- (3 / 2)) 0) as I1.
  pose proof (quad_int (2 / 3) (- (4 / 9)) 0 0 (3 / 2)) as I2.
  apply (is_RInt_ext _ (fun x => h x * dens2 x)) in I1.
  2:{ intros x Hx. rewrite Rmin_left, Rmax_right in Hx by lra. f_equal. unfold dens2. rewrite Rabs_left by lra.
      destruct (Rle_dec (- x) (3 / 2)); [|lra]. field. }
  apply (is_RInt_ext _ (fun x => h x * dens2 x)) in I2.
  2:{ intros x Hx. rewrite Rmin_left, Rmax_right in Hx by lra. f_equal. unfold dens2. rewrite Rabs_pos_eq by lra.
      destruct (Rle_dec x (3 / 2)); [|lra]. field. }
  pose proof (is_RInt_Chasles _ _ _ _ _ _ I1 I2) as I.
  match type of I with is_RInt _ _ _ ?v => replace ((H2 (3 / 2) - 2 * H2 0 + H2 (- (3 / 2))) * (4 / 9)) with v; [exact I|] end.
  unfold plus; simpl. field.
Qed.
End Test.
