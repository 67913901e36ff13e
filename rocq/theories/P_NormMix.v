(** The branches of the normal sampler and their mixture. *)
From Coq Require Import ZArith QArith Qreals Reals List Bool Lra Lia.
From Coquelicot Require Import Coquelicot.
From Verif Require Import Base Arith RealArith M_Random S_Normal P_RBounds P_QBounds P_NormEnv P_Norm P_NormDens.
Import ListNotations.
Open Scope R_scope.

Ltac req := match goal with |- @eq _ ?a ?b => change (@eq R a b) end.

(** ** What the branches compute *)
Lemma Rltb_true x y : x < y -> Rltb x y = true.
Proof. intros H. unfold Rltb. destruct (Rlt_dec x y); auto; contradiction. Qed.
Lemma Rltb_false x y : y <= x -> Rltb x y = false.
Proof. intros H. unfold Rltb. destruct (Rlt_dec x y); auto; lra. Qed.
Lemma Rleb_true x y : x <= y -> Rleb x y = true.
Proof. intros H. unfold Rleb. destruct (Rle_dec x y); auto; contradiction. Qed.
Lemma Rleb_false x y : y < x -> Rleb x y = false.
Proof. intros H. unfold Rleb. destruct (Rle_dec x y); auto; lra. Qed.

Lemma lits : lit Rarith 8638 4 = 8638 / 10000 /\ lit Rarith 9745 4 = 9745 / 10000 /\
  lit Rarith 9973002039 10 = 9973002039 / 10000000000 /\ lit Rarith 358 3 = 358 / 1000.
Proof. repeat split. Qed.

Lemma branch1 n u u1 u2 u3 l : u < 8638 / 10000 ->
  normal n (u :: u1 :: u2 :: u3 :: l) = Ok (2 * (u1 + u2 + u3) - 3, l).
Proof.
  intros H. unfold normal, Norm01. cbn [feed]. change (flt Rarith u (lit Rarith 8638 4)) with (Rltb u (8638 / 10000)).
  rewrite Rltb_true by exact H. cbn [feed]. f_equal. f_equal.
  change (2 / 1 * (u1 + u2 + u3) - 3 / 1 = 2 * (u1 + u2 + u3) - 3). field.
Qed.
Lemma branch2 n u u1 u2 l : 8638 / 10000 <= u < 9745 / 10000 ->
  normal n (u :: u1 :: u2 :: l) = Ok (3 / 2 * (u1 + u2 - 1), l).
Proof.
  intros H. unfold normal, Norm01. cbn [feed]. change (flt Rarith u (lit Rarith 8638 4)) with (Rltb u (8638 / 10000)).
  rewrite Rltb_false by lra. change (flt Rarith u (lit Rarith 9745 4)) with (Rltb u (9745 / 10000)).
  rewrite Rltb_true by lra. cbn [feed]. f_equal. f_equal.
  change (15 / 10 * (u1 + u2 - 1 / 1) = 3 / 2 * (u1 + u2 - 1)). field.
Qed.
Definition in_wedge (u : R) : Prop := 9745 / 10000 <= u < 9973002039 / 10000000000.
Lemma branch3 n u l : in_wedge u -> normal n (u :: l) = wedge (A := Rarith) feed n l.
Proof.
  intros H. unfold in_wedge in H. unfold normal, Norm01. cbn [feed].
  change (flt Rarith u (lit Rarith 8638 4)) with (Rltb u (8638 / 10000)).
  rewrite Rltb_false by lra. change (flt Rarith u (lit Rarith 9745 4)) with (Rltb u (9745 / 10000)).
  rewrite Rltb_false by lra. change (flt Rarith u (lit Rarith 9973002039 10)) with (Rltb u (9973002039 / 10000000000)).
  rewrite Rltb_true by lra. reflexivity.
Qed.
Lemma wedge_step n u1 u2 l : wedge (A := Rarith) feed (S n) (u1 :: u2 :: l) =
  if Rlt_dec (g (A := Rarith) (6 * u1 - 3)) (358 / 1000 * u2) then wedge (A := Rarith) feed n l else Ok (6 * u1 - 3, l).
Proof.
  cbn [wedge feed]. unfold fgt. cbn [flt lit mul sub Rarith].
  change (IZR (10 ^ 0)) with 1. change (IZR (10 ^ 3)) with 1000.
  replace (6 / 1 * u1 - 3 / 1) with (6 * u1 - 3) by field. unfold Rltb.
  destruct (Rlt_dec (g (A := Rarith) (6 * u1 - 3)) (358 / 1000 * u2)); reflexivity.
Qed.
Lemma wedge_case n u u1 u2 l : in_wedge u ->
  (358 / 1000 * u2 <= g (A := Rarith) (6 * u1 - 3) -> normal (S n) (u :: u1 :: u2 :: l) = Ok (6 * u1 - 3, l)) /\
  (g (A := Rarith) (6 * u1 - 3) < 358 / 1000 * u2 -> normal (S n) (u :: u1 :: u2 :: l) = normal n (u :: l)).
Proof.
  intros H. rewrite !branch3 by exact H. rewrite wedge_step.
  destruct (Rlt_dec (g (A := Rarith) (6 * u1 - 3)) (358 / 1000 * u2)); split; intros K; try reflexivity; lra.
Qed.

(** ** Continuity of g *)
Definition pos (t : R) : R := (t + Rabs t) / 2.
Lemma pos_pos t : 0 <= t -> pos t = t.
Proof. intros H. unfold pos. rewrite Rabs_pos_eq by exact H. field. Qed.
Lemma pos_neg t : t <= 0 -> pos t = 0.
Proof. intros H. unfold pos. rewrite Rabs_left1 by exact H. field. Qed.
Lemma abs_sq x : Rabs x * Rabs x = x * x.
Proof. rewrite <- Rabs_mult. apply Rabs_pos_eq. nra. Qed.

Lemma g_pos x : g (A := Rarith) x =
  ga * exp (- (x * x) / 2) - gb * (2 * (3 - x * x) + 3 * (pos (Rabs x - 1) * pos (Rabs x - 1))) - gc * pos (3 / 2 - Rabs x).
Proof.
  rewrite gR. pose proof (abs_sq x) as E.
  match goal with |- @eq _ ?a ?b => change (@eq R a b) end.
  destruct (Rlt_dec (Rabs x) 1); [|destruct (Rlt_dec (Rabs x) (3 / 2))].
  - unfold gA. rewrite E, (pos_neg (Rabs x - 1)), (pos_pos (3 / 2 - Rabs x)) by lra. ring.
  - unfold gB. rewrite E, (pos_pos (Rabs x - 1)), (pos_pos (3 / 2 - Rabs x)) by lra. rewrite <- E. ring.
  - unfold gC. rewrite E, (pos_pos (Rabs x - 1)), (pos_neg (3 / 2 - Rabs x)) by lra. rewrite <- E. ring.
Qed.
Lemma cont_R (f : R -> R) x : continuity_pt f x -> continuous f x.
Proof. intros H. apply continuity_pt_filterlim. exact H. Qed.
Lemma g_cont x : continuous (g (A := Rarith) : R -> R) x.
Proof.
  apply (continuous_ext (fun x => ga * exp (- (x * x) / 2) - gb * (2 * (3 - x * x) + 3 * (pos (Rabs x - 1) * pos (Rabs x - 1))) - gc * pos (3 / 2 - Rabs x))).
  { intros y. symmetry. apply g_pos. }
  apply cont_R. unfold pos. reg.
Qed.

(** densities are continuous too *)
Lemma dens3_pos x : -3 <= x <= 3 -> dens3 x = (2 * (3 - x * x) + 3 * (pos (Rabs x - 1) * pos (Rabs x - 1))) / 16.
Proof.
  intros Hx. assert (Rabs x <= 3) by (apply Rabs_le; lra). unfold dens3. pose proof (abs_sq x) as E.
  destruct (Rlt_dec (Rabs x) 1); [|destruct (Rle_dec (Rabs x) 3); [|lra]].
  - rewrite pos_neg by lra. field.
  - rewrite pos_pos by lra. rewrite <- E. field.
Qed.
Lemma dens2_pos x : dens2 x = pos (3 / 2 - Rabs x) * (4 / 9).
Proof.
  unfold dens2. destruct (Rle_dec (Rabs x) (3 / 2)); [rewrite pos_pos by lra|rewrite pos_neg by lra]; ring.
Qed.

(** ** The three branches as distributions *)
Lemma branch1_law u (h : R -> R) n : u < 8638 / 10000 -> (forall x, continuous h x) ->
  exists X : R -> R -> R -> R, (forall u1 u2 u3 l, normal n (u :: u1 :: u2 :: u3 :: l) = Ok (X u1 u2 u3, l)) /\
  RInt (fun u1 => RInt (fun u2 => RInt (fun u3 => h (X u1 u2 u3)) 0 1) 0 1) 0 1 = RInt (fun x => h x * dens3 x) (-3) 3.
Proof.
  intros Hu Hh. exists (fun u1 u2 u3 => 2 * (u1 + u2 + u3) - 3). split; [intros; apply branch1; exact Hu|].
  rewrite sum3_int by exact Hh. symmetry. apply is_RInt_unique. apply dens3_int. exact Hh.
Qed.
Lemma int0 l u : is_RInt (fun _ => 0) l u 0.
Proof.
  pose proof (is_RInt_const (V := R_NormedModule) l u 0) as K.
  match type of K with is_RInt _ _ _ ?v => replace v with 0 in K; [exact K|] end.
  unfold scal; simpl; unfold mult; simpl; req; ring.
Qed.
Lemma dens2_int3 (h : R -> R) : (forall x, continuous h x) ->
  RInt (fun x => h x * dens2 x) (-3) 3 = RInt (fun x => h x * dens2 x) (- (3 / 2)) (3 / 2).
Proof.
  intros Hh. pose proof (dens2_int h Hh) as I. rewrite (is_RInt_unique _ _ _ _ I). apply is_RInt_unique.
  assert (Z1 : is_RInt (fun x => h x * dens2 x) (-3) (- (3 / 2)) 0).
  { apply (is_RInt_ext (fun _ => 0)).
    - intros x Hx. rewrite Rmin_left, Rmax_right in Hx by lra. rewrite dens2_pos, pos_neg; [req; ring|]. rewrite Rabs_left by lra. lra.
    - apply int0. }
  assert (Z2 : is_RInt (fun x => h x * dens2 x) (3 / 2) 3 0).
  { apply (is_RInt_ext (fun _ => 0)).
    - intros x Hx. rewrite Rmin_left, Rmax_right in Hx by lra. rewrite dens2_pos, pos_neg; [req; ring|]. rewrite Rabs_pos_eq by lra. lra.
    - apply int0. }
  pose proof (is_RInt_Chasles _ _ _ _ _ _ Z1 I) as J. pose proof (is_RInt_Chasles _ _ _ _ _ _ J Z2) as K.
  match type of K with is_RInt _ _ _ ?v => match goal with |- is_RInt _ _ _ ?w => replace w with v; [exact K|] end end.
  unfold plus; simpl. ring.
Qed.
Lemma branch2_law u (h : R -> R) n : 8638 / 10000 <= u < 9745 / 10000 -> (forall x, continuous h x) ->
  exists X : R -> R -> R, (forall u1 u2 l, normal n (u :: u1 :: u2 :: l) = Ok (X u1 u2, l)) /\
  RInt (fun u1 => RInt (fun u2 => h (X u1 u2)) 0 1) 0 1 = RInt (fun x => h x * dens2 x) (-3) 3.
Proof.
  intros Hu Hh. exists (fun u1 u2 => 3 / 2 * (u1 + u2 - 1)). split; [intros; apply branch2; exact Hu|].
  rewrite sum2_int by exact Hh. rewrite dens2_int3 by exact Hh. symmetry. apply is_RInt_unique. apply dens2_int. exact Hh.
Qed.

(** the integral of a step function *)
Lemma step_int v c : 0 <= v <= 1 -> is_RInt (fun u => if Rlt_dec v u then 0 else c) 0 1 (c * v).
Proof.
  intros Hv.
  assert (I1 : is_RInt (fun u => if Rlt_dec v u then 0 else c) 0 v (scal (v - 0) c)).
  { apply (is_RInt_ext (fun _ => c)); [|apply (is_RInt_const (V := R_NormedModule))].
    intros x Hx. rewrite Rmin_left, Rmax_right in Hx by lra. destruct (Rlt_dec v x); [lra|reflexivity]. }
  assert (I2 : is_RInt (fun u => if Rlt_dec v u then 0 else c) v 1 (scal (1 - v) 0)).
  { apply (is_RInt_ext (fun _ => 0)); [|apply (is_RInt_const (V := R_NormedModule))].
    intros x Hx. rewrite Rmin_left, Rmax_right in Hx by lra. destruct (Rlt_dec v x); [reflexivity|lra]. }
  pose proof (is_RInt_Chasles _ _ _ _ _ _ I1 I2) as I.
  match type of I with is_RInt _ _ _ ?w => replace (c * v) with w; [exact I|] end.
  unfold plus, scal; simpl. unfold mult; simpl. req; ring.
Qed.


(** one trial of the third branch: the values that are accepted *)
Lemma branch3_law u (h : R -> R) : in_wedge u -> (forall x, continuous h x) ->
  RInt (fun u1 => RInt (fun u2 => taken (normal 1 [u; u1; u2]) h) 0 1) 0 1 =
  RInt (fun x => h x * g (A := Rarith) x) (-3) 3 / (6 * (358 / 1000)).
Proof.
  intros Hu Hh.
  transitivity (RInt (fun u1 => scal 6 ((fun x => h x * g (A := Rarith) x / (6 * (358 / 1000))) (6 * u1 + (-3)))) 0 1).
  - apply RInt_ext. intros u1 Hu1. rewrite Rmin_left, Rmax_right in Hu1 by lra.
    pose proof (g_range (6 * u1 - 3) ltac:(lra)) as Hg.
    set (v := g (A := Rarith) (6 * u1 - 3) / (358 / 1000)).
    assert (Hv : 0 <= v <= 1) by (unfold v; lra).
    transitivity (h (6 * u1 - 3) * v).
    2:{ unfold v, scal; simpl. unfold mult; simpl. replace (6 * u1 + -3) with (6 * u1 - 3) by ring. req; field. }
    apply is_RInt_unique. apply (is_RInt_ext (fun u2 => if Rlt_dec v u2 then 0 else h (6 * u1 - 3))); [|apply step_int; exact Hv].
    intros u2 _. destruct (wedge_case 0 u u1 u2 [] Hu) as [A B].
    destruct (Rlt_dec v u2) as [L|L].
    + rewrite B by (unfold v in L; lra). rewrite branch3 by exact Hu. reflexivity.
    + rewrite A by (unfold v in L; lra). reflexivity.
  - etransitivity; [apply (RInt_comp_lin (V := R_CompleteNormedModule) (fun x => h x * g (A := Rarith) x / (6 * (358 / 1000))) 6 (-3) 0 1)|].
    2:{ replace (6 * 0 + -3) with (-3) by ring. replace (6 * 1 + -3) with 3 by ring.
      transitivity (scal (/ (6 * (358 / 1000))) (RInt (fun x => h x * g (A := Rarith) x) (-3) 3)).
      * rewrite <- (RInt_scal (V := R_CompleteNormedModule)).
        -- apply RInt_ext. intros x _. unfold scal; simpl. unfold mult; simpl. unfold Rdiv. req; ring.
        -- apply (ex_RInt_continuous (V := R_CompleteNormedModule)). intros z _.
           apply (continuous_mult h (g (A := Rarith))); [apply Hh|apply g_cont].
      * unfold scal; simpl. unfold mult; simpl. unfold Rdiv. req; ring. }
    replace (6 * 0 + -3) with (-3) by ring. replace (6 * 1 + -3) with 3 by ring.
    apply (ex_RInt_continuous (V := R_CompleteNormedModule)). intros z _.
      apply (continuous_ext (fun x => scal (/ (6 * (358 / 1000))) (h x * g (A := Rarith) x))).
      { intros y. unfold scal; simpl. unfold mult; simpl. unfold Rdiv. req; ring. }
      apply (continuous_scal_r (V := R_NormedModule) (/ (6 * (358 / 1000))) (fun x => h x * g (A := Rarith) x)).
      apply (continuous_mult h (g (A := Rarith))); [apply Hh|apply g_cont].
Qed.
