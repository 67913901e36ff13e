(** The mean of a test function over the central branches of the sampler. *)
From Coq Require Import ZArith Reals List Bool Lra Lia.
From Coquelicot Require Import Coquelicot.
From Verif Require Import Base Arith RealArith M_Random S_Normal P_RBounds P_Norm P_NormDens P_NormMix P_NormMass.
Import ListNotations.
Open Scope R_scope.

Lemma int_const (c l u : R) : RInt (fun _ => c) l u = (u - l) * c.
Proof. rewrite RInt_const. unfold scal; simpl. unfold mult; simpl. reflexivity. Qed.
Lemma int_unit (c : R) : RInt (fun _ => c) 0 1 = c.
Proof. rewrite int_const. req; ring. Qed.

Definition c1 : R := 8638 / 10000.
Definition c2 : R := 9745 / 10000.
Definition c3 : R := 9973002039 / 10000000000.

Lemma mean1_1 u (h : R -> R) : u < c1 -> (forall x, continuous h x) -> mean1 h u = RInt (fun x => h x * dens3 x) (-3) 3.
Proof.
  intros Hu Hh. destruct (branch1_law u h 1 Hu Hh) as [X [HX E]]. rewrite <- E. unfold mean1.
  apply RInt_ext. intros u1 _. apply RInt_ext. intros u2 _. apply RInt_ext. intros u3 _. rewrite HX. reflexivity.
Qed.
Lemma mean1_2 u (h : R -> R) : c1 <= u < c2 -> (forall x, continuous h x) -> mean1 h u = RInt (fun x => h x * dens2 x) (-3) 3.
Proof.
  intros Hu Hh. destruct (branch2_law u h 1 Hu Hh) as [X [HX E]]. rewrite <- E. unfold mean1.
  apply RInt_ext. intros u1 _. apply RInt_ext. intros u2 _. rewrite <- (int_unit (h (X u1 u2))).
  apply RInt_ext. intros u3 _. rewrite HX. reflexivity.
Qed.
Lemma mean1_3 u (h : R -> R) : in_wedge u -> (forall x, continuous h x) ->
  mean1 h u = RInt (fun x => h x * g (A := Rarith) x) (-3) 3 / (6 * (358 / 1000)).
Proof.
  intros Hu Hh. rewrite <- (branch3_law u h Hu Hh). unfold mean1.
  apply RInt_ext. intros u1 _. apply RInt_ext. intros u2 _. rewrite <- int_unit.
  apply RInt_ext. intros u3 _. destruct (wedge_case 0 u u1 u2 [u3] Hu) as [A B]. destruct (wedge_case 0 u u1 u2 [] Hu) as [A' B'].
  destruct (Rlt_dec (g (A := Rarith) (6 * u1 - 3)) (358 / 1000 * u2)) as [L|L].
  - rewrite B, B' by exact L. rewrite !branch3 by exact Hu. reflexivity.
  - rewrite A, A' by lra. reflexivity.
Qed.

Lemma one_cont (x : R) : continuous (fun _ : R => 1) x.
Proof. apply continuous_const. Qed.

(** ** Masses *)
Lemma mass3 : RInt (fun x => 1 * dens3 x) (-3) 3 = 1.
Proof.
  destruct (branch1_law 0 (fun _ => 1) 1 ltac:(lra) one_cont) as [X [HX E]]. rewrite <- E. rewrite !int_unit. reflexivity.
Qed.
Lemma mass2 : RInt (fun x => 1 * dens2 x) (-3) 3 = 1.
Proof.
  destruct (branch2_law (9 / 10) (fun _ => 1) 1 ltac:(lra) one_cont) as [X [HX E]]. rewrite <- E. rewrite !int_unit. reflexivity.
Qed.

Section Test.
Variable h : R -> R.
Hypothesis Hh : forall x, continuous h x.

Lemma ex3 : ex_RInt (fun x => h x * dens3 x) (-3) 3.
Proof. eexists. apply dens3_int. exact Hh. Qed.
Lemma ex2 : ex_RInt (fun x => h x * dens2 x) (-3) 3.
Proof.
  apply (ex_RInt_continuous (V := R_CompleteNormedModule)). intros z _.
  apply (continuous_mult h dens2); [apply Hh|].
  apply (continuous_ext (fun x => pos (3 / 2 - Rabs x) * (4 / 9))); [intros; symmetry; apply dens2_pos|].
  apply cont_R. unfold pos. reg.
Qed.
Lemma exg : ex_RInt (fun x => h x * g (A := Rarith) x) (-3) 3.
Proof.
  apply (ex_RInt_continuous (V := R_CompleteNormedModule)). intros z _.
  apply (continuous_mult h (g (A := Rarith))); [apply Hh|apply g_cont].
Qed.
Lemma phi_cont x : continuous phi x.
Proof.
  apply (continuous_ext (fun x => phi0 * exp (- (x * x) / 2))); [intros; symmetry; apply phi_eq|].
  apply (ex_derive_continuous (V := R_NormedModule)). auto_derive. auto.
Qed.
Lemma exphi : ex_RInt (fun x => h x * phi x) (-3) 3.
Proof.
  apply (ex_RInt_continuous (V := R_CompleteNormedModule)). intros z _.
  apply (continuous_mult h phi); [apply Hh|apply phi_cont].
Qed.

Definition I3 : R := RInt (fun x => h x * dens3 x) (-3) 3.
Definition I2 : R := RInt (fun x => h x * dens2 x) (-3) 3.
Definition Ig : R := RInt (fun x => h x * g (A := Rarith) x) (-3) 3.
Definition Iphi : R := RInt (fun x => h x * phi x) (-3) 3.

Lemma mix_int : is_RInt (fun x => h x * mix x) (-3) 3 (c1 * I3 + (c2 - c1) * I2 + (c3 - c2) * Ig).
Proof.
  pose proof (RInt_correct _ _ _ ex3) as A. pose proof (RInt_correct _ _ _ ex2) as B. pose proof (RInt_correct _ _ _ exg) as C.
  fold I3 in A. fold I2 in B. fold Ig in C.
  apply (is_RInt_scal (V := R_NormedModule) _ _ _ c1) in A.
  apply (is_RInt_scal (V := R_NormedModule) _ _ _ (c2 - c1)) in B.
  apply (is_RInt_scal (V := R_NormedModule) _ _ _ (c3 - c2)) in C.
  pose proof (is_RInt_plus (V := R_NormedModule) _ _ _ _ _ _ (is_RInt_plus (V := R_NormedModule) _ _ _ _ _ _ A B) C) as D.
  eapply is_RInt_ext; [|exact D].
  intros x _. unfold mix, c1, c2, c3, plus, scal; simpl. unfold mult; simpl. req; ring.
Qed.

Variable M : R.
Hypothesis HM : forall x, -3 <= x <= 3 -> Rabs (h x) <= M.
Lemma M_pos : 0 <= M.
Proof. pose proof (HM 0 ltac:(lra)). pose proof (Rabs_pos (h 0)). lra. Qed.

Lemma mix_near : Rabs (c1 * I3 + (c2 - c1) * I2 + (c3 - c2) * Ig - Iphi) <= 6 / 1000000000 * M.
Proof.
  pose proof (is_RInt_minus (V := R_NormedModule) _ _ _ _ _ _ mix_int (RInt_correct _ _ _ exphi)) as D.
  fold Iphi in D.
  pose proof (norm_RInt_le_const (V := R_NormedModule) (fun x => minus (h x * mix x) (h x * phi x)) (-3) 3 _ (M * (1 / 1000000000))
    ltac:(lra) (fun x Hx => ltac:(
      change (Rabs (h x * mix x + - (h x * phi x)) <= M * (1 / 1000000000));
      replace (h x * mix x + - (h x * phi x)) with (h x * (mix x - phi x)) by ring; rewrite Rabs_mult;
      apply Rmult_le_compat; [apply Rabs_pos|apply Rabs_pos|apply HM; exact Hx|apply mixture; exact Hx])) D) as K.
  change (Rabs (c1 * I3 + (c2 - c1) * I2 + (c3 - c2) * Ig + - Iphi) <= (3 - -3) * (M * (1 / 1000000000))) in K.
  unfold Rminus at 1. lra.
Qed.
End Test.

Lemma phi_mass : Rabs (RInt phi (-3) 3 - c3) <= 1 / 1000000000.
Proof.
  assert (E : RInt phi (-3) 3 = phi0 * gauss_mass).
  { unfold gauss_mass. pose proof (RInt_scal (V := R_CompleteNormedModule) (fun x => exp (- (x * x / 2))) (-3) 3 phi0 (gauss_ex (-3) 3)) as S.
    change (scal phi0 (RInt (fun x : R => exp (- (x * x / 2))) (-3) 3)) with (phi0 * RInt (fun x : R => exp (- (x * x / 2))) (-3) 3) in S.
    rewrite <- S. apply RInt_ext. intros x _. rewrite phi_eq. unfold scal; simpl; unfold mult; simpl. req. f_equal. f_equal. field. }
  rewrite E. pose proof phi0_bounds. pose proof gauss_mass_bounds. unfold c3. apply Rabs_le. nra.
Qed.

Lemma one_le x : -3 <= x <= 3 -> Rabs ((fun _ => 1) x) <= 1.
Proof. intros _. cbv beta. rewrite Rabs_R1. lra. Qed.
Lemma g_mass : Rabs (RInt (fun x => 1 * g (A := Rarith) x) (-3) 3 - 1) <= 1 / 1000000.
Proof.
  pose proof (mix_near (fun _ => 1) one_cont 1 one_le) as H.
  unfold I3, I2, Iphi in H. rewrite mass3, mass2 in H.
  rewrite (RInt_ext (fun x => 1 * phi x) phi) in H by (intros; req; ring).
  pose proof phi_mass as P. unfold Ig in H. set (G := RInt (fun x => 1 * g (A := Rarith) x) (-3) 3) in *. clearbody G.
  apply Rcomplements.Rabs_le_between in H. apply Rcomplements.Rabs_le_between in P. unfold c1, c2, c3 in *. apply Rabs_le. lra.
Qed.

Section Law.
Variable h : R -> R.
Hypothesis Hh : forall x, continuous h x.
Variable M : R.
Hypothesis HM : forall x, -3 <= x <= 3 -> Rabs (h x) <= M.

Lemma mean_1 u : u < c1 -> mean h u = I3 h.
Proof.
  intros Hu. unfold mean. rewrite (mean1_1 u h Hu Hh), (mean1_1 u (fun _ => 1) Hu one_cont), mass3. unfold I3. req; field.
Qed.
Lemma mean_2 u : c1 <= u < c2 -> mean h u = I2 h.
Proof.
  intros Hu. unfold mean. rewrite (mean1_2 u h Hu Hh), (mean1_2 u (fun _ => 1) Hu one_cont), mass2. unfold I2. req; field.
Qed.
Lemma mean_3 u : in_wedge u -> mean h u = Ig h / Ig (fun _ => 1).
Proof.
  intros Hu. unfold mean. rewrite (mean1_3 u h Hu Hh), (mean1_3 u (fun _ => 1) Hu one_cont). unfold Ig.
  pose proof g_mass as G. set (m := RInt (fun x => 1 * g (A := Rarith) x) (-3) 3) in *. clearbody m.
  apply Rcomplements.Rabs_le_between in G. req; field. lra.
Qed.

Lemma mean_int : is_RInt (mean h) 0 c3 (c1 * I3 h + (c2 - c1) * I2 h + (c3 - c2) * (Ig h / Ig (fun _ => 1))).
Proof.
  assert (A : is_RInt (mean h) 0 c1 (scal (c1 - 0) (I3 h))).
  { apply (is_RInt_ext (fun _ => I3 h)); [|apply (is_RInt_const (V := R_NormedModule))].
    intros x Hx. unfold c1 in Hx. rewrite Rmin_left, Rmax_right in Hx by lra. symmetry. apply mean_1. unfold c1. lra. }
  assert (B : is_RInt (mean h) c1 c2 (scal (c2 - c1) (I2 h))).
  { apply (is_RInt_ext (fun _ => I2 h)); [|apply (is_RInt_const (V := R_NormedModule))].
    intros x Hx. unfold c1, c2 in Hx. rewrite Rmin_left, Rmax_right in Hx by lra. symmetry. apply mean_2. unfold c1, c2. lra. }
  assert (C : is_RInt (mean h) c2 c3 (scal (c3 - c2) (Ig h / Ig (fun _ => 1)))).
  { apply (is_RInt_ext (fun _ => Ig h / Ig (fun _ => 1))); [|apply (is_RInt_const (V := R_NormedModule))].
    intros x Hx. unfold c2, c3 in Hx. rewrite Rmin_left, Rmax_right in Hx by lra. symmetry. apply mean_3. unfold in_wedge. lra. }
  pose proof (is_RInt_Chasles _ _ _ _ _ _ (is_RInt_Chasles _ _ _ _ _ _ A B) C) as D.
  match type of D with is_RInt _ _ _ ?w => replace (c1 * I3 h + (c2 - c1) * I2 h + (c3 - c2) * (Ig h / Ig (fun _ => 1))) with w; [exact D|] end.
  unfold plus, scal; simpl. unfold mult; simpl. req; ring.
Qed.

Lemma Ig_le : Rabs (Ig h) <= M * Ig (fun _ => 1).
Proof.
  unfold Ig.
  assert (E : M * RInt (fun x => 1 * g (A := Rarith) x) (-3) 3 = RInt (fun x => scal M (1 * g (A := Rarith) x)) (-3) 3).
  { symmetry. apply (RInt_scal (V := R_CompleteNormedModule) (fun x => 1 * g (A := Rarith) x) (-3) 3 M (exg (fun _ => 1) one_cont)). }
  rewrite E.
  apply Rle_trans with (RInt (fun x => Rabs (h x * g (A := Rarith) x)) (-3) 3).
  - apply (abs_RInt_le (fun x => h x * g (A := Rarith) x)); [lra|apply exg, Hh].
  - apply RInt_le; [lra| | |].
    + apply (ex_RInt_norm (fun x => h x * g (A := Rarith) x)). apply exg, Hh.
    + apply (ex_RInt_scal (V := R_NormedModule)). apply (exg (fun _ => 1) one_cont).
    + intros x Hx. unfold scal; simpl; unfold mult; simpl. rewrite Rabs_mult.
      pose proof (g_range x ltac:(lra)) as G. rewrite (Rabs_pos_eq (g (A := Rarith) x)) by apply G.
      pose proof (HM x ltac:(lra)). nra.
Qed.

Lemma central_law : Rabs (RInt (mean h) 0 c3 - Iphi h) <= 4 / 100000000 * M.
Proof.
  rewrite (is_RInt_unique _ _ _ _ mean_int). pose proof (mix_near h Hh M HM) as N. pose proof g_mass as G. pose proof Ig_le as L.
  pose proof (M_pos h M HM) as M0.
  unfold Ig in L at 2. unfold Ig at 2.
  set (m := RInt (fun x => 1 * g (A := Rarith) x) (-3) 3) in *. clearbody m. set (i := Ig h) in *. clearbody i.
  assert (D : Rabs (i / m - i) <= M * (1 / 1000000)).
  { apply Rcomplements.Rabs_le_between in G.
    replace (i / m - i) with (i / m * (1 - m)) by (field; lra). rewrite Rabs_mult.
    apply Rmult_le_compat; [apply Rabs_pos|apply Rabs_pos| |].
    - unfold Rdiv. rewrite Rabs_mult, Rabs_inv, (Rabs_pos_eq m) by lra.
      apply Rmult_le_reg_r with m; [lra|]. rewrite Rmult_assoc, Rinv_l by lra. lra.
    - apply Rabs_le. lra. }
  apply Rcomplements.Rabs_le_between in N. apply Rcomplements.Rabs_le_between in D. set (d := i / m) in *. clearbody d.
  set (a := I3 h) in *. set (b := I2 h) in *. set (p := Iphi h) in *. clearbody a b p. unfold c1, c2, c3 in *. apply Rabs_le. lra.
Qed.
End Law.
