(** C13: the points beyond 3 have the law of a normal pair. *)
From Coq Require Import ZArith Bool Lia Reals Lra Psatz List.
From Coquelicot Require Import Coquelicot.
From Verif Require Import Base Arith RealArith M_Random S_Normal S_NormTail S_NormPlane P_Norm P_NormMix P_NormTail.
Import ListNotations.
Open Scope R_scope.

Definition gau (u : R) : R := exp (- (u * u) / 2).
Lemma gau_cont x : continuous gau x.
Proof. apply (ex_derive_continuous (V := R_NormedModule)). unfold gau. auto_derive. auto. Qed.
Lemma gau_ex a b : ex_RInt gau a b.
Proof. apply (ex_RInt_continuous (V := R_CompleteNormedModule)). intros. apply gau_cont. Qed.
Lemma gau_diff a b : RInt gau 0 b - RInt gau 0 a = RInt gau a b.
Proof. pose proof (RInt_Chasles gau 0 a b (gau_ex _ _) (gau_ex _ _)) as H. change (RInt gau 0 a + RInt gau a b = RInt gau 0 b) in H. rewrite <- H. ring. Qed.
Definition Gi (T : R) : R := RInt gau 0 T.
Lemma Gi_derive T : is_derive Gi T (gau T).
Proof. apply (is_derive_RInt (V := R_NormedModule) gau Gi 0 T); [apply filter_forall; intros y; exact (RInt_correct gau 0 y (gau_ex 0 y))|apply gau_cont]. Qed.
Lemma one_s s : 0 < 1 + s * s.
Proof. nra. Qed.

(** ** the kernel, in the variable s = tan t *)
Definition ker (T s : R) : R := exp ((9 - T * T * (1 + s * s)) / 2) / (1 + s * s).
Lemma ker_derive T s : is_derive (fun z => ker z s) T (- (T * exp ((9 - T * T * (1 + s * s)) / 2))).
Proof. pose proof (one_s s). unfold ker. auto_derive; [lra|]. match goal with |- context [exp ?e] => replace e with ((9 - T * T * (1 + s * s)) / 2) by (unfold Rdiv; ring) end. field. lra. Qed.
Lemma ker_cont T s : continuous (ker T) s.
Proof. pose proof (one_s s). apply (ex_derive_continuous (V := R_NormedModule)). unfold ker. auto_derive. lra. Qed.
Lemma ker_ex T a b : ex_RInt (ker T) a b.
Proof. apply (ex_RInt_continuous (V := R_CompleteNormedModule)). intros. apply ker_cont. Qed.
Lemma kerD_cont T s : continuity_2d_pt (fun u v => Derive (fun z => ker z v) u) T s.
Proof.
  apply (continuity_2d_pt_ext (fun u v => - (u * exp ((9 - u * u * (1 + v * v)) * / 2)))).
  { intros x y. symmetry. apply is_derive_unique. exact (ker_derive x y). }
  apply continuity_2d_pt_opp. apply continuity_2d_pt_mult; [apply continuity_2d_pt_id1|].
  apply (continuity_1d_2d_pt_comp exp). { apply derivable_continuous_pt. apply derivable_pt_exp. }
  apply continuity_2d_pt_mult; [|apply continuity_2d_pt_const]. apply continuity_2d_pt_minus; [apply continuity_2d_pt_const|].
  apply continuity_2d_pt_mult; [apply continuity_2d_pt_mult; apply continuity_2d_pt_id1|]. apply continuity_2d_pt_plus; [apply continuity_2d_pt_const|].
  apply continuity_2d_pt_mult; apply continuity_2d_pt_id2.
Qed.
(** the substitution u = T s *)
Lemma ker_int T a b : RInt (fun s => Derive (fun z => ker z s) T) a b = - (exp (9 / 2) * gau T * RInt gau (T * a) (T * b)).
Proof.
  assert (E : RInt gau (T * a) (T * b) = RInt (fun s => scal T (gau (T * s))) a b).
  { symmetry. apply (RInt_comp (V := R_CompleteNormedModule) gau (fun s => T * s) (fun _ => T)); intros s _.
    - apply gau_cont.
    - split; [auto_derive; [auto|ring]|apply continuous_const]. }
  rewrite E. clear E. rewrite <- (Ropp_mult_distr_l_reverse (exp (9 / 2) * gau T)).
  change (- (exp (9 / 2) * gau T) * RInt (fun s => scal T (gau (T * s))) a b) with (scal (- (exp (9 / 2) * gau T)) (RInt (fun s => scal T (gau (T * s))) a b)).
  rewrite <- RInt_scal.
  2:{ apply (ex_RInt_continuous (V := R_CompleteNormedModule)). intros z _. apply (ex_derive_continuous (V := R_NormedModule)). unfold scal, gau. cbn. unfold mult. cbn. auto_derive. auto. }
  apply RInt_ext. intros s _. assert (D : Derive (fun z : R => ker z s) T = - (T * exp ((9 - T * T * (1 + s * s)) / 2))) by (apply is_derive_unique; apply ker_derive). cbv beta. etransitivity; [exact D|]. unfold scal, gau. cbn. unfold mult. cbn.
  replace (exp ((9 - T * T * (1 + s * s)) / 2)) with (exp (9 / 2) * exp (- (T * T) / 2) * exp (- (T * s * (T * s)) / 2)); [ring|].
  rewrite <- !exp_plus. f_equal. field.
Qed.
Lemma V_derive a b T : is_derive (fun z => RInt (ker z) a b) T (- (exp (9 / 2) * gau T * RInt gau (T * a) (T * b))).
Proof.
  rewrite <- ker_int. apply (is_derive_RInt_param (fun z s => ker z s)).
  - apply filter_forall. intros x t _. eexists. apply ker_derive.
  - intros t _. apply kerD_cont.
  - apply filter_forall. intros y. apply ker_ex.
Qed.
Lemma gauint_cont (a b T : R) : continuous (fun x => exp (9 / 2) * gau x * RInt gau (x * a) (x * b)) T.
Proof.
  apply (continuous_mult (K := R_AbsRing)).
  - apply (continuous_mult (K := R_AbsRing)); [apply continuous_const|apply gau_cont].
  - apply (continuous_ext (fun x => RInt gau 0 (x * b) - RInt gau 0 (x * a))).
    { intros x. apply gau_diff. }
    assert (K : forall c, continuous (fun x => RInt gau 0 (x * c)) T).
    { intros c. apply (continuous_comp (fun x => x * c) (fun y => RInt gau 0 y)).
      - apply (ex_derive_continuous (V := R_NormedModule)). auto_derive. auto.
      - apply (ex_derive_continuous (V := R_NormedModule) Gi). eexists. apply Gi_derive. }
    apply (continuous_minus (V := R_NormedModule)); apply K.
Qed.
(** the wedge between the slopes a and b, cut off at x = q and x = T *)
Lemma wedge_int a b q T : RInt (ker q) a b - RInt (ker T) a b = RInt (fun x => exp (9 / 2) * gau x * RInt gau (x * a) (x * b)) q T.
Proof.
  symmetry. apply is_RInt_unique.
  pose proof (is_RInt_derive (V := R_CompleteNormedModule) (fun z => - RInt (ker z) a b) (fun x => exp (9 / 2) * gau x * RInt gau (x * a) (x * b)) q T) as H.
  replace (RInt (ker q) a b - RInt (ker T) a b) with (minus (- RInt (ker T) a b) (- RInt (ker q) a b)) by (unfold minus, plus, opp; cbn; ring).
  apply H.
  - intros x _. replace (exp (9 / 2) * gau x * RInt gau (x * a) (x * b)) with (opp (- (exp (9 / 2) * gau x * RInt gau (x * a) (x * b)))) by (unfold opp; cbn; ring).
    apply (is_derive_opp (V := R_NormedModule)). apply V_derive.
  - intros x _. apply gauint_cont.
Qed.
(** ** the Gaussian integral *)
Lemma exp_ge1 y : 0 <= y -> 1 + y <= exp y.
Proof. intros H. destruct (Req_dec y 0) as [->|N]; [rewrite exp_0; lra|]. left. apply exp_ineq1. exact N. Qed.
Lemma exp_inv_le y : 0 <= y -> exp (- y) <= / (1 + y).
Proof. intros H. rewrite exp_Ropp. apply Rinv_le_contravar; [lra|]. apply exp_ge1. exact H. Qed.
Lemma Gi_sq T : Gi T * Gi T = PI / 2 - 2 * (exp (- (9 / 2)) * RInt (ker T) 0 1).
Proof.
  pose proof (wedge_int 0 1 0 T) as H.
  assert (A : RInt (ker 0) 0 1 = exp (9 / 2) * (PI / 4)).
  { apply is_RInt_unique. replace (exp (9 / 2) * (PI / 4)) with (minus (exp (9 / 2) * atan 1) (exp (9 / 2) * atan 0)) by (unfold minus, plus, opp; cbn; rewrite atan_1, atan_0; ring).
    apply (is_RInt_derive (V := R_CompleteNormedModule) (fun s => exp (9 / 2) * atan s) (ker 0)).
    - intros s _. replace (ker 0 s) with (exp (9 / 2) * / (1 + s²)). { apply is_derive_scal. apply is_derive_atan. }
      unfold ker, Rsqr. replace ((9 - 0 * 0 * (1 + s * s)) / 2) with (9 / 2) by field. reflexivity.
    - intros s _. apply ker_cont. }
  assert (B : RInt (fun x => exp (9 / 2) * gau x * RInt gau (x * 0) (x * 1)) 0 T = exp (9 / 2) * (Gi T * Gi T / 2)).
  { apply is_RInt_unique.
    replace (exp (9 / 2) * (Gi T * Gi T / 2)) with (minus (exp (9 / 2) * (Gi T * Gi T / 2)) (exp (9 / 2) * (Gi 0 * Gi 0 / 2))).
    2:{ assert (Z : Gi 0 = 0) by exact (RInt_point (V := R_CompleteNormedModule) 0 gau). rewrite Z. unfold minus, plus, opp; cbn. field. }
    apply (is_RInt_derive (V := R_CompleteNormedModule) (fun x => exp (9 / 2) * (Gi x * Gi x / 2)) (fun x => exp (9 / 2) * gau x * RInt gau (x * 0) (x * 1))).
    - intros x _. rewrite Rmult_0_r, Rmult_1_r. fold (Gi x).
      assert (D : is_derive (fun x => Gi x * Gi x) x (gau x * Gi x + Gi x * gau x)) by (apply (is_derive_mult Gi Gi x (gau x) (gau x)); [apply Gi_derive|apply Gi_derive|intros; apply Rmult_comm]).
      pose proof (is_derive_scal (fun x => Gi x * Gi x) x (exp (9 / 2) / 2) _ D) as D2.
      eapply is_derive_ext_loc; [|eapply is_derive_ext; [|]]; [apply filter_forall; intros y; reflexivity| |].
      2:{ replace (exp (9 / 2) * gau x * Gi x) with (exp (9 / 2) / 2 * (gau x * Gi x + Gi x * gau x)) by field. exact D2. }
      intros y. cbn. field.
    - intros x _. apply gauint_cont. }
  rewrite A, B in H. assert (E : exp (- (9 / 2)) * exp (9 / 2) = 1) by (rewrite <- exp_plus; replace (- (9 / 2) + 9 / 2) with 0 by ring; apply exp_0).
  assert (P : 0 < exp (9 / 2)) by apply exp_pos.
  assert (H2 : exp (- (9 / 2)) * (exp (9 / 2) * (PI / 4) - RInt (ker T) 0 1) = exp (- (9 / 2)) * (exp (9 / 2) * (Gi T * Gi T / 2))) by (rewrite H; reflexivity).
  replace (exp (- (9 / 2)) * (exp (9 / 2) * (PI / 4) - RInt (ker T) 0 1)) with (exp (- (9 / 2)) * exp (9 / 2) * (PI / 4) - exp (- (9 / 2)) * RInt (ker T) 0 1) in H2 by ring.
  replace (exp (- (9 / 2)) * (exp (9 / 2) * (Gi T * Gi T / 2))) with (exp (- (9 / 2)) * exp (9 / 2) * (Gi T * Gi T / 2)) in H2 by ring.
  rewrite E in H2. lra.
Qed.
Lemma ker_bound T s : 0 < ker T s <= exp ((9 - T * T) / 2).
Proof.
  pose proof (one_s s). unfold ker. split; [apply Rdiv_lt_0_compat; [apply exp_pos|lra]|].
  apply Rle_trans with (exp ((9 - T * T * (1 + s * s)) / 2)).
  - rewrite <- (Rmult_1_r (exp _)) at 2. unfold Rdiv. apply Rmult_le_compat_l; [left; apply exp_pos|]. rewrite <- Rinv_1. apply Rinv_le_contravar; nra.
  - apply Raux.exp_le. assert (0 <= T * T * (s * s)) by (apply Rmult_le_pos; nra). lra.
Qed.
Lemma ker_int1 T : 0 <= RInt (ker T) 0 1 <= exp ((9 - T * T) / 2).
Proof.
  split.
  - apply RInt_ge_0; [lra|apply ker_ex|]. intros x _. left. apply ker_bound.
  - rewrite <- (Rmult_1_l (exp _)). replace 1 with (1 - 0) at 2 by ring. rewrite <- (RInt_const (V := R_CompleteNormedModule) 0 1) || idtac.
    replace ((1 - 0) * exp ((9 - T * T) / 2)) with (RInt (fun _ => exp ((9 - T * T) / 2)) 0 1) by (rewrite RInt_const; reflexivity).
    apply RInt_le; [lra|apply ker_ex|apply ex_RInt_const|]. intros x _. apply ker_bound.
Qed.
Lemma Gi_bounds T : 0 <= T -> 0 <= Gi T /\ PI / 2 - 2 * gau T <= Gi T * Gi T <= PI / 2.
Proof.
  intros H. split.
  - apply RInt_ge_0; [exact H|apply gau_ex|]. intros x _. left. apply exp_pos.
  - rewrite Gi_sq. destruct (ker_int1 T) as [A B]. assert (P : 0 < exp (- (9 / 2))) by apply exp_pos.
    assert (E : exp (- (9 / 2)) * exp ((9 - T * T) / 2) = gau T) by (unfold gau; rewrite <- exp_plus; f_equal; field).
    assert (C : exp (- (9 / 2)) * RInt (ker T) 0 1 <= gau T) by (rewrite <- E; apply Rmult_le_compat_l; lra).
    assert (D : 0 <= exp (- (9 / 2)) * RInt (ker T) 0 1) by (apply Rmult_le_pos; lra). lra.
Qed.
Definition rt2 : R := sqrt (2 * PI).
Lemma rt2_sq : rt2 * rt2 = 2 * PI.
Proof. unfold rt2. apply sqrt_sqrt. pose proof PI_RGT_0. lra. Qed.
Lemma rt2_pos : 2 < rt2.
Proof. unfold rt2. pose proof PI2_1. apply Rlt_le_trans with (sqrt (2 * PI)); [|lra]. replace 2 with (sqrt (2 * 2)) at 1 by (apply sqrt_square; lra). apply sqrt_lt_1_alt. lra. Qed.
Lemma Gi_lim T : 1 <= T -> 0 <= rt2 - 2 * Gi T <= 4 / T.
Proof.
  intros H. destruct (Gi_bounds T ltac:(lra)) as (A & B & C). pose proof rt2_sq. pose proof rt2_pos.
  assert (G : gau T <= / T).
  { unfold gau. replace (- (T * T) / 2) with (- (T * T / 2)) by field. apply Rle_trans with (/ (1 + T * T / 2)); [apply exp_inv_le; nra|]. apply Rinv_le_contravar; nra. }
  assert (0 < / T) by (apply Rinv_0_lt_compat; lra). unfold Rdiv. split; nra.
Qed.
Lemma gau_phi x : gau x = rt2 * phi x.
Proof. unfold gau, phi. fold rt2. pose proof rt2_pos. field. lra. Qed.
Lemma gau_phi_int a b : RInt gau a b = rt2 * RInt phi a b.
Proof.
  pose proof rt2_pos. assert (C : forall x, continuous phi x). { intros x. apply (continuous_ext (fun x => / rt2 * gau x)). - intros y. change (/ rt2 * gau y = phi y). rewrite gau_phi. field. lra. - apply (continuous_mult (K := R_AbsRing)); [apply continuous_const|apply gau_cont]. }
  rewrite (RInt_ext gau (fun x => scal rt2 (phi x))) by (intros; apply gau_phi). rewrite (RInt_scal phi); [reflexivity|]. apply (ex_RInt_continuous (V := R_CompleteNormedModule)). intros. apply C.
Qed.
