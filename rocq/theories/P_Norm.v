(** The residual density of the normal sampler lies between 0 and 0.358. *)
From Coq Require Import ZArith Reals Lra Lia.
From Coquelicot Require Import Coquelicot.
From Verif Require Import Arith RealArith M_Random P_RBounds P_QBounds P_NormEnv.
Open Scope R_scope.

(** ** exp below zero *)
Definition T2 (y : R) : R := 1 + y + y ^ 2 / 2.
Lemma expm_1 t : 0 <= t -> 1 - t <= exp (- t).
Proof. intros. pose proof (exp_ineq1_le (- t)). lra. Qed.
Lemma expm_2 t : 0 <= t -> exp (- t) <= 1 - t + t ^ 2 / 2.
Proof.
  intros Ht. pose proof (incr_from0 (fun t => 1 - t + t ^ 2 / 2 - exp (- t)) (fun t => - 1 + t + exp (- t)) t Ht) as H.
  cbv beta in H. rewrite Ropp_0, exp_0 in H. enough (1 - 0 + 0 ^ 2 / 2 - 1 <= 1 - t + t ^ 2 / 2 - exp (- t)) by lra.
  apply H.
  - intros x _. auto_derive; [auto|]. field.
  - intros x Hx. pose proof (expm_1 x). lra.
Qed.
Lemma expm_3 t : 0 <= t -> 1 - t + t ^ 2 / 2 - t ^ 3 / 6 <= exp (- t).
Proof.
  intros Ht. pose proof (incr_from0 (fun t => exp (- t) - (1 - t + t ^ 2 / 2 - t ^ 3 / 6)) (fun t => - exp (- t) + (1 - t + t ^ 2 / 2)) t Ht) as H.
  cbv beta in H. rewrite Ropp_0, exp_0 in H.
  enough (1 - (1 - 0 + 0 ^ 2 / 2 - 0 ^ 3 / 6) <= exp (- t) - (1 - t + t ^ 2 / 2 - t ^ 3 / 6)) by lra.
  apply H.
  - intros x _. auto_derive; [auto|]. field.
  - intros x Hx. pose proof (expm_2 x). lra.
Qed.
Lemma expm_4 t : 0 <= t -> exp (- t) <= 1 - t + t ^ 2 / 2 - t ^ 3 / 6 + t ^ 4 / 24.
Proof.
  intros Ht. pose proof (incr_from0 (fun t => 1 - t + t ^ 2 / 2 - t ^ 3 / 6 + t ^ 4 / 24 - exp (- t))
    (fun t => - 1 + t - t ^ 2 / 2 + t ^ 3 / 6 + exp (- t)) t Ht) as H.
  cbv beta in H. rewrite Ropp_0, exp_0 in H.
  enough (1 - 0 + 0 ^ 2 / 2 - 0 ^ 3 / 6 + 0 ^ 4 / 24 - 1 <= 1 - t + t ^ 2 / 2 - t ^ 3 / 6 + t ^ 4 / 24 - exp (- t)) by lra.
  apply H.
  - intros x _. auto_derive; [auto|]. field.
  - intros x Hx. pose proof (expm_3 x). lra.
Qed.
Lemma exp_T3 y : y <= 0 -> T3 y <= exp y.
Proof. intros H. pose proof (expm_3 (- y)) as K. rewrite Ropp_involutive in K. unfold T3. specialize (K ltac:(lra)).
  replace ((- y) ^ 2) with (y ^ 2) in K by ring. replace ((- y) ^ 3) with (- y ^ 3) in K by ring. lra. Qed.
Lemma exp_T4 y : y <= 0 -> exp y <= T4 y.
Proof. intros H. pose proof (expm_4 (- y)) as K. rewrite Ropp_involutive in K. unfold T4. specialize (K ltac:(lra)).
  replace ((- y) ^ 2) with (y ^ 2) in K by ring. replace ((- y) ^ 3) with (- y ^ 3) in K by ring.
  replace ((- y) ^ 4) with (y ^ 4) in K by ring. lra. Qed.

(** exp(-x*x/2) for x >= l *)
Lemma exp_split l2 x : exp (- (x * x) / 2) = exp (- (l2 / 2)) * exp ((l2 - x * x) / 2).
Proof. rewrite <- exp_plus. f_equal. field. Qed.
Lemma gauss_up l2 hi x : l2 <= x * x -> exp (- (l2 / 2)) <= hi ->
  ga * exp (- (x * x) / 2) <= ga * (hi * T4 ((l2 - x * x) / 2)).
Proof.
  intros Hx Hh. rewrite (exp_split l2). apply Rmult_le_compat_l; [unfold ga; lra|].
  pose proof (exp_pos (- (l2 / 2))). pose proof (exp_pos ((l2 - x * x) / 2)). apply Rmult_le_compat; try lra.
  apply exp_T4. lra.
Qed.
Lemma gauss_lo l2 lo x : l2 <= x * x -> 0 <= lo -> lo <= exp (- (l2 / 2)) ->
  ga * (lo * T3 ((l2 - x * x) / 2)) <= ga * exp (- (x * x) / 2).
Proof.
  intros Hx H0 Hh. rewrite (exp_split l2). apply Rmult_le_compat_l; [unfold ga; lra|].
  pose proof (exp_pos ((l2 - x * x) / 2)).
  apply Rle_trans with (lo * exp ((l2 - x * x) / 2)).
  - apply Rmult_le_compat_l; auto. apply exp_T3. lra.
  - apply Rmult_le_compat_r; lra.
Qed.

(** ** The three pieces *)
Definition gA (x : R) : R := ga * exp (- (x * x) / 2) - (2 * gb * (3 - x * x) + gc * (3 / 2 - x)).
Definition gB (x : R) : R := ga * exp (- (x * x) / 2) - (gb * (3 - x) * (3 - x) + gc * (3 / 2 - x)).
Definition gC (x : R) : R := ga * exp (- (x * x) / 2) - gb * (3 - x) * (3 - x).

Ltac segment up lem l2 pt :=
  match goal with |- context [exp (- (?x * ?x) / 2)] =>
    let H := fresh in let K := fresh in
    pose proof lem as H; pose proof (up l2 _ x) as K end.

Lemma sq_le l x : 0 <= l -> l <= x -> l * l <= x * x.
Proof. intros. nra. Qed.

Ltac up_seg p l l2 hi E :=
  match goal with Hx : _ <= ?x <= _ |- _ =>
    pose proof (p x ltac:(lra)) as P1;
    pose proof (gauss_up l2 hi x ltac:(pose proof (sq_le l x ltac:(lra) ltac:(lra)); lra)) as P2;
    pose proof E as P3
  end.

Lemma e0 : exp (- (0 / 2)) = 1.
Proof. replace (- (0 / 2)) with 0 by field. apply exp_0. Qed.
Ltac chg lem v := let H := fresh in pose proof lem as H; match type of H with _ <= exp ?e <= _ => replace e with v in H by field end; exact H.

Lemma gA_up x : 0 <= x <= 1 -> gA x <= 358 / 1000.
Proof.
  intros Hx. unfold gA. destruct (Rle_dec x (3 / 10)); [|destruct (Rle_dec x (1 / 2))].
  - pose proof (up_A_0_1_p x ltac:(lra)) as P. pose proof (gauss_up 0 1 x ltac:(nra) ltac:(rewrite e0; lra)). lra.
  - pose proof (up_A_3_10_p x ltac:(lra)) as P. pose proof (sq_le (3 / 10) x ltac:(lra) ltac:(lra)).
    pose proof E3_10 as E. replace (- (9 / 200)) with (- (9 / 100 / 2)) in E by field.
    eapply Rle_trans; [|exact P]. apply Rplus_le_compat_r. apply gauss_up; lra.
  - pose proof (up_A_1_2_p x ltac:(lra)) as P. pose proof (sq_le (1 / 2) x ltac:(lra) ltac:(lra)).
    pose proof E1_2 as E. replace (- (1 / 8)) with (- (1 / 4 / 2)) in E by field.
    eapply Rle_trans; [|exact P]. apply Rplus_le_compat_r. apply gauss_up; lra.
Qed.
Lemma gA_lo x : 0 <= x <= 1 -> 0 <= gA x.
Proof.
  intros Hx. unfold gA.
  destruct (Rle_dec x (3 / 10)); [|destruct (Rle_dec x (1 / 2)); [|destruct (Rle_dec x (3 / 4)); [|destruct (Rle_dec x (7 / 8)); [|destruct (Rle_dec x (15 / 16))]]]].
  - pose proof (lo_A_0_1_p x ltac:(lra)) as P. pose proof (gauss_lo 0 1 x ltac:(nra) ltac:(lra) ltac:(rewrite e0; lra)). lra.
  - pose proof (lo_A_3_10_p x ltac:(lra)) as P. pose proof (sq_le (3 / 10) x ltac:(lra) ltac:(lra)).
    pose proof E3_10 as E. replace (- (9 / 200)) with (- (9 / 100 / 2)) in E by field.
    eapply Rle_trans; [exact P|]. apply Rplus_le_compat_r. apply gauss_lo; lra.
  - pose proof (lo_A_1_2_p x ltac:(lra)) as P. pose proof (sq_le (1 / 2) x ltac:(lra) ltac:(lra)).
    pose proof E1_2 as E. replace (- (1 / 8)) with (- (1 / 4 / 2)) in E by field.
    eapply Rle_trans; [exact P|]. apply Rplus_le_compat_r. apply gauss_lo; lra.
  - pose proof (lo_A_3_4_p x ltac:(lra)) as P. pose proof (sq_le (3 / 4) x ltac:(lra) ltac:(lra)).
    pose proof E3_4 as E. replace (- (9 / 32)) with (- (9 / 16 / 2)) in E by field.
    eapply Rle_trans; [exact P|]. apply Rplus_le_compat_r. apply gauss_lo; lra.
  - pose proof (lo_A_7_8_p x ltac:(lra)) as P. pose proof (sq_le (7 / 8) x ltac:(lra) ltac:(lra)).
    pose proof E7_8 as E. replace (- (49 / 128)) with (- (49 / 64 / 2)) in E by field.
    eapply Rle_trans; [exact P|]. apply Rplus_le_compat_r. apply gauss_lo; lra.
  - pose proof (lo_A_15_16_p x ltac:(lra)) as P. pose proof (sq_le (15 / 16) x ltac:(lra) ltac:(lra)).
    pose proof E15_16 as E. replace (- (225 / 512)) with (- (225 / 256 / 2)) in E by field.
    eapply Rle_trans; [exact P|]. apply Rplus_le_compat_r. apply gauss_lo; lra.
Qed.
Lemma gB_up x : 1 <= x <= 3 / 2 -> gB x <= 358 / 1000.
Proof.
  intros Hx. unfold gB. destruct (Rle_dec x (5 / 4)).
  - pose proof (up_B_1_1_p x ltac:(lra)) as P. pose proof (sq_le 1 x ltac:(lra) ltac:(lra)).
    pose proof E1_1 as E. replace (- (1 / 2)) with (- (1 / 2)) in E by field.
    eapply Rle_trans; [|exact P]. apply Rplus_le_compat_r. apply gauss_up; lra.
  - pose proof (up_B_5_4_p x ltac:(lra)) as P. pose proof (sq_le (5 / 4) x ltac:(lra) ltac:(lra)).
    pose proof E5_4 as E. replace (- (25 / 32)) with (- (25 / 16 / 2)) in E by field.
    eapply Rle_trans; [|exact P]. apply Rplus_le_compat_r. apply gauss_up; lra.
Qed.
Lemma gB_lo x : 1 <= x <= 3 / 2 -> 0 <= gB x.
Proof.
  intros Hx. unfold gB.
  pose proof (lo_B_1_1_p x ltac:(lra)) as P. pose proof (sq_le 1 x ltac:(lra) ltac:(lra)).
  pose proof E1_1 as E.
  eapply Rle_trans; [exact P|]. apply Rplus_le_compat_r. apply gauss_lo; lra.
Qed.
Lemma gC_up x : 3 / 2 <= x <= 3 -> gC x <= 358 / 1000.
Proof.
  intros Hx. unfold gC. destruct (Rle_dec x (9 / 4)); [|destruct (Rle_dec x (5 / 2))].
  - pose proof (up_C_3_2_p x ltac:(lra)) as P. pose proof (sq_le (3 / 2) x ltac:(lra) ltac:(lra)).
    pose proof E3_2 as E. replace (- (9 / 8)) with (- (9 / 4 / 2)) in E by field.
    eapply Rle_trans; [|exact P]. apply Rplus_le_compat_r. apply gauss_up; lra.
  - pose proof (up_C_9_4_p x ltac:(lra)) as P. pose proof (sq_le (9 / 4) x ltac:(lra) ltac:(lra)).
    pose proof E9_4 as E. replace (- (81 / 32)) with (- (81 / 16 / 2)) in E by field.
    eapply Rle_trans; [|exact P]. apply Rplus_le_compat_r. apply gauss_up; lra.
  - pose proof (up_C_5_2_p x ltac:(lra)) as P. pose proof (sq_le (5 / 2) x ltac:(lra) ltac:(lra)).
    pose proof E5_2 as E. replace (- (25 / 8)) with (- (25 / 4 / 2)) in E by field.
    eapply Rle_trans; [|exact P]. apply Rplus_le_compat_r. apply gauss_up; lra.
Qed.

(** exp(1-x*x/4) >= 3-x, with equality at 2 *)
Lemma touch x : 3 / 2 <= x <= 3 -> 3 - x <= exp (1 - x * x / 4).
Proof.
  intros Hx. destruct (Rle_dec 2 x) as [H2|H2].
  - pose proof (exp_T3 (1 - x * x / 4) ltac:(nra)) as H. eapply Rle_trans; [|exact H]. unfold T3.
    set (d := x - 2). assert (0 <= d <= 1) by (unfold d; lra). replace x with (2 + d) by (unfold d; lra). clearbody d.
    enough (0 <= d ^ 2 * (1 / 4 + d / 4 + d ^ 2 / 32 - d * (1 + d / 4) ^ 3 / 6)) by nra.
    apply Rmult_le_pos; [apply pow_le; lra|].
    assert ((1 + d / 4) ^ 3 <= 2).
    { assert (1 + d / 4 <= 5 / 4) by lra. assert (0 <= 1 + d / 4) by lra. pose proof (pow_incr (1 + d / 4) (5 / 4) 3 ltac:(lra)). lra. }
    assert (0 <= d ^ 2) by (apply pow_le; lra). nra.
  - set (d := 2 - x). assert (0 <= d <= 1 / 2) by (unfold d; lra). replace x with (2 - d) by (unfold d; lra). clearbody d.
    replace (1 - (2 - d) * (2 - d) / 4) with (d - d ^ 2 / 4) by field.
    pose proof (exp_lower 2 (d - d ^ 2 / 4) ltac:(nra)) as H0. eapply Rle_trans; [|exact H0].
    cbn [etaylor]. change (INR (Factorial.fact 1)) with 1. replace (INR (Factorial.fact 2)) with 2 by (simpl; lra).
    assert (0 <= d ^ 2) by (apply pow_le; lra). assert (d ^ 2 <= d / 2) by nra.
    assert (d * (7 / 8) <= d - d ^ 2 / 4) by lra. assert ((d * (7 / 8)) ^ 2 <= (d - d ^ 2 / 4) ^ 2) by (apply pow_incr; lra).
    nra.
Qed.
Lemma gC_lo x : 3 / 2 <= x <= 3 -> 0 <= gC x.
Proof.
  intros Hx. unfold gC. pose proof (touch x Hx) as H.
  assert (E : exp (- (x * x) / 2) = exp (- 2) * (exp (1 - x * x / 4) * exp (1 - x * x / 4))).
  { rewrite <- !exp_plus. f_equal. field. }
  rewrite E. set (e := exp (1 - x * x / 4)) in *.
  assert (H2 : gb <= ga * exp (- 2)).
  { pose proof (exp_neg_between 2 1 (QArith_base.Qmake 1353352 10000000) (QArith_base.Qmake 1353353 10000000) 12 4) as K.
    unfold Rdefinitions.Q2R in K. cbn [QArith_base.Qnum QArith_base.Qden] in K.
    replace (- (2 / 1)) with (- 2) in K by field. pose proof (proj1 (K ltac:(vm_compute; reflexivity))). unfold gb, ga. lra. }
  assert ((3 - x) * (3 - x) <= e * e) by nra.
  assert (0 <= (3 - x) * (3 - x)) by nra. assert (0 < gb) by (unfold gb; lra). nra.
Qed.

(** ** g *)
Lemma gR x : g (A := Rarith) x =
  if Rlt_dec (Rabs x) 1 then gA (Rabs x) else if Rlt_dec (Rabs x) (3 / 2) then gB (Rabs x) else gC (Rabs x).
Proof.
  assert (E : forall a, Rabs a * Rabs a = a * a) by (intros a; rewrite <- Rabs_mult; apply Rabs_pos_eq; nra).
  unfold g. cbn [lit fabs fexp neg mul div sub add flt Rarith num].
  change (IZR (10 ^ 8)) with 100000000. change (IZR (10 ^ 0)) with 1. change (IZR (10 ^ 1)) with 10.
  unfold Rltb, gA, gB, gC, ga, gb, gc. rewrite E.
  replace (- x * x / (2 / 1)) with (- (x * x) / 2) by field. generalize (exp (- (x * x) / 2)). intros e.
  destruct (Rlt_dec (Rabs x) (1 / 1)), (Rlt_dec (Rabs x) 1); try lra.
  destruct (Rlt_dec (Rabs x) (15 / 10)), (Rlt_dec (Rabs x) (3 / 2)); try lra; try field.
Qed.

Lemma g_range x : - 3 <= x <= 3 -> 0 <= g (A := Rarith) x <= 358 / 1000.
Proof.
  intros Hx. assert (H : 0 <= Rabs x <= 3) by (split; [apply Rabs_pos|apply Rabs_le; lra]).
  rewrite gR. destruct (Rlt_dec (Rabs x) 1); [|destruct (Rlt_dec (Rabs x) (3 / 2))].
  - split; [apply gA_lo|apply gA_up]; lra.
  - split; [apply gB_lo|apply gB_up]; lra.
  - split; [apply gC_lo|apply gC_up]; lra.
Qed.
