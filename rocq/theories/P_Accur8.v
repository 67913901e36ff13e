(** Accuracy of correlations in double precision: correlations at a distance known up to a small relative error. *)
From Coq Require Import ZArith Bool Lia Reals Lra String List.
From Flocq Require Import Core IEEE754.BinarySingleNaN.
From Verif Require Import Base Arith RealArith FloatArith M_Variogram S_Vario S_Random S_Normal P_RBounds P_Cov P_Vario P_VarioF P_NormF S_CorrF P_CorrF P_CorrF2 P_CorrF4 P_CorrF5 S_Accur P_Accur P_Accur2 P_Accur3 P_Accur4 P_Accur5 P_Accur7.
Import ListNotations.
Open Scope R_scope.

Lemma scale_rel c q d D : 0 < c -> Rabs (d - D) <= q * D -> Rabs (c * d - c * D) <= q * (c * D).
Proof. intros C H. rewrite <- Rmult_minus_distr_l, Rabs_mult, (Rabs_right c) by lra. replace (q * (c * D)) with (c * (q * D)) by ring. apply Rmult_le_compat_l; lra. Qed.
Lemma rpow_rel p q d D : 0 < D -> 0 < p <= 2 -> 0 <= q <= 1 / 50 -> Rabs (d - D) <= q * D -> Rabs (Rpow d p - Rpow D p) <= 21 / 10 * q * Rpow D p.
Proof.
  intros H P Q E. apply Rabs_le_inv in E. assert (Hd : 0 < d) by nra. unfold Rpow. destruct (Rlt_dec 0 d); [|lra]. destruct (Rlt_dec 0 D); [|lra].
  set (x := d / D). assert (X : 1 - q <= x <= 1 + q). { unfold x. split; apply Rmult_le_reg_r with D; try exact H; unfold Rdiv; rewrite Rmult_assoc, Rinv_l by lra; lra. }
  assert (DX : d = D * x) by (unfold x; field; lra). assert (X0 : 0 < x) by lra. rewrite DX, <- Rpower_mult_distr by assumption.
  assert (B : Rabs (Rpower x p - 1) <= 21 / 10 * q).
  { assert (X2 : Rpower x 2 = x * x) by (change 2 with (INR 2); rewrite Rpower_pow by exact X0; cbn; ring).
    destruct (Rle_dec 1 x) as [G|G].
    - assert (L : 0 <= ln x) by (rewrite <- ln_1; apply ln_le; lra).
      assert (A1 : 1 <= Rpower x p) by (unfold Rpower; rewrite <- exp_0; apply exp_le_mono; nra).
      assert (A2 : Rpower x p <= Rpower x 2) by (unfold Rpower; apply exp_le_mono; nra). rewrite Rabs_right by lra. rewrite X2 in A2. nra.
    - assert (L : ln x <= 0) by (rewrite <- ln_1; apply ln_le; lra).
      assert (A1 : Rpower x p <= 1) by (unfold Rpower; rewrite <- exp_0; apply exp_le_mono; nra).
      assert (A2 : Rpower x 2 <= Rpower x p) by (unfold Rpower; apply exp_le_mono; nra). rewrite Rabs_left1 by lra. rewrite X2 in A2. nra. }
  replace (Rpower D p * Rpower x p - Rpower D p) with (Rpower D p * (Rpower x p - 1)) by ring. pose proof (exp_pos (p * ln D)) as PD. fold (Rpower D p) in PD.
  rewrite Rabs_mult, (Rabs_right (Rpower D p)) by lra. rewrite (Rmult_comm (21 / 10 * q)). apply Rmult_le_compat_l; lra.
Qed.
Lemma corr_shift t p q d D : t <> N_TYPES -> (t = GENERAL_EXPONENTIAL -> 0 < p <= 2) -> 0 <= D -> 0 <= q <= 1 / 50 -> Rabs (d - D) <= q * D ->
  Rabs (corr_fun t p d - corr_fun t p D) <= 3 * q.
Proof.
  intros NT PP DD Q H. destruct DD as [DD|<-].
  2:{ rewrite Rmult_0_r, Rminus_0_r in H. assert (d = 0) by (destruct (Req_dec d 0) as [|N]; [assumption|pose proof (Rabs_pos_lt d N); lra]). subst d. rewrite Rminus_diag_eq, Rabs_R0 by reflexivity. lra. }
  assert (L : forall f f' c, slow f f' -> 0 < c -> Rabs (f (c * d) - f (c * D)) <= 3 * q).
  { intros f f' c S C. apply Rle_trans with (11 / 10 * q); [|lra]. apply (slow_rel f f' q); [exact S|nra|lra|apply scale_rel; assumption]. }
  pose proof (Rabs_le_inv _ _ H) as HH. assert (d0 : 0 < d) by nra.
  destruct t; try congruence; cbn [corr_fun].
  - rewrite Rminus_diag_eq, Rabs_R0 by reflexivity. lra.
  - replace (-3 * d) with (- (3 * d)) by ring. replace (-3 * D) with (- (3 * D)) by ring. apply (L _ _ 3 slow_exp). lra.
  - change (Rabs (sphf d - sphf D) <= 3 * q). destruct (Rle_dec D (4 / 3)) as [G|G].
    + apply Rle_trans with (1 := sphf_lip _ _ (Rlt_le _ _ d0) (Rlt_le _ _ DD)). nra.
    + unfold sphf. destruct (Rlt_dec d 1); [nra|]. destruct (Rlt_dec D 1); [lra|]. rewrite Rminus_diag_eq, Rabs_R0 by reflexivity. lra.
  - replace (-3 * d ^ 2) with (- (3 * d ^ 2)) by ring. replace (-3 * D ^ 2) with (- (3 * D ^ 2)) by ring.
    apply Rle_trans with (11 / 10 * (21 / 10 * q)); [|lra]. apply (slow_rel _ _ (21 / 10 * q) (3 * D ^ 2) (3 * d ^ 2) slow_exp); [nra|lra|].
    apply scale_rel; [lra|]. replace (d ^ 2 - D ^ 2) with ((d - D) * (d + D)) by ring. rewrite Rabs_mult, (Rabs_right (d + D)) by lra.
    apply Rle_trans with (q * D * (21 / 10 * D)); [apply Rmult_le_compat; try apply Rabs_pos; nra|nra].
  - specialize (PP eq_refl). pose proof (rpow_rel p q d D DD PP Q H) as R1.
    replace (-3 * Rpow d p) with (- (3 * Rpow d p)) by ring. replace (-3 * Rpow D p) with (- (3 * Rpow D p)) by ring.
    assert (RD : 0 < Rpow D p) by (unfold Rpow; destruct (Rlt_dec 0 D); [apply exp_pos|lra]).
    apply Rle_trans with (11 / 10 * (21 / 10 * q)); [|lra]. apply (slow_rel _ _ (21 / 10 * q) (3 * Rpow D p) (3 * Rpow d p) slow_exp); [lra|lra|].
    apply scale_rel; [lra|exact R1].
  - cbv zeta. apply (L _ _ (4744 / 1000) slow_32). lra.
  - cbv zeta. pose proof (L _ _ (5918 / 1000) slow_52 ltac:(lra)) as R1. unfold p52 in R1.
    replace ((5918 / 1000 * d) ^ 2 / 3) with (5918 / 1000 * d * (5918 / 1000 * d) * / 3) by (unfold Rdiv; ring).
    replace ((5918 / 1000 * D) ^ 2 / 3) with (5918 / 1000 * D * (5918 / 1000 * D) * / 3) by (unfold Rdiv; ring). exact R1.
  - cbv zeta. pose proof (L _ _ (6877 / 1000) slow_72 ltac:(lra)) as R1. unfold p72 in R1.
    replace ((6877 / 1000 * d) ^ 3 / 15) with (/ 15 * (6877 / 1000 * d) ^ 3) by (unfold Rdiv; ring).
    replace ((6877 / 1000 * D) ^ 3 / 15) with (/ 15 * (6877 / 1000 * D) ^ 3) by (unfold Rdiv; ring). exact R1.
Qed.
Section Near.
Variable m : libm.
Hypothesis ok : fair m.
Hypothesis ER : exp_rounded m.
Hypothesis PR : pow_rounded m.
Notation F := (Farith m).
Lemma corr_at (v : variogram F) (d : b64) p : vt v <> N_TYPES -> (vt v = GENERAL_EXPONENTIAL -> fin (vpower v) = true /\ p = B2R (vpower v) /\ 0 < p <= 2) ->
  fin d = true -> szd (-202) 202 (B2R d) -> fin (Corr1D v d) = true /\ Rabs (B2R (Corr1D v d) - corr_fun (vt v) p (B2R d)) <= 16 * u53.
Proof.
  intros NT PP Fd SD. pose proof (szd_nn _ _ _ SD) as D0.
  destruct (powerless (vt v)) eqn:PL.
  - rewrite u16. apply (corr_all m ok ER v d (B2R d)); [|apply (szd_weak (-202) 202); [lia|lia|exact SD]|exact PL].
    apply (acc_weak 0); [lia|]. apply acc_self; assumption.
  - destruct (vt v) eqn:T; try discriminate PL; try congruence; cbn [corr_fun].
    + destruct (PP eq_refl) as (Fp & -> & P). split; [|apply corr_gex; assumption].
      apply (corr_unit m ok v d); [rewrite T; reflexivity| |apply (le_fin zero64 d eq_refl Fd); exact D0].
      intros _. rewrite (Bltb_correct _ _ zero64 (vpower v) eq_refl Fp). apply Rlt_bool_true. apply P.
    + cbv zeta. destruct (corr_m72 m ok ER PR v d Fd SD T) as [FR Q]. split; [exact FR|]. unfold p72 in Q.
      replace ((6877 / 1000 * B2R d) ^ 3 / 15) with (/ 15 * (6877 / 1000 * B2R d) ^ 3) by (unfold Rdiv; ring). exact Q.
Qed.
Lemma corr_near (v : variogram F) (d : b64) p q D : vt v <> N_TYPES -> (vt v = GENERAL_EXPONENTIAL -> fin (vpower v) = true /\ p = B2R (vpower v) /\ 0 < p <= 2) ->
  fin d = true -> szd (-202) 202 (B2R d) -> 0 <= D -> 0 <= q <= 1 / 50 -> Rabs (B2R d - D) <= q * D ->
  fin (Corr1D v d) = true /\ Rabs (B2R (Corr1D v d) - corr_fun (vt v) p D) <= 16 * u53 + 3 * q.
Proof.
  intros NT PP Fd SD DD Q H. destruct (corr_at v d p NT PP Fd SD) as [FA A]. split; [exact FA|].
  pose proof (corr_shift (vt v) p q (B2R d) D NT (fun E => proj2 (proj2 (PP E))) DD Q H) as B.
  pose proof (Rabs_triang (B2R (Corr1D v d) - corr_fun (vt v) p (B2R d)) (corr_fun (vt v) p (B2R d) - corr_fun (vt v) p D)) as Tr.
  replace (B2R (Corr1D v d) - corr_fun (vt v) p (B2R d) + (corr_fun (vt v) p (B2R d) - corr_fun (vt v) p D)) with (B2R (Corr1D v d) - corr_fun (vt v) p D) in Tr by ring. lra.
Qed.
End Near.
