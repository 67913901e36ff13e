(** The covariance tables cell by cell, and their origin. *)
From Coq Require Import ZArith List Bool Lia Reals Lra.
From Verif Require Import Base Arith RealArith M_Variogram M_Grid M_CovGrid S_CovGrid P_Base P_Grid P_Bounds.
Import ListNotations.
Open Scope nat_scope.

Section P.
Context {A : Arith}.

Lemma c31_1d (v : variogram A) nx dx sx :
  exists t, FFTCovGrid1D v nx dx sx = Ok t /\ length t = nx /\
  forall i z, i < nx -> nth i t z = cov1_spec v nx dx sx i.
Proof.
  eexists. split; [apply cov1_ok|]. rewrite map_length, seq_length. split; auto. intros i z Hi.
  apply nth_map_seq. auto.
Qed.
Lemma c31_2d (v : variogram A) nx dx ny dy sx sy :
  exists t, FFTCovGrid2D v nx dx ny dy sx sy = Ok t /\ length t = nx * ny /\
  forall i j z, i < nx -> j < ny -> nth (i + nx * j) t z = cov2_spec v nx dx ny dy sx sy i j.
Proof.
  eexists. split; [apply cov2_ok|]. rewrite map_length, seq_length. split; auto. intros i j z Hi Hj.
  replace (i + nx * j) with (GetIndex2 nx i j) by (unfold GetIndex2; lia).
  rewrite nth_map_seq by (apply GetIndex2_lt; auto). rewrite GetIJ_GetIndex by auto. reflexivity.
Qed.
Lemma c31_3d (v : variogram A) nx dx ny dy nz dz sx sy sz :
  exists t, FFTCovGrid3D v nx dx ny dy nz dz sx sy sz = Ok t /\ length t = nx * ny * nz /\
  forall i j k z, i < nx -> j < ny -> k < nz ->
    nth (i + nx * j + nx * ny * k) t z = cov3_spec v nx dx ny dy nz dz sx sy sz i j k.
Proof.
  eexists. split; [apply cov3_ok|]. rewrite map_length, seq_length. split; auto. intros i j k z Hi Hj Hk.
  replace (i + nx * j + nx * ny * k) with (GetIndex3 nx ny i j k) by (unfold GetIndex3; lia).
  rewrite nth_map_seq by (apply GetIndex3_lt; auto). rewrite GetIJK_GetIndex by auto. reflexivity.
Qed.
End P.

Open Scope R_scope.
Lemma Rpow_0_r x : Rpow x 0 = 1.
Proof. unfold Rpow. destruct (Rlt_dec 0 x); [apply Rpower_O; auto|]. destruct (Req_EM_T 0 0); lra. Qed.
Lemma Rpow_0_l y : y <> 0 -> Rpow 0 y = 0.
Proof. intros H. unfold Rpow. destruct (Rlt_dec 0 0); [lra|]. destruct (Req_EM_T y 0); [contradiction|auto]. Qed.

Lemma kernel_0 (s b c : R) : @kernel Rarith s b 0 c = c.
Proof.
  unfold kernel. destruct (flt Rarith s (lit Rarith 99999 5)); auto. cbn. rewrite Rmult_0_l, Rpow_0_r. lra.
Qed.
Lemma lag_0 n d : (0 < n)%nat -> @lag Rarith n 0 d = 0.
Proof. intros H. unfold lag, wrapped. destruct (Nat.ltb_spec (2 * 0) n); [|lia]. cbn. lra. Qed.
Lemma lag1_0 n d : (0 < n)%nat -> @lag1 Rarith n 0 d = 0.
Proof. intros H. unfold lag1. destruct (Nat.ltb_spec (2 * 0) n); [|lia]. cbn. lra. Qed.

Definition good_power (v : variogram Rarith) : Prop := vt v = GENERAL_EXPONENTIAL -> 0 < vpower v.
Lemma Corr1D_0 (v : variogram Rarith) : good_power v -> vt v <> N_TYPES -> @Corr1D Rarith v 0 = 1.
Proof.
  intros Hp Hn. unfold Corr1D. destruct (vt v) eqn:E; cbn; try congruence.
  all: try lra.
  all: try (match goal with |- context [exp ?x] => replace x with 0 by (rewrite ?Rpow_0_l by (specialize (Hp E); lra); lra) end;
    rewrite ?exp_0; lra).
  - unfold Rltb. destruct (Rlt_dec 0 (1 / 1)); lra.
  - rewrite Rmult_0_r, !Rpow_0_l by lra. rewrite Ropp_0, exp_0. lra.
Qed.
Lemma Create_fields t power rx ry rz azi dp std (v : variogram Rarith) : @Create Rarith t power rx ry rz azi dp std = Ok v ->
  vt v = t /\ t <> N_TYPES /\ (t = GENERAL_EXPONENTIAL -> vpower v = power) /\ var v = std * std /\
  range_x v = rx /\ range_y v = ry /\ range_z v = rz /\ azimuth v = azi /\ dip v = dp.
Proof.
  intros H. destruct t; cbn [Create] in H; try discriminate; injection H as <-; unfold new_variogram, EstimateFactors; cbn; repeat split; auto; discriminate.
Qed.

Lemma c31_origin (t : vtype) (power rx ry rz azi dp : R) v nx dx ny dy nz dz sx sy sz :
  0 < rx -> 0 < ry -> 0 < rz -> (t = GENERAL_EXPONENTIAL -> 0 < power) ->
  @Create Rarith t power rx ry rz azi dp 1 = Ok v -> (0 < nx)%nat -> (0 < ny)%nat -> (0 < nz)%nat ->
  cov1_spec v nx dx sx 0 = 1 /\ cov2_spec v nx dx ny dy sx sy 0 0 = 1 /\ cov3_spec v nx dx ny dy nz dz sx sy sz 0 0 0 = 1.
Proof.
  intros _ _ _ Hp H Hx Hy Hz. apply Create_fields in H as (Ht & Hn & Hpw & Hv & _).
  assert (Gp : good_power v) by (intros E; rewrite Ht in E; rewrite (Hpw E); auto).
  assert (Gn : vt v <> N_TYPES) by (rewrite Ht; auto).
  unfold cov1_spec, cov2_spec, cov3_spec, GetCorr1, GetCorr2, GetCorr3, Distance1, Distance2, Distance3.
  rewrite !lag_0, lag1_0 by auto.
  destruct (FindSmoothingFactors v sx (lit Rarith 1 0) (lit Rarith 1 0)) as [[b1 b2] b3].
  destruct (FindSmoothingFactors v sx sy (lit Rarith 1 0)) as [[c1 c2] c3].
  destruct (FindSmoothingFactors v sx sy sz) as [[e1 e2] e3].
  rewrite !kernel_0.
  cbn [mul add fsqrt Rarith]. rewrite !Rmult_0_r, !Rplus_0_r, !sqrt_0, Corr1D_0, Hv by auto. repeat split; lra.
Qed.
