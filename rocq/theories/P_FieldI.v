(** The covariance tables in double precision. *)
From Coq Require Import ZArith List Bool String Lia Reals Lra Psatz.
From Flocq Require Import Core IEEE754.BinarySingleNaN.
From Verif Require Import Base Arith RealArith FloatArith M_Variogram M_Grid M_CovGrid M_Fft M_Field S_CovGrid S_Vario S_Random S_CorrF S_Accur P_NormF P_CorrF P_CorrF2 P_Accur P_Accur2 P_Accur5 P_Accur6 P_Accur8 P_Accur10 P_Accur11
  P_Base P_Grid P_Bounds P_Vario P_VarioMore P_DftField S_FieldF P_FieldF P_FieldG P_FieldH.
Import ListNotations.
Open Scope R_scope.

(** ** lags *)
Lemma fmt_neg y : fmt y -> fmt (- y). Proof. apply generic_format_opp. Qed.
Lemma lag_mult (a d : b64) z : exactly a (IZR z) -> fin d = true -> bpow radix2 (-100) <= B2R d -> Rabs (IZR z) * B2R d <= bpow radix2 100 -> forall p, p = Bm a d \/ p = Bm d a ->
  ordinary_lag p /\ Rabs (B2R p - IZR z * B2R d) <= u53 * Rabs (IZR z * B2R d).
Proof.
  intros [Fa Va] Fd Ld Ud p Hp. pose proof (bpow_gt_0 radix2 (-100)) as P0.
  assert (Q : fin p = true /\ B2R p = rnd (IZR z * B2R d)).
  { assert (O : Rlt_bool (Rabs (rnd (IZR z * B2R d))) (bpow radix2 1024) = true).
    { apply top_ok. rewrite Rabs_mult, (Rabs_right (B2R d)) by lra. apply Rle_trans with (1 := Ud). apply bpow_le. lia. }
    destruct Hp as [-> | ->].
    - pose proof (Bmult_correct 53 1024 Hprec Hmax mode_NE a d) as Q. rewrite Va in Q. change (round radix2 (SpecFloat.fexp 53 1024) (round_mode mode_NE) (IZR z * B2R d)) with (rnd (IZR z * B2R d)) in Q.
      rewrite O in Q. destruct Q as (V & F & _). split; [|exact V]. rewrite F, Fa, Fd. reflexivity.
    - pose proof (Bmult_correct 53 1024 Hprec Hmax mode_NE d a) as Q. rewrite Va, (Rmult_comm (B2R d)) in Q. change (round radix2 (SpecFloat.fexp 53 1024) (round_mode mode_NE) (IZR z * B2R d)) with (rnd (IZR z * B2R d)) in Q.
      rewrite O in Q. destruct Q as (V & F & _). split; [|exact V]. rewrite F, Fa, Fd. reflexivity. }
  destruct Q as [F V]. destruct (Z.eq_dec z 0) as [->|NZ].
  { rewrite Rmult_0_l in *. rewrite (rnd_id 0 fmt_0) in V. rewrite V, Rminus_0_r, Rabs_R0. split; [|lra]. split; [exact F|]. left. exact V. }
  assert (Z1 : 1 <= Rabs (IZR z)) by (rewrite <- abs_IZR; apply IZR_le; lia).
  assert (B : bpow radix2 (-100) <= Rabs (IZR z * B2R d) <= bpow radix2 100) by (rewrite Rabs_mult, (Rabs_right (B2R d)) by lra; nra).
  split.
  - split; [exact F|]. right. rewrite V. assert (A : bpow radix2 (-100) <= rnd (Rabs (IZR z * B2R d)) <= bpow radix2 100) by (apply rnd_between; [apply fmt_pow; lia|apply fmt_pow; lia|exact B]).
    destruct (Rle_dec 0 (IZR z * B2R d)) as [G|G].
    + rewrite (Rabs_right (IZR z * B2R d)) in A by lra. rewrite Rabs_right by lra. exact A.
    + rewrite (Rabs_left (IZR z * B2R d)) in A by lra. rewrite rnd_opp in A. rewrite Rabs_left by lra. exact A.
  - rewrite V. destruct (rel_err (IZR z * B2R d)) as (e & E1 & E2). { apply Rle_trans with (2 := proj1 B). apply bpow_le. lia. }
    rewrite E2. replace (IZR z * B2R d * (1 + e) - IZR z * B2R d) with (e * (IZR z * B2R d)) by ring. rewrite Rabs_mult. apply Rmult_le_compat_r; [apply Rabs_pos|exact E1].
Qed.
Definition nearby (xF : b64) (x : R) : Prop := ordinary_lag xF /\ Rabs (B2R xF - x) <= u53 * Rabs x.
Lemma nearby_0 : nearby zero64 0.
Proof. split; [split; [reflexivity|left; reflexivity]|]. change (B2R zero64) with 0. rewrite Rminus_0_r, Rabs_R0. lra. Qed.
Section L.
Variable m : libm.
Notation F := (Farith m).
Lemma wrapped_le n i : (i < n)%nat -> (Z.abs (wrapped n i) <= Z.of_nat n)%Z.
Proof. intros H. unfold wrapped. destruct (2 * i <? n)%nat; lia. Qed.
Lemma lag_bound z n (d : b64) : (Z.abs z <= Z.of_nat n)%Z -> spacing n d -> Rabs (IZR z) * B2R d <= bpow radix2 100.
Proof.
  intros Hz (_ & L & U). pose proof (bpow_gt_0 radix2 (-100)). apply Rle_trans with (2 := U). apply Rmult_le_compat_r; [lra|]. rewrite <- abs_IZR, INR_IZR_INZ. apply IZR_le. exact Hz.
Qed.
Lemma lag_near n i (d : b64) : (i < n)%nat -> (Z.of_nat n < 2 ^ 53)%Z -> spacing n d -> nearby (@lag F n i d) (@lag Rarith n i (B2R d)).
Proof.
  intros Hi Hn Hd. pose proof (wrapped_le n i Hi) as W. pose proof (lag_bound _ _ _ W Hd) as B. destruct Hd as (Fd & Ld & _).
  apply (lag_mult (Fof (wrapped n i) 0) d (wrapped n i)); auto. apply of_exact. lia.
Qed.
Lemma lag1_near n i (d : b64) : (i < n)%nat -> (Z.of_nat n < 2 ^ 53)%Z -> spacing n d -> nearby (@lag1 F n i d) (@lag1 Rarith n i (B2R d)).
Proof.
  intros Hi Hn Hd. unfold lag1. destruct (2 * i <? n)%nat eqn:E.
  - pose proof (lag_bound (Z.of_nat i) n d ltac:(lia) Hd) as B. destruct Hd as (Fd & Ld & _). apply (lag_mult (Fof (Z.of_nat i) 0) d (Z.of_nat i)); auto. apply of_exact. lia.
  - pose proof (lag_bound (Z.of_nat n - Z.of_nat i) n d ltac:(lia) Hd) as B. destruct Hd as (Fd & Ld & _).
    change (mul Rarith (B2R d) (ofZ Rarith (Z.of_nat n - Z.of_nat i))) with (B2R d * IZR (Z.of_nat n - Z.of_nat i)). rewrite Rmult_comm.
    apply (lag_mult (Fof (Z.of_nat n - Z.of_nat i) 0) d (Z.of_nat n - Z.of_nat i)); auto. apply of_exact. lia.
Qed.

(** ** tables of a variogram whose correlations are accurate and change little with the lags *)
Section Table.
Variables (v : variogram F) (w : variogram Rarith) (d1 d2 : R).
Hypothesis V1 : var v = Flit 1 0.
Hypothesis W1 : var w = 1.
Hypothesis HC : forall x y z : b64, ordinary_lag x -> ordinary_lag y -> ordinary_lag z ->
  close_by d1 (@GetCorr1 F v x) (@GetCorr1 Rarith w (B2R x)) /\
  close_by d1 (@GetCorr2 F v x y) (@GetCorr2 Rarith w (B2R x) (B2R y)) /\
  close_by d1 (@GetCorr3 F v x y z) (@GetCorr3 Rarith w (B2R x) (B2R y) (B2R z)).
Hypothesis HS : forall x y z x' y' z', Rabs (x' - x) <= u53 * Rabs x -> Rabs (y' - y) <= u53 * Rabs y -> Rabs (z' - z) <= u53 * Rabs z ->
  Rabs (@GetCorr3 Rarith w x' y' z' - @GetCorr3 Rarith w x y z) <= d2.
Hypothesis HB : forall x y z, Rabs (@GetCorr3 Rarith w x y z) <= 1.
Lemma no_smooth_F : flt F (Flit 1 0) (lit F 99999 5) = false. Proof. vm_compute. reflexivity. Qed.
Lemma no_smooth_R : flt Rarith 1 (lit Rarith 99999 5) = false.
Proof.
  cbn [flt lit Rarith]. unfold Rltb. destruct (Rlt_dec 1 (IZR 99999 / IZR (10 ^ 5))) as [A|A]; [exfalso|reflexivity].
  change (10 ^ 5)%Z with 100000%Z in A. unfold Rdiv in A. lra.
Qed.
Lemma cell_near (cF : b64) c c' : close_by d1 cF c' -> Rabs (c' - c) <= d2 -> Rabs c <= 1 ->
  fin (mul F (var v) cF) = true /\ Rabs (B2R (mul F (var v) cF) - mul Rarith (var w) c) <= d1 + d2 /\ Rabs (mul Rarith (var w) c) <= 1.
Proof.
  intros [Fc E1] E2 B. rewrite V1, W1. destruct (mult_1 cF Fc) as [Fm Vm]. change (mul F (Flit 1 0) cF) with (Bm (Flit 1 0) cF). rewrite Vm. change (mul Rarith 1 c) with (1 * c). rewrite Rmult_1_l.
  split; [exact Fm|]. split; [|exact B]. replace (B2R cF - c) with ((B2R cF - c') + (c' - c)) by ring. apply Rle_trans with (1 := Rabs_triang _ _). lra.
Qed.
Lemma zz : Rabs (0 - 0) <= u53 * Rabs 0. Proof. rewrite Rminus_0_r, Rabs_R0. lra. Qed.
Lemma near_map n (g : nat -> b64) (r : nat -> R) : (forall i, (i < n)%nat -> fin (g i) = true /\ Rabs (B2R (g i) - r i) <= d1 + d2 /\ Rabs (r i) <= 1) ->
  near_table (d1 + d2) (Ok (map g (seq 0 n))) (Ok (map r (seq 0 n))).
Proof.
  intros H. exists (map g (seq 0 n)), (map r (seq 0 n)). split; [reflexivity|]. split; [reflexivity|]. split.
  - intros a Ha. apply in_map_iff in Ha as (i & <- & Hi). apply in_seq in Hi. apply H. lia.
  - rewrite map_length, seq_length. intros j Hj. unfold vals. rewrite map_map, !nth_map_seq by auto. destruct (H j Hj) as (_ & A & B). split; assumption.
Qed.
Lemma table1 n (dx : b64) : (Z.of_nat n < 2 ^ 53)%Z -> spacing n dx -> near_table (d1 + d2) (@FFTCovGrid1D F v n dx (Flit 1 0)) (@FFTCovGrid1D Rarith w n (B2R dx) 1).
Proof.
  intros Hn Hd. rewrite !cov1_ok. apply near_map. intros i Hi. unfold cov1_spec, kernel. rewrite no_smooth_F, no_smooth_R. destruct (FindSmoothingFactors v _ _ _) as [[? ?] ?]. destruct (FindSmoothingFactors w _ _ _) as [[? ?] ?].
  destruct (lag1_near n i dx Hi Hn Hd) as [O E]. set (xF := @lag1 F n i dx) in *. set (x := @lag1 Rarith n i (B2R dx)) in *.
  apply (cell_near _ _ (@GetCorr1 Rarith w (B2R xF))).
  - apply (HC xF zero64 zero64); auto; apply nearby_0.
  - rewrite !corr1_2, !corr2_3. apply HS; auto using zz.
  - rewrite corr1_2, corr2_3. apply HB.
Qed.
Lemma table2 nx (dx : b64) ny (dy : b64) : (Z.of_nat nx < 2 ^ 53)%Z -> (Z.of_nat ny < 2 ^ 53)%Z -> spacing nx dx -> spacing ny dy ->
  near_table (d1 + d2) (@FFTCovGrid2D F v nx dx ny dy (Flit 1 0) (Flit 1 0)) (@FFTCovGrid2D Rarith w nx (B2R dx) ny (B2R dy) 1 1).
Proof.
  intros Hn Hm Hd He. rewrite !cov2_ok. apply near_map. intros q Hq. pose proof (GetIndex_GetIJ nx ny q Hq) as H. destruct (GetIJ nx ny q) as [i j]. destruct H as (Hi & Hj & _).
  unfold cov2_spec, kernel. rewrite no_smooth_F, no_smooth_R. destruct (FindSmoothingFactors v _ _ _) as [[? ?] ?]. destruct (FindSmoothingFactors w _ _ _) as [[? ?] ?].
  destruct (lag_near nx i dx Hi Hn Hd) as [O E]. set (xF := @lag F nx i dx) in *. set (x := @lag Rarith nx i (B2R dx)) in *.
  destruct (lag_near ny j dy Hj Hm He) as [O' E']. set (yF := @lag F ny j dy) in *. set (y := @lag Rarith ny j (B2R dy)) in *.
  apply (cell_near _ _ (@GetCorr2 Rarith w (B2R xF) (B2R yF))).
  - apply (HC xF yF zero64); auto; apply nearby_0.
  - rewrite !corr2_3. apply HS; auto using zz.
  - rewrite corr2_3. apply HB.
Qed.
Lemma table3 nx (dx : b64) ny (dy : b64) nz (dz : b64) : (Z.of_nat nx < 2 ^ 53)%Z -> (Z.of_nat ny < 2 ^ 53)%Z -> (Z.of_nat nz < 2 ^ 53)%Z -> spacing nx dx -> spacing ny dy -> spacing nz dz ->
  near_table (d1 + d2) (@FFTCovGrid3D F v nx dx ny dy nz dz (Flit 1 0) (Flit 1 0) (Flit 1 0)) (@FFTCovGrid3D Rarith w nx (B2R dx) ny (B2R dy) nz (B2R dz) 1 1 1).
Proof.
  intros Hn Hm Hk Hd He Hf. rewrite !cov3_ok. apply near_map. intros q Hq. pose proof (GetIndex_GetIJK nx ny nz q Hq) as H. destruct (GetIJK nx ny q) as [[i j] k]. destruct H as (Hi & Hj & Hl & _).
  unfold cov3_spec, kernel. rewrite no_smooth_F, no_smooth_R. destruct (FindSmoothingFactors v _ _ _) as [[? ?] ?]. destruct (FindSmoothingFactors w _ _ _) as [[? ?] ?].
  destruct (lag_near nx i dx Hi Hn Hd) as [O E]. set (xF := @lag F nx i dx) in *. set (x := @lag Rarith nx i (B2R dx)) in *.
  destruct (lag_near ny j dy Hj Hm He) as [O' E']. set (yF := @lag F ny j dy) in *. set (y := @lag Rarith ny j (B2R dy)) in *.
  destruct (lag_near nz k dz Hl Hk Hf) as [O'' E'']. set (zF := @lag F nz k dz) in *. set (z := @lag Rarith nz k (B2R dz)) in *.
  apply (cell_near _ _ (@GetCorr3 Rarith w (B2R xF) (B2R yF) (B2R zF))).
  - apply (HC xF yF zF); auto.
  - apply HS; auto.
  - apply HB.
Qed.
End Table.

(** ** normalised distances under small changes of the lags *)
Lemma abs_sq a b e : 0 <= e -> Rabs a <= e * Rabs b -> a ^ 2 <= e ^ 2 * b ^ 2.
Proof. intros E H. rewrite <- (pow2_abs a), <- (pow2_abs b), <- Rpow_mult_distr. apply pow_incr. split; [apply Rabs_pos|exact H]. Qed.
Lemma nd_diff rx ry rz a d x y z x' y' z' q : rx <> 0 -> ry <> 0 -> rz <> 0 ->
  ndist rx ry rz a d (x' - x, y' - y, z' - z) <= q -> Rabs (ndist rx ry rz a d (x', y', z') - ndist rx ry rz a d (x, y, z)) <= q.
Proof.
  intros Hx Hy Hz H. pose proof (ndist_triangle rx ry rz a d (x, y, z) (x' - x, y' - y, z' - z) Hx Hy Hz) as A.
  pose proof (ndist_triangle rx ry rz a d (x', y', z') (scale (-1) (x' - x, y' - y, z' - z)) Hx Hy Hz) as B. rewrite ndist_scale in B by auto. rewrite (Rabs_left (-1)) in B by lra.
  unfold plus3, scale in A, B. replace (x + (x' - x)) with x' in A by ring. replace (y + (y' - y)) with y' in A by ring. replace (z + (z' - z)) with z' in A by ring.
  replace (x' + -1 * (x' - x)) with x in B by ring. replace (y' + -1 * (y' - y)) with y in B by ring. replace (z' + -1 * (z' - z)) with z in B by ring.
  apply Rabs_le. lra.
Qed.
Lemma nd_rel_rot rx ry rz a d k x y z x' y' z' : 0 < rx -> 0 < ry -> 0 < rz -> 1 <= k -> ratio_at_most k rx ry rz ->
  Rabs (x' - x) <= u53 * Rabs x -> Rabs (y' - y) <= u53 * Rabs y -> Rabs (z' - z) <= u53 * Rabs z ->
  Rabs (ndist rx ry rz a d (x', y', z') - ndist rx ry rz a d (x, y, z)) <= u53 * k * ndist rx ry rz a d (x, y, z).
Proof.
  intros PX PY PZ K KR HX HY HZ. apply nd_diff; try lra. pose proof (bpow_gt_0 radix2 (-53)) as U0. change (bpow radix2 (-53)) with u53 in U0.
  destruct (min3 rx ry rz) as (c & C1 & C2 & C3 & CC).
  assert (CM : rx <= k * c /\ ry <= k * c /\ rz <= k * c). { destruct KR as (R1 & R2 & R3 & R4 & R5 & R6). destruct CC as [E0|[E0|E0]]; rewrite E0 in *; repeat split; try assumption; nra. }
  assert (Cp : 0 < c) by (destruct CC as [E0|[E0|E0]]; rewrite E0; assumption).
  set (D := ndist rx ry rz a d (x' - x, y' - y, z' - z)). set (E := ndist rx ry rz a d (x, y, z)).
  assert (D0 : 0 <= D) by apply ndist_nonneg. assert (E0 : 0 <= E) by apply ndist_nonneg.
  pose proof (ndist_le rx ry rz a d (x' - x) (y' - y) (z' - z) c ltac:(lra) C2 C3) as A. fold D in A.
  pose proof (ndist_ge rx ry rz a d x y z (k * c) ltac:(lra) ltac:(lra) ltac:(lra)) as B. fold E in B.
  pose proof (abs_sq _ _ u53 ltac:(lra) HX). pose proof (abs_sq _ _ u53 ltac:(lra) HY). pose proof (abs_sq _ _ u53 ltac:(lra) HZ).
  assert (Q : D * D * (c * c) <= u53 ^ 2 * (E * E * (k * c * (k * c)))).
  { apply Rle_trans with (1 := A). apply Rle_trans with (u53 ^ 2 * (x ^ 2 + y ^ 2 + z ^ 2)); [lra|]. apply Rmult_le_compat_l; [apply pow2_ge_0|exact B]. }
  assert (G : D * c <= u53 * k * E * c). 
  { apply Rsqr_incr_0_var; [unfold Rsqr|repeat apply Rmult_le_pos; lra]. replace (D * c * (D * c)) with (D * D * (c * c)) by ring. apply Rle_trans with (1 := Q). right. ring. }
  apply Rmult_le_reg_r with (1 := Cp). exact G.
Qed.
Lemma nd_rel_unrot rx ry rz x y z x' y' z' : 0 < rx -> 0 < ry -> 0 < rz ->
  Rabs (x' - x) <= u53 * Rabs x -> Rabs (y' - y) <= u53 * Rabs y -> Rabs (z' - z) <= u53 * Rabs z ->
  Rabs (ndist rx ry rz 0 0 (x', y', z') - ndist rx ry rz 0 0 (x, y, z)) <= u53 * ndist rx ry rz 0 0 (x, y, z).
Proof.
  intros PX PY PZ HX HY HZ. apply nd_diff; try lra. pose proof (bpow_gt_0 radix2 (-53)) as U0. change (bpow radix2 (-53)) with u53 in U0.
  assert (EQ : forall x y z, ndist rx ry rz 0 0 (x, y, z) * ndist rx ry rz 0 0 (x, y, z) = x ^ 2 * / rx ^ 2 + y ^ 2 * / ry ^ 2 + z ^ 2 * / rz ^ 2).
  { intros a b c. rewrite ndist_sq. unfold dot, main_axis, perp_axis, third_axis. rewrite cos_0, sin_0. field. lra. }
  pose proof (ndist_nonneg rx ry rz 0 0 (x' - x, y' - y, z' - z)). pose proof (ndist_nonneg rx ry rz 0 0 (x, y, z)).
  apply Rsqr_incr_0_var; [unfold Rsqr|apply Rmult_le_pos; lra]. rewrite EQ.
  replace (u53 * ndist rx ry rz 0 0 (x, y, z) * (u53 * ndist rx ry rz 0 0 (x, y, z))) with (u53 ^ 2 * (ndist rx ry rz 0 0 (x, y, z) * ndist rx ry rz 0 0 (x, y, z))) by ring. rewrite EQ.
  assert (I : forall r p p', 0 < r -> Rabs (p' - p) <= u53 * Rabs p -> (p' - p) ^ 2 * / r ^ 2 <= u53 ^ 2 * (p ^ 2 * / r ^ 2)).
  { intros r p p' R0 H1. rewrite <- Rmult_assoc. apply Rmult_le_compat_r; [left; apply Rinv_0_lt_compat, pow_lt; exact R0|]. apply abs_sq; lra. }
  pose proof (I rx x x' PX HX). pose proof (I ry y y' PY HY). pose proof (I rz z z' PZ HZ). lra.
Qed.

(** ** variograms made by the user *)
Section Vario.
Hypothesis ok : fair m.
Hypothesis TR : trig_rounded m.
Hypothesis ER : exp_rounded m.
Hypothesis PR : pow_rounded m.
Lemma real_bound s main perp depth a d p w : @CreateVariogram Rarith s main perp depth a d p = Ok w -> 0 < main -> perp <> 0 -> depth <> 0 -> 0 < p -> forall x y z, Rabs (@GetCorr3 Rarith w x y z) <= 1.
Proof.
  intros H HM HP HD PP x y z. destruct (created_corr s _ _ _ _ _ _ w H HM HP HD PP) as [_ C]. rewrite C. set (D := ndist _ _ _ _ _ _). assert (0 <= D) by apply ndist_nonneg.
  rewrite Rabs_right; [apply corr_fun_le1; auto|apply Rle_ge, corr_fun_nonneg; auto].
Qed.
Lemma var_R s main perp depth a d p w : @CreateVariogram Rarith s main perp depth a d p = Ok w -> var w = 1.
Proof. intros H. destruct (created_new _ _ _ _ _ _ _ _ H) as (t & p' & E & _). rewrite E. cbn. ring. Qed.
Lemma var_F s (main perp depth a d p : b64) v : @CreateVariogram F s main perp depth a d p = Ok v -> var v = Flit 1 0.
Proof. intros H. destruct (created_F m s main perp depth a d p v H) as (pw & E & _). rewrite E. change (Bm (Flit 1 0) (Flit 1 0) = Flit 1 0). apply B2SF_inj. vm_compute. reflexivity. Qed.

Definition slack_rot (k : R) : R := k ^ 2 * bpow radix2 (-40) + 3 * (u53 * k).
Definition slack_unrot : R := bpow radix2 (-47) + 3 * u53.
Lemma slack_rot_le k : 1 <= k -> slack_rot k <= k ^ 2 * bpow radix2 (-39).
Proof.
  intros K. unfold slack_rot. change (-39)%Z with (-40 + 1)%Z. rewrite <- bp2. change u53 with (bpow radix2 (-53)).
  assert (E : 3 * bpow radix2 (-53) <= bpow radix2 (-40)). { apply Rle_trans with (bpow radix2 2 * bpow radix2 (-53)); [change (bpow radix2 2) with 4; pose proof (bpow_gt_0 radix2 (-53)); lra|]. rewrite <- bpow_plus. apply bpow_le. lia. }
  pose proof (bpow_gt_0 radix2 (-53)). pose proof (bpow_gt_0 radix2 (-40)). assert (k <= k ^ 2) by nra. nra.
Qed.
Lemma slack_unrot_le : slack_unrot <= bpow radix2 (-46).
Proof.
  unfold slack_unrot. change (-46)%Z with (-47 + 1)%Z. rewrite <- bp2. change u53 with (bpow radix2 (-53)).
  assert (E : 3 * bpow radix2 (-53) <= bpow radix2 (-47)). { apply Rle_trans with (bpow radix2 2 * bpow radix2 (-53)); [change (bpow radix2 2) with 4; pose proof (bpow_gt_0 radix2 (-53)); lra|]. rewrite <- bpow_plus. apply bpow_le. lia. }
  lra.
Qed.
Lemma near_weak a b tF t : a <= b -> near_table a tF t -> near_table b tF t.
Proof. intros H (x & y & A & B & F & D). exists x, y. split; [exact A|]. split; [exact B|]. split; [exact F|]. intros j Hj. destruct (D j Hj). split; [lra|assumption]. Qed.

Variables (s : string) (main perp depth azi dp power : b64) (v : variogram F) (w : variogram Rarith).
Hypothesis HF : @CreateVariogram F s main perp depth azi dp power = Ok v.
Hypothesis FP : is_finite power = true.
Hypothesis PP : 0 < B2R power <= 2.
Hypothesis M : ordinary main.
Hypothesis MP : ordinary_arg perp.
Hypothesis MD : ordinary_arg depth.

Lemma main_pos : 0 < B2R main. Proof. destruct M as [_ [A _]]. pose proof (bpow_gt_0 radix2 (-100)). lra. Qed.
Lemma arg_pos r : ordinary_arg r -> B2R r <> 0 /\ 0 < or_main (B2R main) (B2R r).
Proof.
  intros H. destruct (ord_arg main r M H) as ([_ [A _]] & E & NZ). split; [exact NZ|]. rewrite <- E. pose proof (bpow_gt_0 radix2 (-100)). lra.
Qed.

Section Rot.
Variable k : R.
Hypothesis HR : @CreateVariogram Rarith s (B2R main) (B2R perp) (B2R depth) (B2R azi) (B2R dp) (B2R power) = Ok w.
Hypothesis AA : angle azi.
Hypothesis AD : angle dp.
Hypothesis K : 1 <= k <= 262144.
Hypothesis KR : ratio_at_most k (B2R main) (or_main (B2R main) (B2R perp)) (or_main (B2R main) (B2R depth)).
Lemma rot_shift x y z x' y' z' : Rabs (x' - x) <= u53 * Rabs x -> Rabs (y' - y) <= u53 * Rabs y -> Rabs (z' - z) <= u53 * Rabs z ->
  Rabs (@GetCorr3 Rarith w x' y' z' - @GetCorr3 Rarith w x y z) <= 3 * (u53 * k).
Proof.
  intros HX HY HZ. destruct (arg_pos perp MP) as [N2 P2]. destruct (arg_pos depth MD) as [N3 P3].
  destruct (created_corr s _ _ _ _ _ _ w HR main_pos N2 N3 ltac:(lra)) as [NT C]. rewrite !C. pose proof u53_small. pose proof (bpow_gt_0 radix2 (-53)) as U0. change (bpow radix2 (-53)) with u53 in U0.
  apply corr_shift; [exact NT|lra|apply ndist_nonneg| |].
  - split; [nra|]. rewrite u53_val. lra.
  - apply nd_rel_rot; auto; [apply main_pos|lra].
Qed.
Lemma rot_corr x y z : ordinary_lag x -> ordinary_lag y -> ordinary_lag z ->
  close_by (k ^ 2 * bpow radix2 (-40)) (@GetCorr1 F v x) (@GetCorr1 Rarith w (B2R x)) /\
  close_by (k ^ 2 * bpow radix2 (-40)) (@GetCorr2 F v x y) (@GetCorr2 Rarith w (B2R x) (B2R y)) /\
  close_by (k ^ 2 * bpow radix2 (-40)) (@GetCorr3 F v x y z) (@GetCorr3 Rarith w (B2R x) (B2R y) (B2R z)).
Proof. intros. apply (c77_rotated m ok TR ER PR s main perp depth azi dp power x y z k v w); auto. Qed.
Lemma rot_bound x y z : Rabs (@GetCorr3 Rarith w x y z) <= 1.
Proof. apply (real_bound _ _ _ _ _ _ _ _ HR main_pos); [apply arg_pos; auto|apply arg_pos; auto|lra]. Qed.
Lemma rot_table1 n (dx : b64) : (Z.of_nat n < 2 ^ 53)%Z -> spacing n dx ->
  near_table (k ^ 2 * bpow radix2 (-39)) (@FFTCovGrid1D F v n dx (Flit 1 0)) (@FFTCovGrid1D Rarith w n (B2R dx) 1).
Proof.
  intros. apply near_weak with (slack_rot k); [apply slack_rot_le; lra|]. apply table1; auto; [eapply var_F; exact HF|eapply var_R; exact HR|exact rot_corr|exact rot_shift|exact rot_bound].
Qed.
Lemma rot_table2 nx (dx : b64) ny (dy : b64) : (Z.of_nat nx < 2 ^ 53)%Z -> (Z.of_nat ny < 2 ^ 53)%Z -> spacing nx dx -> spacing ny dy ->
  near_table (k ^ 2 * bpow radix2 (-39)) (@FFTCovGrid2D F v nx dx ny dy (Flit 1 0) (Flit 1 0)) (@FFTCovGrid2D Rarith w nx (B2R dx) ny (B2R dy) 1 1).
Proof.
  intros. apply near_weak with (slack_rot k); [apply slack_rot_le; lra|]. apply table2; auto; [eapply var_F; exact HF|eapply var_R; exact HR|exact rot_corr|exact rot_shift|exact rot_bound].
Qed.
Lemma rot_table3 nx (dx : b64) ny (dy : b64) nz (dz : b64) : (Z.of_nat nx < 2 ^ 53)%Z -> (Z.of_nat ny < 2 ^ 53)%Z -> (Z.of_nat nz < 2 ^ 53)%Z -> spacing nx dx -> spacing ny dy -> spacing nz dz ->
  near_table (k ^ 2 * bpow radix2 (-39)) (@FFTCovGrid3D F v nx dx ny dy nz dz (Flit 1 0) (Flit 1 0) (Flit 1 0)) (@FFTCovGrid3D Rarith w nx (B2R dx) ny (B2R dy) nz (B2R dz) 1 1 1).
Proof.
  intros. apply near_weak with (slack_rot k); [apply slack_rot_le; lra|]. apply table3; auto; [eapply var_F; exact HF|eapply var_R; exact HR|exact rot_corr|exact rot_shift|exact rot_bound].
Qed.
End Rot.

Section Unrot.
Hypothesis A0 : azi = Flit 0 0.
Hypothesis D0 : dp = Flit 0 0.
Hypothesis HR : @CreateVariogram Rarith s (B2R main) (B2R perp) (B2R depth) 0 0 (B2R power) = Ok w.
Lemma radians_0 : radians 0 = 0. Proof. unfold radians. lra. Qed.
Lemma unrot_shift x y z x' y' z' : Rabs (x' - x) <= u53 * Rabs x -> Rabs (y' - y) <= u53 * Rabs y -> Rabs (z' - z) <= u53 * Rabs z ->
  Rabs (@GetCorr3 Rarith w x' y' z' - @GetCorr3 Rarith w x y z) <= 3 * u53.
Proof.
  intros HX HY HZ. destruct (arg_pos perp MP) as [N2 P2]. destruct (arg_pos depth MD) as [N3 P3].
  destruct (created_corr s _ _ _ _ _ _ w HR main_pos N2 N3 ltac:(lra)) as [NT C]. rewrite !C, !radians_0. pose proof u53_small. pose proof (bpow_gt_0 radix2 (-53)) as U0. change (bpow radix2 (-53)) with u53 in U0.
  apply corr_shift; [exact NT|lra|apply ndist_nonneg| |].
  - split; [lra|]. rewrite u53_val. lra.
  - apply nd_rel_unrot; auto. apply main_pos.
Qed.
Lemma unrot_corr x y z : ordinary_lag x -> ordinary_lag y -> ordinary_lag z ->
  close_by (bpow radix2 (-47)) (@GetCorr1 F v x) (@GetCorr1 Rarith w (B2R x)) /\
  close_by (bpow radix2 (-47)) (@GetCorr2 F v x y) (@GetCorr2 Rarith w (B2R x) (B2R y)) /\
  close_by (bpow radix2 (-47)) (@GetCorr3 F v x y z) (@GetCorr3 Rarith w (B2R x) (B2R y) (B2R z)).
Proof. pose proof HF as HF'. rewrite A0, D0 in HF'. intros. apply (c77_unrotated_all m ok TR ER PR s main perp depth power x y z v w); auto. Qed.
Lemma unrot_bound x y z : Rabs (@GetCorr3 Rarith w x y z) <= 1.
Proof. apply (real_bound _ _ _ _ _ _ _ _ HR main_pos); [apply arg_pos; auto|apply arg_pos; auto|lra]. Qed.
Lemma unrot_table1 n (dx : b64) : (Z.of_nat n < 2 ^ 53)%Z -> spacing n dx ->
  near_table (bpow radix2 (-46)) (@FFTCovGrid1D F v n dx (Flit 1 0)) (@FFTCovGrid1D Rarith w n (B2R dx) 1).
Proof.
  intros. apply near_weak with slack_unrot; [apply slack_unrot_le|]. apply table1; auto; [eapply var_F; exact HF|eapply var_R; exact HR|exact unrot_corr|exact unrot_shift|exact unrot_bound].
Qed.
Lemma unrot_table2 nx (dx : b64) ny (dy : b64) : (Z.of_nat nx < 2 ^ 53)%Z -> (Z.of_nat ny < 2 ^ 53)%Z -> spacing nx dx -> spacing ny dy ->
  near_table (bpow radix2 (-46)) (@FFTCovGrid2D F v nx dx ny dy (Flit 1 0) (Flit 1 0)) (@FFTCovGrid2D Rarith w nx (B2R dx) ny (B2R dy) 1 1).
Proof.
  intros. apply near_weak with slack_unrot; [apply slack_unrot_le|]. apply table2; auto; [eapply var_F; exact HF|eapply var_R; exact HR|exact unrot_corr|exact unrot_shift|exact unrot_bound].
Qed.
Lemma unrot_table3 nx (dx : b64) ny (dy : b64) nz (dz : b64) : (Z.of_nat nx < 2 ^ 53)%Z -> (Z.of_nat ny < 2 ^ 53)%Z -> (Z.of_nat nz < 2 ^ 53)%Z -> spacing nx dx -> spacing ny dy -> spacing nz dz ->
  near_table (bpow radix2 (-46)) (@FFTCovGrid3D F v nx dx ny dy nz dz (Flit 1 0) (Flit 1 0) (Flit 1 0)) (@FFTCovGrid3D Rarith w nx (B2R dx) ny (B2R dy) nz (B2R dz) 1 1 1).
Proof.
  intros. apply near_weak with slack_unrot; [apply slack_unrot_le|]. apply table3; auto; [eapply var_F; exact HF|eapply var_R; exact HR|exact unrot_corr|exact unrot_shift|exact unrot_bound].
Qed.
End Unrot.
End Vario.
End L.
