(** Smoothing in double precision: variograms along the axes, tables and fields. *)
From Coq Require Import ZArith Bool List String Lia Reals Lra Psatz.
From Flocq Require Import Core IEEE754.BinarySingleNaN.
From Verif Require Import Base Arith RealArith FloatArith M_Variogram M_Grid M_CovGrid M_Field S_CovGrid S_Vario S_Random P_NormF S_CorrF P_CorrF P_CorrF2 P_CorrF4 P_Accur P_Accur2 P_Accur3 P_Accur6 P_Accur9 P_Accur10 P_Accur11
  S_Accur S_Reach S_Damp P_Base P_Grid P_Bounds P_Vario P_VarioMore P_VarioKernel P_VarioTables P_Reach S_FieldF S_FieldH P_FieldF P_FieldG P_FieldH P_FieldI P_FieldJ P_Damp P_Damp2.
Import ListNotations.
Open Scope R_scope.

Section Ranges.
Variable m : libm.
Hypothesis T : trig_rounded m.
Notation F := (Farith m).
Definition quarter : b64 := Bplus mode_NE (Flit 0 0) (Bdiv mode_NE (Flit 314 2) (Flit 2 0)).
Lemma quarter_val : fin quarter = true /\ Rabs (B2R quarter - qt) <= u53.
Proof.
  assert (E : B2SF quarter = SpecFloat.S754_finite false 7070651414971679 (-52)) by (vm_compute; reflexivity).
  assert (V : B2R quarter = 7070651414971679 * bpow radix2 (-52)).
  { destruct quarter as [b|b| |b k x pf]; cbn [B2SF] in E; try discriminate E. injection E as -> -> ->. reflexivity. }
  assert (Fq : fin quarter = true) by (destruct quarter; cbn [B2SF] in E; try discriminate E; reflexivity).
  split; [exact Fq|]. rewrite V, u53_val. unfold qt. apply Rabs_le. replace (bpow radix2 (-52)) with (/ 4503599627370496) by (cbn; lra). lra.
Qed.
Lemma sin_quarter_F : fin (lm_sin m quarter) = true /\ Rabs (B2R (lm_sin m quarter) - sin qt) <= 2 * u53.
Proof.
  destruct quarter_val as [Fq Q]. destruct (T quarter Fq) as (A & B & _). split; [exact A|]. rewrite B. change (nearest (sin (B2R quarter))) with (rnd (sin (B2R quarter))).
  pose proof (SIN_bound (B2R quarter)). pose proof (abs_err1 (sin (B2R quarter)) ltac:(apply Rle_lt_trans with 1; [apply Rabs_le|]; lra)) as E. pose proof (sin_diff (B2R quarter) qt) as D.
  replace (rnd (sin (B2R quarter)) - sin qt) with ((rnd (sin (B2R quarter)) - sin (B2R quarter)) + (sin (B2R quarter) - sin qt)) by ring.
  apply Rle_trans with (1 := Rabs_triang _ _). lra.
Qed.
Lemma cos_quarter_F : fin (lm_cos m quarter) = true /\ Rabs (B2R (lm_cos m quarter)) <= 9 / 10000.
Proof.
  destruct quarter_val as [Fq Q]. destruct (T quarter Fq) as (_ & _ & A & B). split; [exact A|]. rewrite B. change (nearest (cos (B2R quarter))) with (rnd (cos (B2R quarter))).
  pose proof (COS_bound (B2R quarter)). pose proof (abs_err1 (cos (B2R quarter)) ltac:(apply Rle_lt_trans with 1; [apply Rabs_le|]; lra)) as E. pose proof (cos_diff (B2R quarter) qt) as D.
  pose proof cos_qt. rewrite u53_val in *. apply Rabs_le_inv in E, D, Q. apply Rabs_le. pose proof (Rabs_le_inv _ _ (Rle_refl (Rabs (B2R quarter - qt)))).
  assert (Rabs (B2R quarter - qt) <= / 9007199254740992) by (apply Rabs_le; lra). lra.
Qed.
Lemma fmax_F (a b : b64) : fin a = true -> fin b = true -> fin (@fmax F a b) = true /\ B2R (@fmax F a b) = Rmax (B2R a) (B2R b).
Proof.
  intros A B. unfold fmax. change (flt F a b) with (Bltb a b). rewrite (Bltb_correct _ _ a b A B). unfold Rmax. destruct (Rlt_bool_spec (B2R a) (B2R b)) as [H|H]; destruct (Rle_dec (B2R a) (B2R b)); split; auto; lra.
Qed.
Lemma abs_F (a : b64) : fin a = true -> fin (Babs a) = true /\ B2R (Babs a) = Rabs (B2R a).
Proof. intros A. rewrite is_finite_Babs, B2R_Babs. split; [exact A|reflexivity]. Qed.
Lemma prod_rel (x y : b64) : fin x = true -> fin y = true -> bpow radix2 (-300) <= Rabs (B2R x * B2R y) <= bpow radix2 300 ->
  fin (Bm x y) = true /\ exists e, Rabs e <= u53 /\ B2R (Bm x y) = B2R x * B2R y * (1 + e).
Proof.
  intros X Y [L H]. destruct (prod_val x y X Y H) as [A B]. split; [exact A|]. rewrite B. apply rel_err. apply Rle_trans with (2 := L). apply bpow_le. lia.
Qed.
Lemma prod_le (x y : b64) c : fin x = true -> fin y = true -> 0 <= B2R x <= bpow radix2 100 -> Rabs (B2R y) <= c -> 0 < c <= 1 ->
  fin (Bm x y) = true /\ Rabs (B2R (Bm x y)) <= B2R x * c * (1 + u53) + bpow radix2 (-1000).
Proof.
  intros X Y B H C. assert (P : Rabs (B2R x * B2R y) <= B2R x * c) by (rewrite Rabs_mult, (Rabs_pos_eq (B2R x)) by lra; apply Rmult_le_compat_l; lra).
  assert (P2 : B2R x * c <= bpow radix2 300). { apply Rle_trans with (bpow radix2 100); [assert (0 <= B2R x * (1 - c)) by (apply Rmult_le_pos; lra); lra|apply bpow_le; lia]. }
  destruct (prod_val x y X Y ltac:(lra)) as [A V]. split; [exact A|]. rewrite V. pose proof (rnd_err (B2R x * B2R y)) as E.
  replace (rnd (B2R x * B2R y)) with ((rnd (B2R x * B2R y) - B2R x * B2R y) + B2R x * B2R y) by ring. apply Rle_trans with (1 := Rabs_triang _ _).
  pose proof (bpow_gt_0 radix2 (-53)) as U. change (bpow radix2 (-53)) with u53 in U. unfold tn in E. assert (TN : bpow radix2 (-1074) <= bpow radix2 (-1000)) by (apply bpow_le; lia). 
  assert (u53 * Rabs (B2R x * B2R y) <= u53 * (B2R x * c)) by (apply Rmult_le_compat_l; lra). lra.
Qed.
Lemma zero_abs (z : b64) : is_zero z -> fin (Babs z) = true /\ B2R (Babs z) = 0.
Proof. intros [b ->]. split; reflexivity. Qed.
(** a range of the user, seen along its own axis *)
Lemma side_F (r : b64) : ordinary r -> fin (Bm r (lm_sin m quarter)) = true /\ Rabs (B2R (Bm r (lm_sin m quarter)) - B2R r * sin qt) <= 4 * u53 * (B2R r * sin qt) /\
  (1 - 1 / 1000000) * B2R r <= B2R (Bm r (lm_sin m quarter)) <= B2R r /\ 0 < B2R (Bm r (lm_sin m quarter)).
Proof.
  intros (Fr & L & H). destruct sin_quarter_F as [Fs Es]. destruct sin_qt as [S1 S2]. pose proof (bpow_gt_0 radix2 (-100)) as B0. pose proof u53_val as U.
  set (s := B2R (lm_sin m quarter)) in *. apply Rabs_le_inv in Es as Es'. assert (S3 : 1 - 33 / 100000000 <= sin qt) by nra.
  assert (SB : 1 - 34 / 100000000 <= s <= 1 + 2 * u53) by (rewrite U in *; lra).
  assert (SL : s <= 1). { destruct quarter_val as [Fq _]. destruct (T quarter Fq) as (_ & B & _). unfold s. rewrite B. rewrite nearest_rnd. rewrite <- (rnd_id 1 fmt_1). apply rnd_mono. apply SIN_bound. }
  assert (RB : bpow radix2 (-300) <= Rabs (B2R r * s) <= bpow radix2 300).
  { rewrite Rabs_pos_eq by nra. split.
    - apply Rle_trans with (bpow radix2 (-100) * bpow radix2 (-1)); [rewrite <- bpow_plus; apply bpow_le; lia|]. apply Rmult_le_compat; [lra|apply bpow_ge_0|exact L|]. cbn. lra.
    - apply Rle_trans with (bpow radix2 100); [nra|apply bpow_le; lia]. }
  destruct (prod_rel r (lm_sin m quarter) Fr Fs RB) as (Fp & e & E1 & E2). fold s in E2. apply Rabs_le_inv in E1. split; [exact Fp|].
  assert (R0 : 0 < B2R r) by lra.
  assert (UP : B2R (Bm r (lm_sin m quarter)) <= B2R r).
  { destruct (prod_val r (lm_sin m quarter) Fr Fs (proj2 RB)) as [_ V]. rewrite V. fold s. rewrite <- (rnd_id (B2R r) (fmt_B r)) at 2. apply rnd_mono. nra. }
  split; [|split; [split; [|exact UP]|]].
  - rewrite E2. replace (B2R r * s * (1 + e) - B2R r * sin qt) with (B2R r * ((s - sin qt) + s * e)) by ring. rewrite Rabs_mult, (Rabs_pos_eq (B2R r)) by lra.
    replace (4 * u53 * (B2R r * sin qt)) with (B2R r * (4 * u53 * sin qt)) by ring. apply Rmult_le_compat_l; [lra|]. apply Rabs_le. rewrite U in *. split; nra.
  - rewrite E2, Rmult_assoc, (Rmult_comm (1 - 1 / 1000000)). apply Rmult_le_compat_l; [lra|]. rewrite U in *. nra.
  - rewrite E2. apply Rmult_lt_0_compat; [apply Rmult_lt_0_compat; lra|]. rewrite U in *. lra.
Qed.
(** the part of a range that the 1.57 of the code leaves on another axis: less than the main range *)
Lemma rest_F (r main : b64) : ordinary main -> ordinary r -> B2R r <= 1000 * B2R main ->
  fin (Bm r (lm_cos m quarter)) = true /\ Rabs (B2R (Bm r (lm_cos m quarter))) < B2R main.
Proof.
  intros (Fm & Lm & _) (Fr & L & H) K. destruct cos_quarter_F as [Fc Ec]. pose proof (bpow_gt_0 radix2 (-100)) as B0. pose proof u53_val as U.
  destruct (prod_le r (lm_cos m quarter) (9 / 10000) Fr Fc ltac:(lra) Ec ltac:(lra)) as [A B]. split; [exact A|]. apply Rle_lt_trans with (1 := B).
  assert (TT : bpow radix2 (-1000) <= / 1024 * bpow radix2 (-100)). { replace (/ 1024) with (bpow radix2 (-10)) by (cbn; lra). rewrite <- bpow_plus. apply bpow_le. lia. }
  rewrite U. lra.
Qed.
Lemma ranges_F (v0 : variogram F) : azimuth v0 = Flit 0 0 -> dip v0 = Flit 0 0 -> ordinary (range_x v0) -> ordinary (range_y v0) -> ordinary (range_z v0) ->
  B2R (range_y v0) <= 1000 * B2R (range_x v0) -> B2R (range_z v0) <= 1000 * B2R (range_x v0) ->
  exists x y z, @FindVariogramRanges F (EstimateFactors v0) = (x, y, z) /\ fin x = true /\ B2R x = B2R (range_x v0) /\
    (fin y = true /\ B2R y = B2R (Bm (range_y v0) (lm_sin m quarter))) /\ (fin z = true /\ B2R z = B2R (Bm (range_z v0) (lm_sin m quarter))).
Proof.
  intros AZ DP Ox Oy Oz Ky Kz. unfold FindVariogramRanges. 
  change (azimuth (EstimateFactors v0)) with (azimuth v0). change (dip (EstimateFactors v0)) with (dip v0).
  change (range_x (EstimateFactors v0)) with (range_x v0). change (range_y (EstimateFactors v0)) with (range_y v0). change (range_z (EstimateFactors v0)) with (range_z v0).
  rewrite AZ, DP. cbv zeta. cbn [fcos fsin fabs mul add div lit Farith]. change (Bplus mode_NE (Flit 0 0) (Bdiv mode_NE (Flit 314 2) (Flit 2 0))) with quarter.
  change (fcos F) with (lm_cos m). change (fsin F) with (lm_sin m). rewrite (cos0 m T). destruct (sin0 m T) as [sg S0]. rewrite S0.
  set (rx := range_x v0) in *. set (ry := range_y v0) in *. set (rz := range_z v0) in *.
  destruct (rest_F ry rx Ox Oy Ky) as [Fpy Bpy]. destruct (rest_F rz rx Ox Oz Kz) as [Fpz Bpz].
  destruct (side_F ry Oy) as (Fy & _ & _ & Py). destruct (side_F rz Oz) as (Fz & _ & _ & Pz).
  pose proof Ox as (Fx & Lx & Hx). pose proof (bpow_gt_0 radix2 (-100)) as B0. assert (T3 : bpow radix2 100 <= bpow radix2 300) by (apply bpow_le; lia).
  assert (Zs : is_zero (B754_zero sg : b64)) by (exists sg; reflexivity).
  destruct (prod_one rx Fx ltac:(rewrite Rabs_pos_eq; lra)) as [F1 V1]. destruct (prod_one (Bm rx (Flit 1 0)) F1 ltac:(rewrite V1, Rabs_pos_eq; lra)) as [F2 V2]. rewrite V1 in V2.
  destruct (prod_one (Bm rz (lm_cos m quarter)) Fpz ltac:(lra)) as [F3 V3].
  destruct (abs_F _ F2) as [F4 V4]. rewrite V2, Rabs_pos_eq in V4 by lra. destruct (abs_F _ Fpy) as [F5 V5]. destruct (abs_F _ F3) as [F6 V6]. rewrite V3 in V6.
  destruct (zero_abs _ (mult_zero_r _ _ Zs F1)) as [F7 V7]. destruct (zero_abs _ (mult_zero_r _ _ Zs Fx)) as [F8 V8]. destruct (zero_abs _ (mult_zero_r _ _ Zs Fpz)) as [F9 V9].
  destruct (abs_F _ Fy) as [Fa Va]. rewrite Rabs_pos_eq in Va by lra. destruct (abs_F _ Fz) as [Fb Vb]. rewrite Rabs_pos_eq in Vb by lra. destruct l0 as [F0 V0].
  do 3 eexists. split; [reflexivity|].
  assert (M1 : forall a b, b <= a -> Rmax a b = a) by (intros; apply Rmax_left; assumption). assert (M2 : forall a b, a <= b -> Rmax a b = b) by (intros; apply Rmax_right; assumption).
  destruct (fmax_F _ _ F4 F5) as [Ga Wa]. rewrite V4, V5, M1 in Wa by lra. destruct (fmax_F _ _ Ga F6) as [Gb Wb]. rewrite Wa, V6, M1 in Wb by lra.
  destruct (fmax_F _ _ F7 Fa) as [Gc Wc]. rewrite V7, Va, M2 in Wc by lra. destruct (fmax_F _ _ Gc F9) as [Gd Wd]. rewrite Wc, V9, M1 in Wd by lra.
  destruct (fmax_F _ _ F8 F0) as [Ge We]. rewrite V8, V0, M1 in We by lra. destruct (fmax_F _ _ Ge Fb) as [Gf Wf]. rewrite We, Vb, M2 in Wf by lra.
  split; [exact Gb|]. split; [exact Wb|]. split; split; assumption.
Qed.
End Ranges.
