(** Correlations in double precision: the factors are finite, and lag zero has correlation one. *)
From Coq Require Import ZArith Bool Lia Reals Lra String List.
From Flocq Require Import Core IEEE754.BinarySingleNaN.
From Verif Require Import Base Arith FloatArith M_Variogram S_Random S_Normal P_NormF S_CorrF P_CorrF.
Import ListNotations.
Open Scope R_scope.

(** ** a number of size at most 2^e *)
Definition bd (e : Z) (x : b64) : Prop := fin x = true /\ Rabs (B2R x) <= bpow radix2 e.
Lemma pow_big e : (e <= 1000)%Z -> bpow radix2 e <= big. Proof. intros. apply bpow_le. lia. Qed.
Lemma bd_within e x : bd e x <-> within (- bpow radix2 e) (bpow radix2 e) x.
Proof. unfold bd, within. split; intros [A B]; (split; [exact A|]). - apply Rabs_le_inv in B. exact B. - apply Rabs_le. exact B. Qed.
Lemma fmt_opp e : (-1000 <= e <= 1000)%Z -> fmt (- bpow radix2 e).
Proof. intros. apply generic_format_opp, fmt_pow. lia. Qed.
Lemma bd_mult e f x y : (-1000 <= e + f <= 1000)%Z -> bd e x -> bd f y -> bd (e + f) (Bm x y).
Proof.
  intros H [A B] [C D]. apply bd_within. apply mult_in; [apply fmt_opp; lia|apply fmt_pow; lia| | |exact A|exact C|].
  - pose proof (pow_big (e + f)). lra || (apply Ropp_le_contravar, pow_big; lia).
  - apply pow_big. lia.
  - apply Rabs_le_inv. rewrite Rabs_mult, bpow_plus. apply Rmult_le_compat; auto using Rabs_pos.
Qed.
Lemma bd_plus_r e (x y : b64) : bd e x -> bd e y -> Rabs (B2R x + B2R y) <= bpow radix2 (e + 1) /\ Rabs (B2R x - B2R y) <= bpow radix2 (e + 1).
Proof.
  intros [A B] [C D]. rewrite bpow_plus. change (bpow radix2 1) with 2. split; [pose proof (Rabs_triang (B2R x) (B2R y)); lra|].
  pose proof (Rabs_triang (B2R x) (- B2R y)). rewrite Rabs_Ropp in H. unfold Rminus. lra.
Qed.
Lemma bd_plus e x y : (-1000 <= e + 1 <= 1000)%Z -> bd e x -> bd e y -> bd (e + 1) (Bplus mode_NE x y).
Proof.
  intros H X Y. apply bd_within. apply plus_in; [apply fmt_opp; lia|apply fmt_pow; lia|apply Ropp_le_contravar, pow_big; lia|apply pow_big; lia|apply X|apply Y|].
  apply Rabs_le_inv, (bd_plus_r e x y X Y).
Qed.
Lemma bd_minus e x y : (-1000 <= e + 1 <= 1000)%Z -> bd e x -> bd e y -> bd (e + 1) (Bminus mode_NE x y).
Proof.
  intros H X Y. apply bd_within. apply minus_in; [apply fmt_opp; lia|apply fmt_pow; lia|apply Ropp_le_contravar, pow_big; lia|apply pow_big; lia|apply X|apply Y|].
  apply Rabs_le_inv, (bd_plus_r e x y X Y).
Qed.
Lemma bd_le e f x : (e <= f)%Z -> bd e x -> bd f x.
Proof. intros H [A B]. split; [exact A|]. apply Rle_trans with (1 := B), bpow_le, H. Qed.
Lemma bd_1 x : fin x = true -> Rabs (B2R x) <= 1 -> bd 0 x. Proof. intros A B. split; [exact A|exact B]. Qed.

(** ** not negative *)
Definition nn (x : b64) : Prop := fin x = true /\ 0 <= B2R x.
Lemma nn_ge0 x : nn x -> le64 zero64 x.
Proof. intros [A B]. unfold le64, zero64. rewrite Bleb_correct by auto. apply Rle_bool_true. exact B. Qed.
Lemma rnd_nn x : 0 <= x -> 0 <= rnd x.
Proof. intros H. rewrite <- (rnd_id 0 fmt_0). apply rnd_mono. exact H. Qed.
Lemma nn_plus e x y : (-1000 <= e + 1 <= 1000)%Z -> bd e x -> bd e y -> nn x -> nn y -> nn (Bplus mode_NE x y).
Proof.
  intros H X Y [A B] [C D]. split; [apply (bd_plus e x y H X Y)|].
  pose proof (Bplus_correct 53 1024 Hprec Hmax mode_NE x y A C) as Q.
  assert (O : Rlt_bool (Rabs (rnd (B2R x + B2R y))) (bpow radix2 1024) = true).
  { apply (no_over (- bpow radix2 (e + 1)) (bpow radix2 (e + 1))); [apply fmt_opp; lia|apply fmt_pow; lia| |apply Ropp_le_contravar, pow_big; lia|apply pow_big; lia].
    apply Rabs_le_inv, (bd_plus_r e x y X Y). }
  rewrite O in Q. destruct Q as [E _]. rewrite E. apply rnd_nn. lra.
Qed.
(** sign false *)
Definition pos_sign (x : b64) : Prop := Bsign x = false.
Lemma sign_nn x : fin x = true -> pos_sign x -> nn x.
Proof.
  intros A B. split; [exact A|]. destruct x as [s|s| |s k e H]; try discriminate; cbn; [lra|]. cbn in B. unfold pos_sign in B. cbn in B. subst.
  apply F2R_ge_0. cbn. lia.
Qed.

(** ** the factors *)
Lemma fac_ok (r : b64) : usual_range r -> bd 800 (Bdiv mode_NE (Flit 1 0) (Bm r r)) /\ pos_sign (Bdiv mode_NE (Flit 1 0) (Bm r r)).
Proof.
  intros [Fr [A B]]. pose proof (bpow_gt_0 radix2 (-400)) as P.
  assert (W : within (bpow radix2 (-800)) (bpow radix2 800) (Bm r r)).
  { apply mult_in; [apply fmt_pow; lia|apply fmt_pow; lia| |apply pow_big; lia|exact Fr|exact Fr|].
    - pose proof (bpow_gt_0 radix2 1000). pose proof (bpow_gt_0 radix2 (-800)). unfold big. lra.
    - change (-800)%Z with (-400 + -400)%Z. change 800%Z with (400 + 400)%Z. rewrite !bpow_plus. split; apply Rmult_le_compat; lra. }
  destruct W as [Fs [C D]]. destruct l1 as [F1 V1]. pose proof (bpow_gt_0 radix2 (-800)) as P8.
  assert (N : B2R (Bm r r) <> 0) by lra.
  assert (Q : 0 <= B2R (Flit 1 0) / B2R (Bm r r) <= bpow radix2 800).
  { rewrite V1. split; [apply Rlt_le, Rdiv_lt_0_compat; lra|]. unfold Rdiv. rewrite Rmult_1_l.
    replace (bpow radix2 800) with (/ bpow radix2 (-800)) by (rewrite <- bpow_opp; reflexivity). apply Rinv_le_contravar; lra. }
  assert (WD : within 0 (bpow radix2 800) (Bdiv mode_NE (Flit 1 0) (Bm r r))).
  { apply div_in; [apply fmt_0|apply fmt_pow; lia| |apply pow_big; lia|exact F1|exact N|exact Q]. pose proof (bpow_gt_0 radix2 1000). unfold big. lra. }
  destruct WD as [FD [E G]]. split; [split; [exact FD|]; rewrite Rabs_right; lra|].
  pose proof (Bdiv_correct 53 1024 Hprec Hmax mode_NE (Flit 1 0) (Bm r r) N) as Z.
  rewrite (no_over 0 (bpow radix2 800)) in Z; [|apply fmt_0|apply fmt_pow; lia|exact Q|pose proof (bpow_gt_0 radix2 1000); unfold big; lra|apply pow_big; lia].
  destruct Z as [_ [_ S]]. unfold pos_sign. rewrite S by (apply finite_not_nan, FD).
  destruct (mult_ff r r Fr Fr) as [_ T]. rewrite T. destruct (Bsign r); vm_compute; reflexivity.
Qed.
Section Factors.
Variable m : libm.
Hypothesis ok : fair m.
Notation F := (Farith m).
Variable v0 : variogram F.
Hypothesis Rx : usual_range (range_x v0).
Hypothesis Ry : usual_range (range_y v0).
Hypothesis Rz : usual_range (range_z v0).
Hypothesis Fa : fin (azimuth v0) = true.
Hypothesis Fd : fin (dip v0) = true.
Notation v := (EstimateFactors v0).
Let c := lm_cos m (azimuth v0).
Let s := lm_sin m (azimuth v0).
Let cd := lm_cos m (dip v0).
Let sd := lm_sin m (dip v0).
Let f1 := Bdiv mode_NE (Flit 1 0) (Bm (range_x v0) (range_x v0)).
Let f2 := Bdiv mode_NE (Flit 1 0) (Bm (range_y v0) (range_y v0)).
Let f3 := Bdiv mode_NE (Flit 1 0) (Bm (range_z v0) (range_z v0)).
Lemma bc : bd 0 c. Proof. apply (cos_unit m ok), Fa. Qed.
Lemma bs : bd 0 s. Proof. apply (sin_unit m ok), Fa. Qed.
Lemma bcd : bd 0 cd. Proof. apply (cos_unit m ok), Fd. Qed.
Lemma bsd : bd 0 sd. Proof. apply (sin_unit m ok), Fd. Qed.
Lemma b2 : bd 1 (Flit 2 0). Proof. destruct l2 as [A B]. split; [exact A|]. rewrite B. cbn. rewrite Rabs_right; lra. Qed.
Lemma m0 x y : bd 0 x -> bd 0 y -> bd 0 (Bm x y). Proof. intros. apply (bd_mult 0 0); [lia|assumption|assumption]. Qed.
Lemma m8 x y : bd 0 x -> bd 800 y -> bd 800 (Bm x y). Proof. intros. apply (bd_mult 0 800); [lia|assumption|assumption]. Qed.
Ltac small := repeat first [apply bc|apply bs|apply bcd|apply bsd|apply m0].
Lemma bf1 : bd 800 f1. Proof. apply fac_ok, Rx. Qed.
Lemma bf2 : bd 800 f2. Proof. apply fac_ok, Ry. Qed.
Lemma bf3 : bd 800 f3. Proof. apply fac_ok, Rz. Qed.
Ltac term := apply m8; [small|first [apply bf1|apply bf2|apply bf3]].
Lemma sum3 x y z : bd 800 x -> bd 800 y -> bd 800 z -> bd 802 (Bplus mode_NE (Bplus mode_NE x y) z).
Proof. intros X Y Z. apply (bd_plus 801); [lia|apply (bd_plus 800); [lia|assumption|assumption]|apply (bd_le 800); [lia|assumption]]. Qed.
Lemma sum3m x y z : bd 800 x -> bd 800 y -> bd 800 z -> bd 802 (Bplus mode_NE (Bminus mode_NE x y) z).
Proof. intros X Y Z. apply (bd_plus 801); [lia|apply (bd_minus 800); [lia|assumption|assumption]|apply (bd_le 800); [lia|assumption]]. Qed.
Lemma factors_bd : bd 803 (txx v) /\ bd 803 (tyy v) /\ bd 803 (tzz v) /\ bd 803 (txy v) /\ bd 803 (txz v) /\ bd 803 (tyz v).
Proof.
  unfold EstimateFactors. cbn [txx tyy tzz txy txz tyz]. cbn [mul add sub div lit fcos fsin Farith]. fold c s cd sd. fold f1 f2 f3.
  split; [apply (bd_le 802); [lia|]; apply sum3; term|].
  split; [apply (bd_le 802); [lia|]; apply sum3; term|].
  split; [apply (bd_le 801); [lia|]; apply (bd_plus 800); [lia| |]; term|].
  split; [apply (bd_mult 1 802); [lia|apply b2|]; apply sum3m; term|].
  split; apply (bd_le 802); try lia; (apply (bd_mult 1 801); [lia|apply b2|]; apply (bd_minus 800); [lia| |]; term).
Qed.
Lemma ps_sq x : fin x = true -> pos_sign (Bm x x).
Proof. intros H. unfold pos_sign. rewrite (proj2 (mult_ff x x H H)). destruct (Bsign x); reflexivity. Qed.
Lemma ps_sq2 q x : fin q = true -> fin x = true -> fin (Bm q x) = true -> pos_sign q -> pos_sign (Bm (Bm q x) x).
Proof. intros A B C D. unfold pos_sign in *. rewrite (proj2 (mult_ff _ _ C B)), (proj2 (mult_ff _ _ A B)), D. destruct (Bsign x); reflexivity. Qed.
Lemma ps_m x y : fin x = true -> fin y = true -> pos_sign x -> pos_sign y -> pos_sign (Bm x y).
Proof. intros A B C D. unfold pos_sign in *. rewrite (proj2 (mult_ff _ _ A B)), C, D. reflexivity. Qed.
Lemma txx_nn : nn (txx v).
Proof.
  unfold EstimateFactors. cbn [txx]. cbn [mul add sub div lit fcos fsin Farith]. fold c s cd sd. fold f1 f2 f3.
  assert (T1 : nn (Bm (Bm (Bm (Bm c c) cd) cd) f1)).
  { assert (B : bd 800 (Bm (Bm (Bm (Bm c c) cd) cd) f1)) by term. apply sign_nn; [apply B|].
    assert (B0 : bd 0 (Bm (Bm c c) cd)) by small. assert (B1 : bd 0 (Bm c c)) by small. assert (B2 : bd 0 (Bm (Bm (Bm c c) cd) cd)) by small.
    apply ps_m; [apply B2|apply bf1| |apply fac_ok, Rx]. apply ps_sq2; [apply B1|apply bcd|apply B0|]. apply ps_sq. apply bc. }
  assert (T2 : nn (Bm (Bm s s) f2)).
  { assert (B : bd 800 (Bm (Bm s s) f2)) by term. apply sign_nn; [apply B|]. assert (B1 : bd 0 (Bm s s)) by small.
    apply ps_m; [apply B1|apply bf2| |apply fac_ok, Ry]. apply ps_sq. apply bs. }
  assert (T3 : nn (Bm (Bm (Bm (Bm c c) sd) sd) f3)).
  { assert (B : bd 800 (Bm (Bm (Bm (Bm c c) sd) sd) f3)) by term. apply sign_nn; [apply B|].
    assert (B0 : bd 0 (Bm (Bm c c) sd)) by small. assert (B1 : bd 0 (Bm c c)) by small. assert (B2 : bd 0 (Bm (Bm (Bm c c) sd) sd)) by small.
    apply ps_m; [apply B2|apply bf3| |apply fac_ok, Rz]. apply ps_sq2; [apply B1|apply bsd|apply B0|]. apply ps_sq. apply bc. }
  apply (nn_plus 801); [lia|apply (bd_plus 800); [lia| |]; term|apply (bd_le 800); [lia|]; term| |exact T3].
  apply (nn_plus 800); [lia|term|term|exact T1|exact T2].
Qed.
End Factors.
(** ** zero lags *)
Definition is_zero (x : b64) : Prop := exists t, x = B754_zero t.
Lemma zero_mult a x : fin a = true -> is_zero x -> is_zero (Bm a x).
Proof. intros A [t ->]. destruct a; try discriminate; cbn; eexists; reflexivity. Qed.
Lemma zero_plus x y : is_zero x -> is_zero y -> is_zero (Bplus mode_NE x y).
Proof. intros [s ->] [t ->]. destruct s, t; cbn; eexists; reflexivity. Qed.
Lemma zero_fin x : is_zero x -> fin x = true. Proof. intros [t ->]. reflexivity. Qed.
Lemma zero_sqrt x : is_zero x -> is_zero (Bsqrt mode_NE x). Proof. intros [t ->]. eexists; reflexivity. Qed.
Lemma zero_mult2 a x y : fin a = true -> is_zero x -> is_zero y -> is_zero (Bm (Bm a x) y).
Proof. intros A X Y. apply zero_mult; [|exact Y]. apply zero_fin, zero_mult; assumption. Qed.
Section Zero.
Variable m : libm.
Hypothesis ok : fair m.
Notation F := (Farith m).
Lemma corr_zero (v : variogram F) d : vt v <> N_TYPES -> (vt v = GENERAL_EXPONENTIAL -> Bltb zero64 (vpower v) = true) -> is_zero d -> Corr1D v d = one64.
Proof.
  intros N P Z. destruct m3_strict as [T3 S3].
  assert (F3 : fin (Flit (-3) 0) = true) by (vm_compute; reflexivity).
  unfold Corr1D. destruct (vt v); cbn [mul sub add div neg lit fexp fpow flt Farith].
  - reflexivity.
  - destruct (zero_mult _ _ F3 Z) as [t ->]. apply (exp_zero m ok).
  - destruct Z as [t ->]. destruct t; apply B2SF_inj; vm_compute; reflexivity.
  - destruct (zero_mult2 _ _ _ F3 Z Z) as [t ->]. apply (exp_zero m ok).
  - destruct Z as [t ->]. destruct (pow_zero m ok t (vpower v) (P eq_refl)) as [t' ->].
    destruct (zero_mult _ (B754_zero t') F3 (ex_intro _ t' eq_refl)) as [t2 ->]. apply (exp_zero m ok).
  - assert (F4 : fin (Flit 4744 3) = true) by (vm_compute; reflexivity). destruct (zero_mult _ _ F4 Z) as [t ->]. cbn [Bopp]. rewrite (exp_zero m ok).
    destruct t; apply B2SF_inj; vm_compute; reflexivity.
  - assert (F4 : fin (Flit 5918 3) = true) by (vm_compute; reflexivity). destruct (zero_mult _ _ F4 Z) as [t ->]. cbn [Bopp]. rewrite (exp_zero m ok).
    destruct t; apply B2SF_inj; vm_compute; reflexivity.
  - assert (F4 : fin (Flit 6877 3) = true) by (vm_compute; reflexivity). destruct (zero_mult _ _ F4 Z) as [t ->]. cbn [Bopp]. rewrite (exp_zero m ok).
    destruct (pow_zero m ok t (Flit 2 0)) as [t2 ->]; [vm_compute; reflexivity|]. destruct (pow_zero m ok t (Flit 3 0)) as [t3 ->]; [vm_compute; reflexivity|].
    destruct t, t2, t3; apply B2SF_inj; vm_compute; reflexivity.
  - congruence.
Qed.
Lemma dist_zero (v : variogram F) x y z : fin (txx v) = true -> fin (tyy v) = true -> fin (tzz v) = true -> fin (txy v) = true -> fin (txz v) = true -> fin (tyz v) = true ->
  is_zero x -> is_zero y -> is_zero z -> is_zero (Distance1 v x) /\ is_zero (Distance2 v x y) /\ is_zero (Distance3 v x y z).
Proof.
  intros A B C D E G X Y Z. unfold Distance1, Distance2, Distance3. cbn [fsqrt add mul Farith].
  split; [|split]; apply zero_sqrt; repeat apply zero_plus; apply zero_mult2; assumption.
Qed.
End Zero.
