(** Variograms, covariance tables and sizes in units that differ by a power of two. *)
From Coq Require Import ZArith Bool Lia Reals Lra Psatz List String.
From Flocq Require Import Core IEEE754.BinarySingleNaN.
From Verif Require Import Base Arith FloatArith M_Variogram M_Padding M_FftSize M_Grid M_CovGrid M_Dsfmt M_Random M_Field M_Api S_Api S_CovGrid S_Random S_FieldF S_UnitF P_Base P_Bounds P_Grid P_Vario P_NormF P_FieldF P_UnitF.
Import ListNotations.
Open Scope R_scope.

Lemma rel_cast k lo hi k' lo' hi' x y : rel k lo hi x y -> k = k' -> (lo' <= lo)%Z -> (hi <= hi')%Z -> rel k' lo' hi' x y.
Proof. intros H -> H1 H2. eapply rel_weak; eauto. Qed.
Lemma rel_lit k lo hi (x : b64) r : exactly x r -> k = 0%Z -> bp lo <= Rabs r -> Rabs r <= bp hi -> rel k lo hi x x.
Proof. intros [F V] -> A B. apply rel_refl; [exact F| |]; rewrite V; auto. Qed.
Lemma rel_one : rel 0 0 0 (Flit 1 0) (Flit 1 0).
Proof. apply (rel_lit 0 0 0 _ 1 l1 eq_refl); rewrite Rabs_R1; cbn [bpow]; lra. Qed.
Lemma rel_two : rel 0 1 1 (Flit 2 0) (Flit 2 0).
Proof. apply (rel_lit 0 1 1 _ 2 l2 eq_refl); rewrite Rabs_pos_eq by lra; change (bp 1) with 2; lra. Qed.

Section U.
Variable m : libm.
Notation F := (Farith m).
Variable K : Z.
Hypothesis HK : (-64 <= K <= 64)%Z.
Definition longr (r r' : b64) : Prop := rel K (-64) 64 r r' /\ B2R r <> 0.
Definition ratio (c : b64) : Prop := rel 0 (-100) 0 c c.

Lemma fac (r r' : b64) : longr r r' -> rel (- (2 * K)) (-128) 128 (Bdiv mode_NE (Flit 1 0) (Bmult mode_NE r r)) (Bdiv mode_NE (Flit 1 0) (Bmult mode_NE r' r')).
Proof.
  intros [H N]. assert (H2 : rel (K + K) (-64 + -64) (64 + 64) (Bmult mode_NE r r) (Bmult mode_NE r' r')) by (apply rel_mul; auto; lia).
  eapply rel_cast; [eapply (rel_div 0 0 0); [exact rel_one|exact H2| |lia|lia|lia|lia]|lia|lia|lia].
  assert (NZ : B2R r * B2R r <> 0) by (apply Rmult_integral_contrapositive_currified; exact N).
  assert (LB : bp (-64) <= Rabs (B2R r)) by (destruct H as (_ & _ & _ & _ & [A|A] & _); [contradiction|exact A]).
  assert (UB : Rabs (B2R r) <= bp 64) by apply H.
  pose proof (Bmult_correct 53 1024 Hprec Hmax mode_NE r r) as C. change (SpecFloat.fexp 53 1024) with (FLT_exp (-1074) 53) in C. cbn [round_mode] in C.
  assert (L2 : bp (-128) <= Rabs (B2R r * B2R r)) by (rewrite Rabs_mult; change (-128)%Z with (-64 + -64)%Z; rewrite bpow_plus; apply Rmult_le_compat; auto using bpow_ge_0).
  assert (U2 : Rabs (B2R r * B2R r) <= bp 128) by (rewrite Rabs_mult; change 128%Z with (64 + 64)%Z; rewrite bpow_plus; apply Rmult_le_compat; auto using Rabs_pos).
  rewrite (no_ovf _ 128) in C by (try exact U2; lia). destruct C as [C _]. rewrite C. intros Z.
  pose proof (rnd_ge_bp (B2R r * B2R r) (-128) ltac:(lia) L2) as G. rewrite Z, Rabs_R0 in G. pose proof (bpow_gt_0 radix2 (-128)). lra.
Qed.

Ltac prodt := first [eassumption|eapply rel_mul; [prodt|prodt|lia|lia|lia|lia]].
Ltac term := eapply rel_cast; [prodt|lia|lia|lia].
Section T.
Variables (cR sR cD sD f1 f2 f3 f1' f2' f3' : b64).
Hypotheses (RcR : ratio cR) (RsR : ratio sR) (RcD : ratio cD) (RsD : ratio sD).
Hypotheses (R1 : rel (- (2 * K)) (-128) 128 f1 f1') (R2 : rel (- (2 * K)) (-128) 128 f2 f2') (R3 : rel (- (2 * K)) (-128) 128 f3 f3').
Notation "a * b" := (mul F a b). Notation "a + b" := (add F a b). Notation "a - b" := (sub F a b).
Definition coef (x y : b64) := rel (- (2 * K)) (-640) 140 x y.
Lemma sum2 (a b a' b' : b64) : rel (- (2 * K)) (-528) 128 a a' -> rel (- (2 * K)) (-528) 128 b b' -> coef (a + b) (a' + b').
Proof. intros H1 H2. unfold coef. eapply rel_cast; [eapply rel_add; [exact H1|exact H2|lia|lia|lia|lia]|lia|lia|lia]. Qed.
Lemma sum3 (a b c a' b' c' : b64) : rel (- (2 * K)) (-528) 128 a a' -> rel (- (2 * K)) (-528) 128 b b' -> rel (- (2 * K)) (-528) 128 c c' -> coef (a + b + c) (a' + b' + c').
Proof.
  intros H1 H2 H3. unfold coef. eapply rel_cast; [eapply rel_add; [eapply rel_add; [exact H1|exact H2|lia|lia|lia|lia]|exact H3|lia|lia|lia|lia]|lia|lia|lia].
Qed.
Lemma dif3 (a b c a' b' c' : b64) : rel (- (2 * K)) (-528) 128 a a' -> rel (- (2 * K)) (-528) 128 b b' -> rel (- (2 * K)) (-528) 128 c c' ->
  coef (Flit 2 0 * (a - b + c)) (Flit 2 0 * (a' - b' + c')).
Proof.
  intros H1 H2 H3. unfold coef. eapply rel_cast; [eapply rel_mul; [exact rel_two|eapply rel_add; [eapply rel_sub; [exact H1|exact H2|lia|lia|lia|lia]|exact H3|lia|lia|lia|lia]|lia|lia|lia|lia]|lia|lia|lia].
Qed.
Lemma dif2 (a b a' b' : b64) : rel (- (2 * K)) (-528) 128 a a' -> rel (- (2 * K)) (-528) 128 b b' -> coef (Flit 2 0 * (a - b)) (Flit 2 0 * (a' - b')).
Proof.
  intros H1 H2. unfold coef. eapply rel_cast; [eapply rel_mul; [exact rel_two|eapply rel_sub; [exact H1|exact H2|lia|lia|lia|lia]|lia|lia|lia|lia]|lia|lia|lia].
Qed.
Lemma txx_rel : coef (cR*cR*cD*cD*f1 + sR*sR*f2 + cR*cR*sD*sD*f3) (cR*cR*cD*cD*f1' + sR*sR*f2' + cR*cR*sD*sD*f3').
Proof. unfold ratio in *. apply sum3; term. Qed.
Lemma tyy_rel : coef (sR*sR*cD*cD*f1 + cR*cR*f2 + sR*sR*sD*sD*f3) (sR*sR*cD*cD*f1' + cR*cR*f2' + sR*sR*sD*sD*f3').
Proof. unfold ratio in *. apply sum3; term. Qed.
Lemma tzz_rel : coef (sD*sD*f1 + cD*cD*f3) (sD*sD*f1' + cD*cD*f3').
Proof. unfold ratio in *. apply sum2; term. Qed.
Lemma txy_rel : coef (Flit 2 0 * (cD*cD*cR*sR*f1 - sR*cR*f2 + sD*sD*cR*sR*f3)) (Flit 2 0 * (cD*cD*cR*sR*f1' - sR*cR*f2' + sD*sD*cR*sR*f3')).
Proof. unfold ratio in *. apply dif3; term. Qed.
Lemma txz_rel : coef (Flit 2 0 * (cR*cD*sD*f1 - cR*cD*sD*f3)) (Flit 2 0 * (cR*cD*sD*f1' - cR*cD*sD*f3')).
Proof. unfold ratio in *. apply dif2; term. Qed.
Lemma tyz_rel : coef (Flit 2 0 * (sR*cD*sD*f1 - sR*cD*sD*f3)) (Flit 2 0 * (sR*cD*sD*f1' - sR*cD*sD*f3')).
Proof. unfold ratio in *. apply dif2; term. Qed.
End T.

(** the same variogram in another unit *)
Definition moved (v v' : variogram F) : Prop := exists t p rx ry rz rx' ry' rz' az dp sd,
  v = @new_variogram F t p rx ry rz az dp sd /\ v' = @new_variogram F t p rx' ry' rz' az dp sd /\
  longr rx rx' /\ longr ry ry' /\ longr rz rz' /\ ratio (lm_sin m az) /\ ratio (lm_cos m az) /\ ratio (lm_sin m dp) /\ ratio (lm_cos m dp) /\ 
  (t = GENERAL_EXPONENTIAL -> rel 0 (-100) 100 p p).
Section V.
Variables v v' : variogram F.
Hypothesis HV : moved v v'.
Lemma coefs : coef (txx v) (txx v') /\ coef (tyy v) (tyy v') /\ coef (tzz v) (tzz v') /\ coef (txy v) (txy v') /\ coef (txz v) (txz v') /\ coef (tyz v) (tyz v').
Proof.
  destruct HV as (t & p & rx & ry & rz & rx' & ry' & rz' & az & dp & sd & -> & -> & LX & LY & LZ & SA & CA & SD & CD & _).
  unfold new_variogram, EstimateFactors. cbn [txx tyy tzz txy txz tyz range_x range_y range_z azimuth dip].
  split; [apply txx_rel|split; [apply tyy_rel|split; [apply tzz_rel|split; [apply txy_rel|split; [apply txz_rel|apply tyz_rel]]]]]; try assumption; apply fac; assumption.
Qed.
Definition lagr (x x' : b64) : Prop := rel K (-64) 95 x x'.
Lemma quad (t t' x x' y y' : b64) : coef t t' -> lagr x x' -> lagr y y' -> Bmult mode_NE (Bmult mode_NE t' x') y' = Bmult mode_NE (Bmult mode_NE t x) y.
Proof.
  unfold coef, lagr. intros H1 H2 H3. symmetry. eapply (rel_same (-768) 330). eapply rel_cast; [prodt|lia|lia|lia].
Qed.
Lemma dist3_moved x y z x' y' z' : lagr x x' -> lagr y y' -> lagr z z' -> @Distance3 F v' x' y' z' = @Distance3 F v x y z.
Proof.
  intros X Y Z. destruct coefs as (C1 & C2 & C3 & C4 & C5 & C6). unfold Distance3. cbn [fsqrt mul add Farith].
  rewrite (quad _ _ _ _ _ _ C1 X X), (quad _ _ _ _ _ _ C2 Y Y), (quad _ _ _ _ _ _ C3 Z Z), (quad _ _ _ _ _ _ C4 X Y), (quad _ _ _ _ _ _ C5 X Z), (quad _ _ _ _ _ _ C6 Y Z).
  reflexivity.
Qed.
Lemma dist2_moved x y x' y' : lagr x x' -> lagr y y' -> @Distance2 F v' x' y' = @Distance2 F v x y.
Proof.
  intros X Y. destruct coefs as (C1 & C2 & C3 & C4 & C5 & C6). unfold Distance2. cbn [fsqrt mul add Farith].
  rewrite (quad _ _ _ _ _ _ C1 X X), (quad _ _ _ _ _ _ C2 Y Y), (quad _ _ _ _ _ _ C4 X Y). reflexivity.
Qed.
Lemma dist1_moved x x' : lagr x x' -> @Distance1 F v' x' = @Distance1 F v x.
Proof.
  intros X. destruct coefs as (C1 & _). unfold Distance1. cbn [fsqrt mul add Farith]. rewrite (quad _ _ _ _ _ _ C1 X X). reflexivity.
Qed.
Lemma corr_moved x : @Corr1D F v' x = @Corr1D F v x.
Proof. destruct HV as (t & p & rx & ry & rz & rx' & ry' & rz' & az & dp & sd & -> & -> & _). reflexivity. Qed.
Lemma var_moved : var v' = var v.
Proof. destruct HV as (t & p & rx & ry & rz & rx' & ry' & rz' & az & dp & sd & -> & -> & _). reflexivity. Qed.

(** tables without smoothing *)
Definition off (s : b64) : Prop := Bltb s (Flit 99999 5) = false.
Lemma kernel_off (s b dd c : b64) : off s -> @kernel F s b dd c = c.
Proof. unfold off, kernel. intros H. change (flt F s (lit F 99999 5)) with (Bltb s (Flit 99999 5)). rewrite H. reflexivity. Qed.
Lemma int_rel z : (Z.abs z <= 2 ^ 31)%Z -> rel 0 0 31 (Fof z 0) (Fof z 0).
Proof.
  intros H. destruct (of_exact z ltac:(lia)) as [Fz V]. apply rel_refl; [exact Fz| |]; rewrite V, <- ?abs_IZR.
  - destruct (Z.eq_dec z 0) as [->|N]; [left; reflexivity|right]. cbn [bpow]. apply IZR_le. lia.
  - change (bp 31) with (IZR (2 ^ 31)). apply IZR_le. exact H.
Qed.
Lemma lag_rel n i (d d' : b64) : longr d d' -> (i < n)%nat -> (Z.of_nat n < 2 ^ 31)%Z -> lagr (@lag F n i d) (@lag F n i d').
Proof.
  intros [D _] I N. unfold lagr, lag. cbn [mul ofZ Farith]. eapply rel_cast; [eapply rel_mul; [apply int_rel|exact D|lia|lia|lia|lia]|lia|lia|lia].
  unfold wrapped. destruct (2 * i <? n)%nat; lia.
Qed.
Lemma lag1_rel n i (d d' : b64) : longr d d' -> (i < n)%nat -> (Z.of_nat n < 2 ^ 31)%Z -> lagr (@lag1 F n i d) (@lag1 F n i d').
Proof.
  intros [D _] I N. unfold lagr, lag1. cbn [mul ofZ Farith]. destruct (2 * i <? n)%nat.
  - eapply rel_cast; [eapply rel_mul; [apply int_rel|exact D|lia|lia|lia|lia]|lia|lia|lia]. lia.
  - eapply rel_cast; [eapply rel_mul; [exact D|apply int_rel|lia|lia|lia|lia]|lia|lia|lia]. lia.
Qed.
Lemma table1_moved n (dx dx' sx : b64) : longr dx dx' -> off sx -> (Z.of_nat n < 2 ^ 31)%Z -> @FFTCovGrid1D F v' n dx' sx = @FFTCovGrid1D F v n dx sx.
Proof.
  intros D S N. rewrite !cov1_ok. f_equal. apply map_ext_in. intros i I. apply in_seq in I. unfold cov1_spec.
  destruct (FindSmoothingFactors v' _ _ _) as [[? ?] ?], (FindSmoothingFactors v _ _ _) as [[? ?] ?]. rewrite !kernel_off by assumption.
  unfold GetCorr1. rewrite corr_moved, var_moved, (dist1_moved _ _ (lag1_rel n i dx dx' D ltac:(lia) N)). reflexivity.
Qed.
Lemma table2_moved nx ny (dx dx' dy dy' sx sy : b64) : longr dx dx' -> longr dy dy' -> off sx -> off sy -> (Z.of_nat nx < 2 ^ 31)%Z -> (Z.of_nat ny < 2 ^ 31)%Z ->
  @FFTCovGrid2D F v' nx dx' ny dy' sx sy = @FFTCovGrid2D F v nx dx ny dy sx sy.
Proof.
  intros DX DY SX SY NX NY. rewrite !cov2_ok. f_equal. apply map_ext_in. intros q I. apply in_seq in I. pose proof (GetIndex_GetIJ nx ny q ltac:(lia)) as G.
  destruct (GetIJ nx ny q) as [i j]. destruct G as (GI & GJ & _). unfold cov2_spec.
  destruct (FindSmoothingFactors v' _ _ _) as [[? ?] ?], (FindSmoothingFactors v _ _ _) as [[? ?] ?]. rewrite !kernel_off by assumption.
  unfold GetCorr2. rewrite corr_moved, var_moved, (dist2_moved _ _ _ _ (lag_rel nx i dx dx' DX GI NX) (lag_rel ny j dy dy' DY GJ NY)). reflexivity.
Qed.
Lemma table3_moved nx ny nz (dx dx' dy dy' dz dz' sx sy sz : b64) : longr dx dx' -> longr dy dy' -> longr dz dz' -> off sx -> off sy -> off sz ->
  (Z.of_nat nx < 2 ^ 31)%Z -> (Z.of_nat ny < 2 ^ 31)%Z -> (Z.of_nat nz < 2 ^ 31)%Z ->
  @FFTCovGrid3D F v' nx dx' ny dy' nz dz' sx sy sz = @FFTCovGrid3D F v nx dx ny dy nz dz sx sy sz.
Proof.
  intros DX DY DZ SX SY SZ NX NY NZ. rewrite !cov3_ok. f_equal. apply map_ext_in. intros q I. apply in_seq in I. pose proof (GetIndex_GetIJK nx ny nz q ltac:(lia)) as G.
  destruct (GetIJK nx ny q) as [[i j] k]. destruct G as (GI & GJ & GK & _). unfold cov3_spec.
  destruct (FindSmoothingFactors v' _ _ _) as [[? ?] ?], (FindSmoothingFactors v _ _ _) as [[? ?] ?]. rewrite !kernel_off by assumption.
  unfold GetCorr3. rewrite corr_moved, var_moved, (dist3_moved _ _ _ _ _ _ (lag_rel nx i dx dx' DX GI NX) (lag_rel ny j dy dy' DY GJ NY) (lag_rel nz k dz dz' DZ GK NZ)). reflexivity.
Qed.

(** padding *)
Lemma room_rel : @GetMinimumRangeToGridRatio F v' = @GetMinimumRangeToGridRatio F v /\ rel 0 (-210) 110 (@GetMinimumRangeToGridRatio F v) (@GetMinimumRangeToGridRatio F v).
Proof.
  destruct HV as (t & p & rx & ry & rz & rx' & ry' & rz' & az & dp & sd & -> & -> & _ & _ & _ & _ & _ & _ & _ & P). split; [reflexivity|].
  unfold new_variogram, EstimateFactors, GetMinimumRangeToGridRatio. cbn [vt vpower].
  assert (L : forall x : b64, fin x = true -> Bleb (Flit 1 0) x = true -> Bleb x (Flit 16 0) = true -> rel 0 0 4 x x).
  { intros x Fx L1 L2. destruct l1 as [F1 V1]. assert (L16 : exactly (Flit 16 0) 16) by lit_t. destruct L16 as [F16 V16].
    rewrite (Bleb_correct _ _ _ _ F1 Fx), V1 in L1. rewrite (Bleb_correct _ _ _ _ Fx F16), V16 in L2.
    destruct (Rle_bool_spec 1 (B2R x)) as [G1|]; [|discriminate]. destruct (Rle_bool_spec (B2R x) 16) as [G2|]; [|discriminate].
    apply rel_refl; [exact Fx| |]; rewrite Rabs_pos_eq by lra; [right; cbn [bpow]; lra|change (bp 4) with 16; lra]. }
  assert (L' : forall x : b64, fin x = true -> Bleb (Flit 1 0) x = true -> Bleb x (Flit 16 0) = true -> rel 0 (-210) 110 x x) by (intros; eapply rel_weak; [apply L; assumption|lia|lia]).
  destruct t; [apply L'; vm_compute; reflexivity|apply L'; vm_compute; reflexivity|apply L'; vm_compute; reflexivity|apply L'; vm_compute; reflexivity| |apply L'; vm_compute; reflexivity|apply L'; vm_compute; reflexivity|apply L'; vm_compute; reflexivity| ].
  - specialize (P eq_refl). cbn [add sub mul lit Farith].
    eapply rel_cast; [eapply rel_add; [apply (L (Flit 4 0)); vm_compute; reflexivity|eapply (rel_cast (0 + 0)); [eapply rel_mul; [eapply rel_sub; [exact P|apply (L (Flit 15 1)); vm_compute; reflexivity|lia|lia|lia|lia]|apply (L (Flit 534 2)); vm_compute; reflexivity|lia|lia|lia|lia]|reflexivity|apply Z.le_refl|apply Z.le_refl]|lia|lia|lia|lia]|lia|lia|lia].
  - destruct (BinarySingleNaN.is_finite (lit F 0 0)) eqn:E; [|vm_compute in E; discriminate]. assert (Z : B2R (Flit 0 0) = 0) by (vm_compute; reflexivity).
    apply rel_refl; [exact E| |]; change (lit F 0 0) with (Flit 0 0); rewrite Z; [left; reflexivity|rewrite Rabs_R0; apply bpow_ge_0].
Qed.
Lemma quot_same lo hi (a a' d d' : b64) : rel K lo hi a a' -> (-900 <= lo)%Z -> (-64 <= hi <= 900)%Z -> longr d d' -> Bdiv mode_NE a' d' = Bdiv mode_NE a d.
Proof.
  intros A H1 H2 [D N]. symmetry. eapply (rel_same (lo - 64) (hi - -64)). eapply rel_cast; [eapply rel_div; [exact A|exact D|exact N|lia|lia|lia|lia]|lia|lia|lia].
Qed.
Lemma pad_moved n (r r' d d' : b64) : longr r r' -> longr d d' -> @FindGaussianFieldPadding F v' n r' d' = @FindGaussianFieldPadding F v n r d.
Proof.
  intros R D. destruct room_rel as [E G]. unfold FindGaussianFieldPadding. rewrite E. cbn [mul div sub Farith].
  rewrite (quot_same (-274) 174 (Bmult mode_NE (GetMinimumRangeToGridRatio v) r) (Bmult mode_NE (GetMinimumRangeToGridRatio v) r') d d'); [|eapply rel_cast; [eapply rel_mul; [exact G|exact (proj1 R)|lia|lia|lia|lia]|lia|lia|lia]|lia|lia|exact D].
  rewrite (quot_same (-64) 64 r r' d d' (proj1 R)) by (assumption || lia). reflexivity.
Qed.
Lemma max_moved (a a' b b' : b64) : longr a a' -> longr b b' -> longr (@fmax F a b) (@fmax F a' b').
Proof.
  intros A B. unfold fmax. change (flt F) with (@Bltb 53 1024). rewrite (rel_lt K (-64) 64 (-64) 64 a a' b b' (proj1 A) (proj1 B)). destruct (Bltb a b); assumption.
Qed.
Lemma padding_moved nx (dx dx' : b64) ny (dy dy' : b64) nz (dz dz' : b64) : longr dx dx' -> (ny <= 1)%Z \/ longr dy dy' -> (ny <= 1)%Z \/ (nz <= 1)%Z \/ longr dz dz' ->
  @FindNDimPadding F v' nx dx' ny dy' nz dz' = @FindNDimPadding F v nx dx ny dy nz dz.
Proof.
  intros DX DY DZ. unfold FindNDimPadding.
  assert (E : longr (range_x v) (range_x v') /\ longr (range_y v) (range_y v') /\ longr (range_z v) (range_z v') /\ azimuth v' = azimuth v)
    by (destruct HV as (t & p & rx & ry & rz & rx' & ry' & rz' & az & dp & sd & -> & -> & LX & LY & LZ & _); auto).
  destruct E as (RX & RY & RZ & ->). destruct (Z.leb_spec ny 1).
  - rewrite (pad_moved nx _ _ _ _ RX DX). reflexivity.
  - destruct DY as [DY|DY]; [lia|]. pose proof (max_moved _ _ _ _ RX RY) as RM.
    assert (RY' : longr (if (azimuth v =? lit F 0 0)%num then range_y v else fmax (range_x v) (range_y v)) (if (azimuth v =? lit F 0 0)%num then range_y v' else fmax (range_x v') (range_y v'))) by (destruct (azimuth v =? lit F 0 0)%num; assumption).
    assert (PY : @FindGaussianFieldPadding F v' ny (if (azimuth v =? lit F 0 0)%num then range_y v' else fmax (range_x v') (range_y v')) dy' = @FindGaussianFieldPadding F v ny (if (azimuth v =? lit F 0 0)%num then range_y v else fmax (range_x v) (range_y v)) dy) by (apply pad_moved; assumption).
    cbv zeta. destruct (Z.leb_spec nz 1).
    + rewrite (pad_moved nx _ _ _ _ RM DX), PY. reflexivity.
    + destruct DZ as [DZ|[DZ|DZ]]; [lia|lia|]. rewrite (pad_moved nx _ _ _ _ RM DX), PY, (pad_moved nz _ _ _ _ RZ DZ). reflexivity.
Qed.
End V.
End U.
