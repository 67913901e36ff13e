(** When the padding can be computed, in double precision. *)
From Coq Require Import ZArith Bool Lia Reals Lra List String.
From Flocq Require Import Core IEEE754.BinarySingleNaN.
From Verif Require Import Base Arith FloatArith RealArith M_Variogram M_Padding M_FftSize M_Dsfmt M_Random M_Field M_Api S_Api S_Vario S_Random S_Sizes S_Room S_CorrF S_FieldF S_Damp S_SizeF S_Answer P_Base P_Api P_NormF P_FieldF P_CorrF P_Field P_Accur11 P_Args P_SizeF P_SizeF2.
Import ListNotations.
Open Scope R_scope.
Local Opaque new_generator genrand_uint32 init_gen_rand gen_rand_all.

Lemma fmt_bp e : (-1074 <= e)%Z -> fmt (bpow radix2 e).
Proof. intros H. apply generic_format_bpow. unfold SpecFloat.fexp, SpecFloat.emin. lia. Qed.
Lemma fmt_8 (x : b64) : fmt (8 * B2R x).
Proof.
  destruct (FLT_format_generic radix2 (-1074) 53 (B2R x)) as [[k e] E K L].
  - exact (generic_format_B2R 53 1024 x).
  - apply (generic_format_FLT radix2 (-1074) 53). exists (Float radix2 k (e + 3)); cbn [Fnum Fexp] in *; [|exact K|lia].
    rewrite E. unfold F2R. cbn [Fnum Fexp]. rewrite bpow_plus. change (bpow radix2 3) with 8. ring.
Qed.
Lemma fmt_z z : (Z.abs z <= 2 ^ 53)%Z -> fmt (IZR z).
Proof.
  intros H. destruct (Z.eq_dec (Z.abs z) (2 ^ 53)) as [E|E].
  - assert (Q : z = (2 ^ 53)%Z \/ z = (- 2 ^ 53)%Z) by lia. destruct Q as [->| ->].
    + change (IZR (2 ^ 53)) with (bpow radix2 53). apply fmt_bp. lia.
    + change (IZR (- 2 ^ 53)) with (- bpow radix2 53). apply generic_format_opp. apply fmt_bp. lia.
  - apply fmt_Z. lia.
Qed.
Lemma big_z z : (Z.abs z <= 2 ^ 53)%Z -> - big <= IZR z <= big.
Proof.
  intros H. assert (B : bpow radix2 53 <= big) by (apply bpow_le; lia). change (bpow radix2 53) with (IZR (2 ^ 53)) in B.
  assert (IZR z <= IZR (2 ^ 53)) by (apply IZR_le; lia). assert (IZR (- 2 ^ 53) <= IZR z) by (apply IZR_le; lia). rewrite opp_IZR in *. lra.
Qed.
(** the trunc of a double within integer bounds *)
Lemma to_int_in m (x : b64) a b : (- 2 ^ 31 <= a)%Z -> (b < 2 ^ 31)%Z -> within (IZR a) (IZR b) x -> exists z, @to_int (Farith m) x = Ok z /\ (a <= z <= b)%Z.
Proof.
  intros A B [Fx [L U]]. pose proof (Btrunc_correct 53 1024 Hmax x) as T.
  assert (E : Btrunc x = Ztrunc (B2R x)) by (apply eq_IZR; rewrite T; apply round_FIX_IZR).
  exists (Ztrunc (B2R x)). apply Ztrunc_le in L, U. rewrite Ztrunc_IZR in L, U. split; [|lia].
  unfold to_int. cbn [Farith ftrunc]. rewrite Fx, E. unfold fits_int. replace ((- 2 ^ 31 <=? Ztrunc (B2R x)) && (Ztrunc (B2R x) <? 2 ^ 31))%Z with true by (symmetry; apply andb_true_intro; lia). reflexivity.
Qed.
Lemma to_int_or m (x : b64) : (exists z, @to_int (Farith m) x = Ok z) \/ @to_int (Farith m) x = UB FloatToInt.
Proof. unfold to_int. destruct (ftrunc _ _) as [z|]; [destruct (fits_int z); eauto|auto]. Qed.
Lemma to_int_out m (x : b64) : (is_finite x = true -> B2R x <= - IZR (3 * 2 ^ 30) \/ IZR (2 ^ 31) <= B2R x) -> @to_int (Farith m) x = UB FloatToInt.
Proof.
  intros H. destruct (to_int_or m x) as [[z E]|E]; [|exact E]. exfalso. destruct (to_int_F m x z E) as (Fx & V & B).
  destruct (H Fx) as [U|U]; [rewrite <- opp_IZR in U|]; apply Ztrunc_le in U; rewrite Ztrunc_IZR in U; lia.
Qed.

(** the ratio *)
Lemma near_in a b r : (Z.abs a <= 2 ^ 53)%Z -> (Z.abs b <= 2 ^ 53)%Z -> IZR a <= r <= IZR b -> IZR a <= nearest r <= IZR b.
Proof. intros A B H. exact (rnd_between _ _ r (fmt_z a A) (fmt_z b B) H). Qed.
Lemma lit_in a b k (x : b64) r : is_finite x = true -> B2R x = nearest r -> (Z.abs a <= 2 ^ 53)%Z -> (Z.abs b <= 2 ^ 53)%Z -> IZR a <= r <= IZR b -> k = x -> within (IZR a) (IZR b) k.
Proof. intros Fx V A B H ->. split; [exact Fx|]. rewrite V. apply near_in; assumption. Qed.
Ltac zb := first [reflexivity | discriminate | (cbn; lia)].
Lemma ratio_in m (v : variogram (Farith m)) : vt v <> N_TYPES -> (vt v = GENERAL_EXPONENTIAL -> sensible_power (vpower v)) -> within (-8) 8 (@GetMinimumRangeToGridRatio (Farith m) v).
Proof.
  intros N G. unfold GetMinimumRangeToGridRatio. destruct (vt v); [..|congruence].
  - apply (lit_in (-8) 8 _ (Flit 1 0) 1); try zb; [exact (exact_nearest _ _ l1)|lra].
  - apply (lit_in (-8) 8 _ _ _ (eq_refl : is_finite (Flit 233 2) = true) r233); try zb; lra.
  - apply (lit_in (-8) 8 _ _ _ (eq_refl : is_finite (Flit 192 2) = true) r192); try zb; lra.
  - apply (lit_in (-8) 8 _ _ _ (eq_refl : is_finite (Flit 667 2) = true) r667); try zb; lra.
  - destruct (G eq_refl) as [Fp Hp]. cbn [Farith add sub mul lit]. destruct r15 as [F15 V15]. destruct r4 as [F4 V4].
    assert (S2 : within 5 6 (Flit 534 2)) by (apply (lit_in 5 6 _ _ _ (eq_refl : is_finite (Flit 534 2) = true) r534); try zb; lra).
    destruct S2 as [F2 V2].
    assert (S1' : is_finite (Bminus mode_NE (vpower v) (Flit 15 1)) = true /\ - (15 / 10) <= B2R (Bminus mode_NE (vpower v) (Flit 15 1)) <= 1 / 2).
    { assert (Q1 : fmt (- (15 / 10))) by (rewrite <- V15; apply generic_format_opp; apply generic_format_B2R).
      assert (Q2 : fmt (1 / 2)) by (replace (1 / 2) with (bpow radix2 (-1)) by (cbn; lra); apply fmt_bp; lia).
      apply minus_in; [exact Q1|exact Q2| | |exact Fp|exact F15|rewrite V15; lra]; pose proof (big_z 2 ltac:(zb)); lra. }
    destruct S1' as [F1 V1].
    assert (S3 : within (-9) 4 (Bmult mode_NE (Bminus mode_NE (vpower v) (Flit 15 1)) (Flit 534 2))).
    { apply mult_in; [apply (fmt_z (-9)); zb|apply (fmt_z 4); zb|apply (big_z (-9)); zb|apply (big_z 4); zb|exact F1|exact F2|]. nra. }
    destruct S3 as [F3 V3]. apply plus_in; [apply (fmt_z (-8)); zb|apply (fmt_z 8); zb|apply (big_z (-8)); zb|apply (big_z 8); zb|exact F4|exact F3|]. rewrite V4. lra.
  - apply (lit_in (-8) 8 _ (Flit 4 0) 4); try zb; [exact (exact_nearest _ _ r4)|lra].
  - apply (lit_in (-8) 8 _ _ _ (eq_refl : is_finite (Flit 476 2) = true) r476); try zb; lra.
  - apply (lit_in (-8) 8 _ _ _ (eq_refl : is_finite (Flit 526 2) = true) r526); try zb; lra.
Qed.
Section A.
Variable m : libm.
Notation F := (Farith m).
(** range and step: the quotients *)
Lemma pad_ok (v : variogram F) n (range step : b64) : within (-8) 8 (@GetMinimumRangeToGridRatio F v) -> positive range -> plain_step step ->
  (0 <= n <= 2 ^ 30)%Z -> B2R range <= bpow radix2 27 * B2R step -> exists p, @FindGaussianFieldPadding F v n range step = Ok p.
Proof.
  intros [Fr Vr] [F1 P1] [[F2 P2] U2] Hn H. change (bpow radix2 27) with 134217728 in H.
  assert (Q : B2R range / B2R step <= 134217728) by (apply Rmult_le_reg_r with (B2R step); [exact P2|]; unfold Rdiv; rewrite Rmult_assoc, Rinv_l by lra; lra).
  assert (Q0 : 0 < B2R range / B2R step) by (apply Rdiv_lt_0_compat; assumption).
  assert (T : 8 * B2R range <= big).
  { apply Rle_trans with (bpow radix2 30 * bpow radix2 800); [|rewrite <- bpow_plus; apply bpow_le; lia]. change (bpow radix2 30) with 1073741824. nra. }
  assert (S1 : within (- (8 * B2R range)) (8 * B2R range) (Bmult mode_NE (@GetMinimumRangeToGridRatio F v) range)).
  { apply mult_in; [apply generic_format_opp, fmt_8|apply fmt_8|lra|exact T|exact Fr|exact F1|]. nra. }
  destruct S1 as [G1 V1]. set (y := Bmult mode_NE (@GetMinimumRangeToGridRatio F v) range) in *.
  assert (S2 : within (IZR (- 2 ^ 30)) (IZR (2 ^ 30)) (Bdiv mode_NE y step)).
  { apply div_in; [apply fmt_z; zb|apply fmt_z; zb|apply (big_z (- 2 ^ 30)); zb|apply (big_z (2 ^ 30)); zb|exact G1|lra|].
    change (IZR (- 2 ^ 30)) with (- 1073741824). change (IZR (2 ^ 30)) with 1073741824.
    assert (I : 0 < / B2R step) by (apply Rinv_0_lt_compat; exact P2). unfold Rdiv in *. split; nra. }
  destruct S2 as [G2 V2]. change (IZR (- 2 ^ 30)) with (- 1073741824) in V2. change (IZR (2 ^ 30)) with 1073741824 in V2.
  assert (NE : exactly (Fof n 0) (IZR n)) by (apply of_exact; lia). destruct NE as [G3 V3].
  assert (N1 : 0 <= IZR n <= 1073741824) by (split; apply IZR_le; lia).
  assert (S3 : within (IZR (- 2 ^ 31)) (IZR (2 ^ 30)) (Bminus mode_NE (Bdiv mode_NE y step) (Fof n 0))).
  { apply minus_in; [apply fmt_z; zb|apply fmt_z; zb|apply (big_z (- 2 ^ 31)); zb|apply (big_z (2 ^ 30)); zb|exact G2|exact G3|].
    change (IZR (- 2 ^ 31)) with (- 2147483648). change (IZR (2 ^ 30)) with 1073741824. rewrite V3. lra. }
  assert (S4 : within (IZR 0) (IZR (2 ^ 27)) (Bdiv mode_NE range step)).
  { apply div_in; [apply fmt_z; zb|apply fmt_z; zb|apply (big_z 0); zb|apply (big_z (2 ^ 27)); zb|exact F1|lra|].
    change (IZR (2 ^ 27)) with 134217728. lra. }
  apply (to_int_in m) in S3; [|lia|lia]. apply (to_int_in m) in S4; [|lia|lia]. destruct S3 as (a & Ea & Ba), S4 as (b & Eb & Bb).
  unfold FindGaussianFieldPadding. change (sub F) with (@Bminus 53 1024 Hprec Hmax mode_NE). change (div F) with (@Bdiv 53 1024 Hprec Hmax mode_NE).
  change (mul F) with (@Bmult 53 1024 Hprec Hmax mode_NE). change (ofZ F n) with (Fof n 0). fold y. rewrite Ea, Eb. cbn [bind].
  replace (Z.max a b =? 2 ^ 31 - 1)%Z with false by lia. eauto.
Qed.
Lemma pad_long (v : variogram F) n (range step : b64) : positive step -> bpow radix2 31 * B2R step <= B2R range -> @FindGaussianFieldPadding F v n range step = UB FloatToInt.
Proof.
  intros [F2 P2] H. change (bpow radix2 31) with 2147483648 in H. unfold FindGaussianFieldPadding. destruct (to_int_or m (sub F (div F (mul F (GetMinimumRangeToGridRatio v) range) step) (ofZ F n))) as [[a ->]| ->]; [|reflexivity]. cbn [bind].
  rewrite (to_int_out m); [reflexivity|]. change (div F range step) with (@Bdiv 53 1024 Hprec Hmax mode_NE range step). intros Fd. right.
  destruct (div_fin range step Fd F2 ltac:(lra)) as [_ ->]. unfold nearest. apply round_ge_generic; try typeclasses eauto; [exact (fmt_z (2 ^ 31) ltac:(zb))|].
  change (IZR (2 ^ 31)) with 2147483648. apply Rmult_le_reg_r with (B2R step); [exact P2|]. unfold Rdiv. rewrite Rmult_assoc, Rinv_l by lra. lra.
Qed.
Lemma pad_many (v : variogram F) n (range step : b64) : within (-8) 8 (@GetMinimumRangeToGridRatio F v) -> positive range -> positive step ->
  (2 ^ 32 <= n)%Z -> B2R range <= bpow radix2 27 * B2R step -> @FindGaussianFieldPadding F v n range step = UB FloatToInt.
Proof.
  intros [Fr Vr] [F1 P1] [F2 P2] Hn H. change (bpow radix2 27) with 134217728 in H. unfold FindGaussianFieldPadding. rewrite (to_int_out m); [reflexivity|].
  change (sub F) with (@Bminus 53 1024 Hprec Hmax mode_NE). change (div F) with (@Bdiv 53 1024 Hprec Hmax mode_NE).
  change (mul F) with (@Bmult 53 1024 Hprec Hmax mode_NE). change (ofZ F n) with (Fof n 0). intros Fa. left.
  destruct (sub_fin _ _ Fa) as (Fd & Fn & ->). destruct (div_fin _ step Fd F2 ltac:(lra)) as [Fm ->]. destruct (mul_fin _ _ Fm) as (_ & _ & ->). rewrite (of_nearest _ Fn).
  assert (A1 : nearest (B2R (@GetMinimumRangeToGridRatio F v) * B2R range) <= 8 * B2R range) by (unfold nearest; apply round_le_generic; try typeclasses eauto; [exact (fmt_8 range)|nra]).
  set (y := nearest (B2R (@GetMinimumRangeToGridRatio F v) * B2R range)) in *.
  assert (A2 : nearest (y / B2R step) <= 1073741824).
  { unfold nearest; apply round_le_generic; try typeclasses eauto; [exact (fmt_z (2 ^ 30) ltac:(zb))|]. apply Rmult_le_reg_r with (B2R step); [exact P2|]. unfold Rdiv. rewrite Rmult_assoc, Rinv_l by lra. lra. }
  assert (A3 : 4294967296 <= nearest (IZR n)) by (unfold nearest; apply round_ge_generic; try typeclasses eauto; [exact (fmt_z (2 ^ 32) ltac:(zb))|]; apply (IZR_le (2 ^ 32)); exact Hn).
  unfold nearest at 1. apply round_le_generic; try typeclasses eauto; [rewrite <- opp_IZR; exact (fmt_z (- (3 * 2 ^ 30)) ltac:(zb))|]. change (IZR (3 * 2 ^ 30)) with 3221225472. fold (nearest (y / B2R step)). fold (nearest (IZR n)). lra.
Qed.
(** all directions *)
Lemma ndim_x (v : variogram F) nx dx ny dy nz dz : (@FindGaussianFieldPadding F v nx (range_x v) dx = UB FloatToInt) -> ((1 < ny)%Z -> @FindGaussianFieldPadding F v nx (@fmax F (range_x v) (range_y v)) dx = UB FloatToInt) ->
  @FindNDimPadding F v nx dx ny dy nz dz = UB FloatToInt.
Proof.
  intros H1 H2. unfold FindNDimPadding. destruct (ny <=? 1)%Z eqn:E; [rewrite H1; reflexivity|]. cbv zeta. rewrite H2 by lia. destruct (nz <=? 1)%Z; reflexivity.
Qed.
Variables (f : fftlib) (o : Z -> outcome Z) (cl : Z -> Z -> Z).
Notation L := (Flib m f o cl).
Lemma calls_stop (v : variogram F) (d : dims L) (c : call L) : needs_padding v d c -> accepted c ->
  (forall ny (dy : b64) nz (dz : b64), (ny <= opt (d_ny d) 1 \/ ny <= 1)%Z -> @FindNDimPadding F v (d_nx d) (d_dx d) ny dy nz dz = UB FloatToInt) ->
  forall rec fuel now st, fst (step rec fuel now c st) = UB FloatToInt.
Proof.
  intros HC HA HP rec fuel now st.
  assert (HD : exists a, args d = Ok a) by (apply args_ok; destruct HC as [->|[->|[a ->]]]; cbn [accepted] in HA; tauto). destruct HD as [x Ex].
  pose proof Ex as Ex'. apply args_inv in Ex' as [-> _].
  assert (HS : forall px py pz (sx sy sz : b64), fst (do_simulate rec fuel now (L := L) v (d_nx d) (d_dx d) (opt (d_ny d) 1%Z) (opt (d_dy d) (Flit (-1) 0)) (opt (d_nz d) 1%Z) (opt (d_dz d) (Flit (-1) 0)) px py pz sx sy sz st) = UB FloatToInt).
  { intros. unfold do_simulate, SimulateAny. destruct (dimension _ _ _ _) as [|[|[|k]]]; unfold Simulate1D, Simulate2D, Simulate3D, sizes1, sizes2, sizes3; change (@FindNDimPadding L) with (@FindNDimPadding F); rewrite HP by lia; reflexivity. }
  destruct HC as [->|[->|[a ->]]]; cbn [step fst]; rewrite Ex.
  - cbn [bind]. unfold FindGridSizeAfterPadding. change (@FindNDimPadding L) with (@FindNDimPadding F). rewrite HP by lia. reflexivity.
  - apply HS.
  - cbn [accepted] in HA. destruct HA as [_ HA]. apply adv_args_ok in HA as [y Ey]. rewrite Ey. destruct y as [[[[[px py] pz] sx] sy] sz]. apply HS.
Qed.
End A.
