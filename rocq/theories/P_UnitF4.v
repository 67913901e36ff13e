(** Kilometres for metres, and arguments within the bounds of S_UnitF.v. *)
From Coq Require Import ZArith Bool Lia Reals Lra Psatz List String QArith Qreals.
From Flocq Require Import Core IEEE754.BinarySingleNaN.
From Verif Require Import Base Arith FloatArith M_Variogram M_Padding M_FftSize M_Dsfmt M_Random M_Field M_Api S_Api S_Random S_FieldF S_Special S_CorrF S_UnitF P_Base P_NormF P_FieldF P_CorrF4 P_CorrF5 P_CorrF7.
Import ListNotations.
Open Scope R_scope.
Local Opaque new_generator genrand_uint32 init_gen_rand gen_rand_all.

Section K.
Variables (m : libm) (f : fftlib) (o : Z -> outcome Z) (cl : Z -> Z -> Z).
Notation L := (Flib m f o cl).
Definition metres : dims L := @mkDims L 12 (Flit 100 0) None None None None.
Lemma km_range : rescale (Flit 1 3) (Flit 300 0) = Flit 3 1. Proof. apply B2SF_inj; vm_compute; reflexivity. Qed.
Lemma km_step : rescale (Flit 1 3) (Flit 100 0) = Flit 1 1. Proof. apply B2SF_inj; vm_compute; reflexivity. Qed.
Lemma size_sph (v : variogram (Farith m)) (r dx dy dz : b64) a b n : vt v = SPHERICAL -> range_x v = r ->
  @to_int (Farith m) (Bminus mode_NE (Bdiv mode_NE (Bmult mode_NE (Flit 192 2) r) dx) (Fof 12 0)) = Ok a ->
  @to_int (Farith m) (Bdiv mode_NE r dx) = Ok b -> (Z.max a b =? 2 ^ 31 - 1)%Z = false -> u64 (u64 (Z.max a b + 1) + 12) = n ->
  @FindGridSizeAfterPadding (Farith m) v 12 dx 1 dy 1 dz = Ok [n].
Proof.
  intros E Er Ea Eb Em En. unfold FindGridSizeAfterPadding, FindNDimPadding, FindGaussianFieldPadding, GetMinimumRangeToGridRatio. rewrite E, Er. change (1 <=? 1)%Z with true. cbv iota.
  change (@to_int (Farith m) (Bminus mode_NE (Bdiv mode_NE (Bmult mode_NE (Flit 192 2) r) dx) (Fof 12 0))) with
    (@to_int (Farith m) (sub (Farith m) (div (Farith m) (mul (Farith m) (lit (Farith m) 192 2) r) dx) (ofZ (Farith m) 12))) in Ea.
  change (Bdiv mode_NE r dx) with (div (Farith m) r dx) in Eb. rewrite Ea. cbn [bind]. rewrite Eb. cbn [bind]. rewrite Em. cbn [bind]. rewrite En. reflexivity.
Qed.
Lemma km_sizes rec fuel t st : exists v v' : variogram L,
  let c := @CVariogram L "spherical"%string (Flit 300 0) None None None None None in
  fst (step rec fuel t c st) = Ok (@VVariogram L v) /\ fst (step rec fuel t (call_in_unit (Flit 1 3) c) st) = Ok (@VVariogram L v') /\
  fst (step rec fuel t (CSize v metres) st) = Ok (@VSizes L [16%Z]) /\ fst (step rec fuel t (CSize v' (dims_in_unit (Flit 1 3) metres)) st) = Ok (@VSizes L [15%Z]).
Proof.
  cbv zeta. cbn [call_in_unit step fst option_map opt]. rewrite km_range. unfold omap, CreateVariogram.
  assert (N : flt (Farith m) (lit (Farith m) (-1) 0) (lit (Farith m) 0 0) = true) by (vm_compute; reflexivity).
  change (arith L) with (Farith m). change (lit L) with (lit (Farith m)). rewrite !N.
  eexists _, _. split; [reflexivity|]. split; [reflexivity|].
  unfold metres, dims_in_unit. cbn [d_nx d_dx d_ny d_dy d_nz d_dz option_map opt]. rewrite km_step.
  unfold args, omap. cbn [step fst d_nx d_dx d_ny d_dy d_nz d_dz opt bind].
  change (as_size 12) with (Ok 12%Z). change (as_size 1) with (Ok 1%Z). cbn [bind].
  split.
  - rewrite (size_sph _ (Flit 300 0) (Flit 100 0) _ _ (-6) 3 16); reflexivity || (vm_compute; reflexivity).
  - rewrite (size_sph _ (Flit 3 1) (Flit 1 1) _ _ (-6) 2 15); reflexivity || (vm_compute; reflexivity).
Qed.
End K.

(** azimuth 30 or 0 degrees with sines and cosines rounded to nearest *)
Lemma ratio_nearest (x : b64) r : is_finite x = true -> B2R x = nearest r -> bpow radix2 (-100) <= r <= 1 -> tame_ratio x.
Proof.
  intros Fx E H. split; [exact Fx|]. right. rewrite E. unfold nearest.
  assert (L : bpow radix2 (-100) <= round radix2 (FLT_exp (-1074) 53) ZnearestE r).
  { apply round_ge_generic; try typeclasses eauto; [|lra]. apply generic_format_bpow. unfold FLT_exp. lia. }
  assert (U : round radix2 (FLT_exp (-1074) 53) ZnearestE r <= 1).
  { apply round_le_generic; try typeclasses eauto; [|lra]. change 1 with (bpow radix2 0). apply generic_format_bpow. unfold FLT_exp. lia. }
  pose proof (bpow_gt_0 radix2 (-100)). rewrite Rabs_pos_eq by lra. lra.
Qed.
Lemma sin_half : 1 / 4 <= sin (1 / 2).
Proof.
  destruct (sin_between (1 # 2) (1 # 4) 1 0 ltac:(unfold Qle; cbn; lia) ltac:(unfold Qle; cbn; lia) eq_refl eq_refl) as [A _].
  replace (Q2R (1 # 4)) with (1 / 4) in A by (unfold Q2R; cbn; lra). replace (Q2R (1 # 2)) with (1 / 2) in A by (unfold Q2R; cbn; lra). exact A.
Qed.
Lemma cos_three : 1 / 4 <= cos (3 / 5).
Proof.
  destruct (cos_between (3 # 5) (1 # 4) 1 0 ltac:(unfold Qle; cbn; lia) ltac:(unfold Qle; cbn; lia) eq_refl eq_refl) as [A _].
  replace (Q2R (1 # 4)) with (1 / 4) in A by (unfold Q2R; cbn; lra). replace (Q2R (3 # 5)) with (3 / 5) in A by (unfold Q2R; cbn; lra). exact A.
Qed.
Lemma half_val : B2R (Fof 1 (-1)) = 1 / 2.
Proof. rewrite <- SF2R_B2SF. replace (B2SF (Fof 1 (-1))) with (SpecFloat.S754_finite false 4503599627370496 (-53)) by (vm_compute; reflexivity). unfold SF2R, F2R, cond_Zopp. cbn [Fnum Fexp]. change (bpow radix2 (-53)) with (/ 9007199254740992). lra. Qed.
Lemma three_val : B2R (Flit 6 1) = 5404319552844595 * / 9007199254740992.
Proof. rewrite <- SF2R_B2SF. replace (B2SF (Flit 6 1)) with (SpecFloat.S754_finite false 5404319552844595 (-53)) by (vm_compute; reflexivity). unfold SF2R, F2R, cond_Zopp. cbn [Fnum Fexp]. change (bpow radix2 (-53)) with (/ 9007199254740992). lra. Qed.
Lemma angle_30 m : trig_rounded m -> tame_angle m (Some (Flit 30 0)).
Proof.
  intros T. unfold tame_angle. cbn [opt]. set (x := Bmult mode_NE _ _).
  assert (Fx : is_finite x = true) by (vm_compute; reflexivity).
  assert (B : 1 / 2 <= B2R x <= 5404319552844595 * / 9007199254740992).
  { rewrite <- half_val at 1. rewrite <- three_val. split; apply le_fin; vm_compute; reflexivity. }
  clearbody x. destruct (T x Fx) as (A1 & A2 & A3 & A4). pose proof PI2_3_2 as PI3. pose proof sin_half. pose proof cos_three.
  assert (H100 : bpow radix2 (-100) <= 1 / 4). { apply Rle_trans with (bpow radix2 (-2)); [apply bpow_le; lia|cbn; lra]. }
  unfold PI2 in PI3.
  split.
  - refine (ratio_nearest _ (sin (B2R x)) A1 A2 _). pose proof (SIN_bound (B2R x)). assert (sin (1 / 2) <= sin (B2R x)) by (apply sin_incr_1; lra). lra.
  - refine (ratio_nearest _ (cos (B2R x)) A3 A4 _). pose proof (COS_bound (B2R x)). assert (cos (3 / 5) <= cos (B2R x)) by (apply cos_decr_1; lra). lra.
Qed.
Lemma angle_none m : trig_rounded m -> tame_angle m None.
Proof.
  intros T. unfold tame_angle. cbn [opt]. set (x := Bmult mode_NE _ _).
  assert (Fx : is_finite x = true) by (vm_compute; reflexivity).
  assert (B : B2R x = 0) by (replace x with zero64 by (apply B2SF_inj; vm_compute; reflexivity); reflexivity).
  clearbody x. destruct (T x Fx) as (A1 & A2 & A3 & A4). rewrite B in *. rewrite sin_0 in A2. rewrite cos_0 in A4. split.
  - split; [exact A1|left]. rewrite A2. unfold nearest. apply round_0. typeclasses eauto.
  - refine (ratio_nearest _ 1 A3 A4 _). split; [|lra]. change 1 with (bpow radix2 0). apply bpow_le. lia.
Qed.
Lemma tame_lit (x : b64) r : exactly x r -> 1 <= r <= 1024 -> tame x.
Proof.
  intros [A B] H. split; [exact A|]. rewrite B. rewrite Rabs_pos_eq by lra. split.
  - apply Rle_trans with (bpow radix2 0); [apply bpow_le; lia|cbn; lra].
  - apply Rle_trans with (bpow radix2 10); [cbn; lra|apply bpow_le; lia].
Qed.
Lemma tame_250 : tame (Flit 250 0). Proof. apply (tame_lit _ 250); [lit_t|lra]. Qed.
Lemma tame_100 : tame (Flit 100 0). Proof. apply (tame_lit _ 100); [lit_t|lra]. Qed.
Lemma tame_25 : tame (Flit 25 0). Proof. apply (tame_lit _ 25); [lit_t|lra]. Qed.
Lemma tame_2 : tame (Flit 2 0). Proof. apply (tame_lit _ 2); [lit_t|lra]. Qed.
(** 0.0009765625 = 2^-10 and 1024 as literals *)
Lemma kibi : is_finite (Flit 9765625 10) = true /\ B2R (Flit 9765625 10) = bpow radix2 (-10).
Proof.
  split; [vm_compute; reflexivity|]. rewrite <- SF2R_B2SF.
  replace (B2SF (Flit 9765625 10)) with (SpecFloat.S754_finite false 4503599627370496 (-62)) by (vm_compute; reflexivity). unfold SF2R, F2R, cond_Zopp. cbn [Fnum Fexp]. change (bpow radix2 (-62)) with (/ 4611686018427387904). change (bpow radix2 (-10)) with (/ 1024). lra.
Qed.
Lemma unit_met : exists m, trig_rounded m /\ tame (Flit 250 0) /\ tame_opt (Some (Flit 100 0)) /\ tame_opt None /\ tame_angle m (Some (Flit 30 0)) /\
  tame_angle m None /\ tame_power None /\
  (forall f o cl, @tame_dims m f o cl (@mkDims (Flib m f o cl) 50 (Flit 25 0) (Some 40%Z) (Some (Flit 25 0)) (Some 10%Z) (Some (Flit 2 0)))) /\
  tame_lag (Flit 0 0) /\ tame_lag (Flit 25 0) /\ is_finite (Flit 9765625 10) = true /\ B2R (Flit 9765625 10) = bpow radix2 (-10).
Proof.
  destruct ex_rounded as (_ & _ & _ & T & _). exists ex_lib.
  assert (S : forall x : b64, tame x -> tame_opt (Some x)) by (intros x H r E; injection E as <-; exact H).
  split; [exact T|]. split; [exact tame_250|]. split; [exact (S _ tame_100)|]. split; [intros r E; discriminate E|].
  split; [exact (angle_30 _ T)|]. split; [exact (angle_none _ T)|]. split; [intros r E; discriminate E|].
  split; [intros f o cl; split; [exact tame_25|split; [exact (S _ tame_25)|exact (S _ tame_2)]]|].
  split; [split; [reflexivity|left; reflexivity]|]. split; [destruct tame_25 as [A B]; split; [exact A|right; exact B]|]. exact kibi.
Qed.
Lemma still_made : forall (m : libm) (f : fftlib) (o : Z -> outcome Z) (cl : Z -> Z -> Z) (k : b64),
  let L := Flib m f o cl in
  forall s main perp depth azi dp pw (v : variogram L) rec fuel t st,
  let c := @CVariogram L s main perp depth azi dp pw in
  fst (step rec fuel t c st) = Ok (@VVariogram L v) ->
  exists v' : variogram L, fst (step rec fuel t (call_in_unit k c) st) = Ok (@VVariogram L v').
Proof.
  intros m f o cl k L s main perp depth azi dp pw v rec fuel t st c. unfold c. cbn [call_in_unit step fst]. unfold omap, CreateVariogram.
  destruct (Uppercase s) as [u| | |]; cbn [bind]; [|intros H; discriminate H..].
  destruct (type_of_name u); unfold Create; cbn [bind]; intros H; try discriminate H; eexists; reflexivity.
Qed.
