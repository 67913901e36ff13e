(** The unit of length in double precision. Vocabulary: S_UnitF.v; [Flib m f o cl] is IEEE-754 binary64 with any libm m, any FFT f and
    any conversions o and rounded logarithms cl in the search for FFT sizes. *)
From Coq Require Import ZArith Bool Lia Reals Lra String List.
From Flocq Require Import Core IEEE754.BinarySingleNaN.
From Verif Require Import Base Arith FloatArith M_Variogram M_Padding M_FftSize M_Dsfmt M_Random M_Field M_Api
  S_Api S_Random S_FieldF S_Special S_CorrF S_UnitF P_Base P_UnitF P_UnitF2 P_UnitF3 P_UnitF4 P_CorrF7.
Import ListNotations.
Open Scope R_scope.

(** ** C96 *)
(** If the new unit is the old one times a power of two (from 2^-64 to 2^64), nothing changes by as much as one bit: ranges and spacings
    (2^-64 to 2^64 in size) times k give the same fields (smoothing off), the same sizes, the same correlations at lags times k, and leave the
    generator in the same state. *)
Theorem C96_power_of_two_partial : forall (m : libm) (f : fftlib) (o : Z -> outcome Z) (cl : Z -> Z -> Z) (k : b64) (K : Z),
  (-64 <= K <= 64)%Z -> is_finite k = true -> B2R k = bpow radix2 K ->
  let L := Flib m f o cl in
  forall s main perp depth azi dp pw (v v' : variogram L) rec fuel t0 st0,
  tame main -> tame_opt perp -> tame_opt depth -> tame_angle m azi -> tame_angle m dp -> tame_power pw ->
  let c := @CVariogram L s main perp depth azi dp pw in
  fst (step rec fuel t0 c st0) = Ok (@VVariogram L v) ->
  fst (step rec fuel t0 (call_in_unit k c) st0) = Ok (@VVariogram L v') ->
  forall t st,
    (forall d : dims L, tame_dims d ->
       step rec fuel t (CSimulate v' (dims_in_unit k d)) st = step rec fuel t (CSimulate v d) st /\
       (spaced d -> step rec fuel t (CSize v' (dims_in_unit k d)) st = step rec fuel t (CSize v d) st) /\
       forall a : adv L, smoothing_off a -> step rec fuel t (CAdvanced v' (dims_in_unit k d) a) st = step rec fuel t (CAdvanced v d a) st) /\
    (forall x y z : b64, tame_lag x -> tame_lag y -> tame_lag z ->
       step rec fuel t (@CCorr1 L v' (rescale k x)) st = step rec fuel t (@CCorr1 L v x) st /\
       step rec fuel t (@CCorr2 L v' (rescale k x) (rescale k y)) st = step rec fuel t (@CCorr2 L v x y) st /\
       step rec fuel t (@CCorr3 L v' (rescale k x) (rescale k y) (rescale k z)) st = step rec fuel t (@CCorr3 L v x y z) st).
Proof.
  intros m f o cl k K HK Fk Vk L s main perp depth azi dp pw v v' rec fuel t0 st0 H1 H2 H3 H4 H5 H6 c E E' t st.
  pose proof (vario_moved m f o cl k K HK Fk Vk s main perp depth azi dp pw v v' rec fuel t0 st0 H1 H2 H3 H4 H5 H6 E E') as V.
  split.
  - intros d Hd. split; [|split; [intros Hs|intros a Ha]].
    + exact (simulate_moved m f o cl k K HK Fk Vk v v' V rec fuel t d st Hd).
    + exact (size_moved m f o cl k K HK Fk Vk v v' V rec fuel t d st Hd Hs).
    + exact (advanced_moved m f o cl k K HK Fk Vk v v' V rec fuel t d a st Hd Ha).
  - exact (corr_units m f o cl k K HK Fk Vk v v' V rec fuel t st).
Qed.
Print Assumptions C96_power_of_two_partial.

(** changing the unit never turns a variogram that can be made into one that cannot *)
Theorem C96_still_made : forall (m : libm) (f : fftlib) (o : Z -> outcome Z) (cl : Z -> Z -> Z) (k : b64),
  let L := Flib m f o cl in
  forall s main perp depth azi dp pw (v : variogram L) rec fuel t st,
  let c := @CVariogram L s main perp depth azi dp pw in
  fst (step rec fuel t c st) = Ok (@VVariogram L v) ->
  exists v' : variogram L, fst (step rec fuel t (call_in_unit k c) st) = Ok (@VVariogram L v').
Proof. exact still_made. Qed.
Print Assumptions C96_still_made.

(** Kilometres for metres, with any libm: range 300 and 12 cells of 100 give the simulation size 16, range 0.3 and 12 cells of 0.1 give 15.
    (0.001 * 300 and 0.001 * 100 round to exactly the doubles 0.3 and 0.1, but 0.3 / 0.1 rounds to less than 3.) *)
Theorem C96_kilometres_refuted : forall (m : libm) (f : fftlib) (o : Z -> outcome Z) (cl : Z -> Z -> Z) rec fuel t st,
  let L := Flib m f o cl in
  let c := @CVariogram L "spherical"%string (Flit 300 0) None None None None None in
  let d := @mkDims L 12 (Flit 100 0) None None None None in
  rescale (Flit 1 3) (Flit 300 0) = Flit 3 1 /\ rescale (Flit 1 3) (Flit 100 0) = Flit 1 1 /\
  exists v v' : variogram L,
  fst (step rec fuel t c st) = Ok (@VVariogram L v) /\ fst (step rec fuel t (call_in_unit (Flit 1 3) c) st) = Ok (@VVariogram L v') /\
  fst (step rec fuel t (CSize v d) st) = Ok (@VSizes L [16%Z]) /\
  fst (step rec fuel t (CSize v' (dims_in_unit (Flit 1 3) d)) st) = Ok (@VSizes L [15%Z]).
Proof. intros m f o cl rec fuel t st L c d. split; [exact km_range|split; [exact km_step|exact (km_sizes m f o cl rec fuel t st)]]. Qed.
Print Assumptions C96_kilometres_refuted.

(** The hypotheses hold for a libm that rounds correctly (there is one: ex_lib), ranges 250 and 100, azimuth 30 and no dip, cells of 25 by 25 by 2,
    and the factor 2^-10. *)
Example C96_met : exists m, trig_rounded m /\ tame (Flit 250 0) /\ tame_opt (Some (Flit 100 0)) /\ tame_opt None /\ tame_angle m (Some (Flit 30 0)) /\
  tame_angle m None /\ tame_power None /\
  (forall f o cl, @tame_dims m f o cl (@mkDims (Flib m f o cl) 50 (Flit 25 0) (Some 40%Z) (Some (Flit 25 0)) (Some 10%Z) (Some (Flit 2 0)))) /\
  tame_lag (Flit 0 0) /\ tame_lag (Flit 25 0) /\ is_finite (Flit 9765625 10) = true /\ B2R (Flit 9765625 10) = bpow radix2 (-10).
Proof. exact unit_met. Qed.
Example C96_no_smoothing : forall m f o cl, @smoothing_off m f o cl (@mkAdv (Flib m f o cl) (Some 5%Z) None None None None None).
Proof. intros m f o cl s [E|[E|[E|[]]]]; discriminate E. Qed.
