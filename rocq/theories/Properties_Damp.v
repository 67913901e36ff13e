(** C95: smoothing in double precision. *)
From Coq Require Import ZArith Bool Lia Reals Lra String List.
From Flocq Require Import Core IEEE754.BinarySingleNaN.
From Verif Require Import Base Arith RealArith FloatArith M_Variogram M_CovGrid M_Field S_CovGrid S_Vario S_Random S_CorrF S_Accur S_FieldF S_FieldH S_Damp P_CorrF7 P_Damp5 P_Damp6.
Import ListNotations.
Open Scope R_scope.

(** The smoothed tables of covariances in doubles are close to the exact ones, as long as the spread r^2 / -ln s of every axis that is
    smoothed is between 1/650 and 2^48. Missing: rotated variograms. The bound on the spread cannot be dropped, see below. *)
Theorem C95_tables_partial : forall (m : libm), rounds_well m -> pow_one m -> forall (main perp depth : b64) (v : variogram (Farith m)) (w : variogram Rarith), straight_call m main perp depth v w ->
  forall (sx sy sz : b64), smooth_args sx main -> smooth_args sy (or_main64 main perp) -> smooth_args sz (or_main64 main depth) ->
  let ex := damp_error sx main in let ey := damp_error sy (or_main64 main perp) in let ez := damp_error sz (or_main64 main depth) in
  forall nx ny nz (dx dy dz : b64), (Z.of_nat nx < 2 ^ 53)%Z -> (Z.of_nat ny < 2 ^ 53)%Z -> (Z.of_nat nz < 2 ^ 53)%Z -> spacing nx dx -> spacing ny dy -> spacing nz dz ->
  near_table (bpow radix2 (-46) + ex) (@FFTCovGrid1D (Farith m) v nx dx sx) (@FFTCovGrid1D Rarith w nx (B2R dx) (B2R sx)) /\
  near_table (bpow radix2 (-46) + ex + ey) (@FFTCovGrid2D (Farith m) v nx dx ny dy sx sy) (@FFTCovGrid2D Rarith w nx (B2R dx) ny (B2R dy) (B2R sx) (B2R sy)) /\
  near_table (bpow radix2 (-46) + ex + ey + ez) (@FFTCovGrid3D (Farith m) v nx dx ny dy nz dz sx sy sz)
    (@FFTCovGrid3D Rarith w nx (B2R dx) ny (B2R dy) nz (B2R dz) (B2R sx) (B2R sy) (B2R sz)).
Proof. exact c95_tables. Qed.
Print Assumptions C95_tables_partial.

(** So are the smoothed fields of given noise. *)
Theorem C95_fields_partial : forall (m : libm) (f : fftlib) o cl o' cl' (eps : R), rounds_well m -> pow_one m -> accurate eps f -> fft_sizes (Flib m f o cl) -> bpow radix2 (-53) <= eps ->
  forall (main perp depth : b64) (v : variogram (Farith m)) (w : variogram Rarith), straight_call m main perp depth v w ->
  forall (sx sy sz : b64), smooth_args sx main -> smooth_args sy (or_main64 main perp) -> smooth_args sz (or_main64 main depth) ->
  let e1 := bpow radix2 (-46) + damp_error sx main in
  let e2 := bpow radix2 (-46) + damp_error sx main + damp_error sy (or_main64 main perp) in
  let e3 := bpow radix2 (-46) + damp_error sx main + damp_error sy (or_main64 main perp) + damp_error sz (or_main64 main depth) in
  eps + e3 <= 1 / 1000000 -> forall nx ny nz nxt nyt nzt (dx dy dz : b64) (noise : list b64),
  (0 < nxt)%nat -> (0 < nyt)%nat -> (0 < nzt)%nat -> (nx <= nxt)%nat -> (ny <= nyt)%nat -> (nz <= nzt)%nat -> (Z.of_nat (nxt * nyt * nzt) < 2 ^ 53)%Z ->
  spacing nxt dx -> spacing nyt dy -> spacing nzt dz -> all_finite noise -> len (vals noise) <= bpow radix2 100 ->
  (length noise = nxt -> near_field (fuzz eps e1 noise) (@field1d (Flib m f o cl) v nx nxt dx sx noise) (@field1d (Rlib o' cl') w nx nxt (B2R dx) (B2R sx) (vals noise))) /\
  (length noise = (nxt * nyt)%nat -> near_field (fuzz eps e2 noise) (@field2d (Flib m f o cl) v nx ny nxt nyt dx dy sx sy noise)
     (@field2d (Rlib o' cl') w nx ny nxt nyt (B2R dx) (B2R dy) (B2R sx) (B2R sy) (vals noise))) /\
  (length noise = (nxt * nyt * nzt)%nat -> near_field (fuzz eps e3 noise) (@field3d (Flib m f o cl) v nx ny nz nxt nyt nzt dx dy dz sx sy sz noise)
     (@field3d (Rlib o' cl') w nx ny nz nxt nyt nzt (B2R dx) (B2R dy) (B2R dz) (B2R sx) (B2R sy) (B2R sz) (vals noise))).
Proof. exact c95_fields. Qed.
Print Assumptions C95_fields_partial.

(** ** lengths outside these bounds *)
(** Spread at least 2^56: the table is the one without smoothing. *)
Theorem C95_long : forall (m : libm), rounds_well m -> pow_one m -> forall (main perp depth : b64) (v : variogram (Farith m)) (w : variogram Rarith), straight_call m main perp depth v w ->
  forall (sx : b64), is_finite sx = true -> 0 < B2R sx < 99999 / 100000 -> bpow radix2 56 <= spread (B2R sx) (B2R main) ->
  forall nx (dx : b64), (Z.of_nat nx < 2 ^ 53)%Z -> spacing nx dx ->
  exists t t1, @FFTCovGrid1D (Farith m) v nx dx sx = Ok t /\ @FFTCovGrid1D (Farith m) v nx dx (Flit 1 0) = Ok t1 /\ vals t = vals t1.
Proof. exact c95_long. Qed.
Print Assumptions C95_long.
(** Spread at most 1/760: all correlations but the one of lag 0 are 0, so the field is white noise. *)
Theorem C95_short : forall (m : libm), rounds_well m -> forall (main perp depth : b64) (v : variogram (Farith m)) (w : variogram Rarith), straight_call m main perp depth v w ->
  forall (sx : b64), is_finite sx = true -> 0 < B2R sx < 99999 / 100000 -> spread (B2R sx) (B2R main) <= 1 / 760 ->
  forall nx (dx : b64), (Z.of_nat nx < 2 ^ 53)%Z -> spacing nx dx ->
  exists t, @FFTCovGrid1D (Farith m) v nx dx sx = Ok t /\ forall i, (0 < i < nx)%nat -> nth i (vals t) 1 = 0.
Proof. exact c95_short. Qed.
Print Assumptions C95_short.
(** Both do happen with the parameter 1/2: at a lag of one range the covariance should be halved. With the range 1/64 it is 0 instead,
    with the range 2^28 it is left as it is. *)
Theorem C95_short_refuted : forall (m : libm), rounds_well m -> exists v w tF t,
  @CreateVariogram (Farith m) "exponential" (Flit 15625 6) (Flit (-1) 0) (Flit (-1) 0) (Flit 0 0) (Flit 0 0) (Flit 15 1) = Ok v /\
  @CreateVariogram Rarith "exponential" (1 / 64) (-1) (-1) 0 0 (3 / 2) = Ok w /\
  @FFTCovGrid1D (Farith m) v 5 (Flit 15625 6) (Flit 5 1) = Ok tF /\ @FFTCovGrid1D Rarith w 5 (1 / 64) (1 / 2) = Ok t /\
  nth 1 (vals tF) 0 = 0 /\ 18 / 1000 <= nth 1 t 0.
Proof. exact c95_short_case. Qed.
Print Assumptions C95_short_refuted.
Theorem C95_long_refuted : forall (m : libm), rounds_well m -> pow_one m -> exists v w tF t,
  @CreateVariogram (Farith m) "exponential" (Flit 268435456 0) (Flit (-1) 0) (Flit (-1) 0) (Flit 0 0) (Flit 0 0) (Flit 15 1) = Ok v /\
  @CreateVariogram Rarith "exponential" 268435456 (-1) (-1) 0 0 (3 / 2) = Ok w /\
  @FFTCovGrid1D (Farith m) v 5 (Flit 268435456 0) (Flit 5 1) = Ok tF /\ @FFTCovGrid1D Rarith w 5 268435456 (1 / 2) = Ok t /\
  36 / 1000 <= nth 1 (vals tF) 0 /\ nth 1 t 0 <= 28 / 1000.
Proof. exact c95_long_case. Qed.
Print Assumptions C95_long_refuted.

(** ** the hypotheses can be met *)
Example C95_library : exists m, rounds_well m /\ pow_one m.
Proof. exists ex_lib. exact ex_lib_ok. Qed.
(** range 250, parameter 1/2: the spread is about 90000 and the error of a factor below 2^-30 *)
Example C95_case : forall m, exists v w, straight_call m (Flit 250 0) (Flit (-1) 0) (Flit (-1) 0) v w /\ smooth_args (Flit 5 1) (Flit 250 0) /\
  or_main64 (Flit 250 0) (Flit (-1) 0) = Flit 250 0 /\ damp_error (Flit 5 1) (Flit 250 0) <= bpow radix2 (-30).
Proof. exact c95_example. Qed.
