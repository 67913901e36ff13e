(** Correlations in double precision: C74 to C77. *)
From Coq Require Import ZArith Bool Reals Lra String List.
From Flocq Require Import Core IEEE754.BinarySingleNaN.
From Verif Require Import Base Arith RealArith FloatArith M_Variogram S_Vario S_Random P_Vario P_VarioNames S_CorrF P_CorrF P_CorrF2 P_CorrF3 P_CorrF4 P_CorrF5 P_CorrF6 P_CorrF7 P_CorrF8.
Import ListNotations.
Open Scope R_scope.

(** ** C74: in double precision, a correlation is a number between 0 and 1 *)
(** The spherical type (also the one of every unknown name): always, for every object and all lags, infinities and NaNs included. *)
Theorem C74_spherical : forall (m : libm) (v : variogram (Farith m)) (x y z : b64), vt v = SPHERICAL ->
  in_unit (@GetCorr1 (Farith m) v x) /\ in_unit (@GetCorr2 (Farith m) v x y) /\ in_unit (@GetCorr3 (Farith m) v x y z).
Proof. exact c74_spherical. Qed.
Print Assumptions C74_spherical.
(** The types without a polynomial in front of exp, for finite lags along the x axis. *)
Theorem C74_one_dimension_partial : forall (m : libm), fair m ->
  forall (s : string) (main perp depth azi dp power x : b64) v, @CreateVariogram (Farith m) s main perp depth azi dp power = Ok v ->
  In (lower s) ["constant"; "exponential"; "spherical"; "gaussian"; "general_exponential"]%string ->
  usual_range main -> range_arg perp -> range_arg depth -> is_finite azi = true -> is_finite dp = true -> Bltb zero64 power = true ->
  is_finite x = true -> in_unit (@GetCorr1 (Farith m) v x).
Proof. exact c74_names. Qed.
Print Assumptions C74_one_dimension_partial.
(** Not so for Matern 5/2: with range 1 and lag 3.3e-9, corr is more than 1, with an exp, sin and cos that round correctly. *)
Theorem C74_above_one_refuted : forall m, trig_rounded m -> exp_rounded m -> exists v,
  @CreateVariogram (Farith m) "matern52" (Flit 1 0) (Flit (-1) 0) (Flit (-1) 0) (Flit 0 0) (Flit 0 0) (Flit 15 1) = Ok v /\
  Bltb one64 (@GetCorr1 (Farith m) v (Flit 33 10)) = true.
Proof. exact matern_above. Qed.
Print Assumptions C74_above_one_refuted.

(** ** C75: in double precision, the correlation at lag zero is exactly 1 *)
Theorem C75_lag_zero : forall (m : libm), fair m ->
  forall (s : string) (main perp depth azi dp power : b64) v, @CreateVariogram (Farith m) s main perp depth azi dp power = Ok v ->
  usual_range main -> range_arg perp -> range_arg depth -> is_finite azi = true -> is_finite dp = true -> Bltb zero64 power = true ->
  forall sx sy sz, @GetCorr1 (Farith m) v (B754_zero sx) = one64 /\ @GetCorr2 (Farith m) v (B754_zero sx) (B754_zero sy) = one64 /\
    @GetCorr3 (Farith m) v (B754_zero sx) (B754_zero sy) (B754_zero sz) = one64.
Proof. exact c75. Qed.
Print Assumptions C75_lag_zero.
(** Without bounds on the ranges it fails: range 2^-600 (about 2.4e-181) and lag zero give 0 for the spherical type. *)
Theorem C75_tiny_range_refuted : forall m, trig_rounded m -> exists v,
  @CreateVariogram (Farith m) "spherical" (Fof 1 (-600)) (Flit (-1) 0) (Flit (-1) 0) (Flit 0 0) (Flit 0 0) (Flit 15 1) = Ok v /\
  Bltb zero64 (Fof 1 (-600)) = true /\ @GetCorr1 (Farith m) v (Flit 0 0) = Flit 0 0.
Proof. exact c75_tiny. Qed.
Print Assumptions C75_tiny_range_refuted.

(** ** C76: in double precision, the correlation never grows with the lag *)
Theorem C76_monotone_partial : forall (m : libm), fair m -> exp_monotone m ->
  forall (s : string) (main perp depth azi dp power x y : b64) v, @CreateVariogram (Farith m) s main perp depth azi dp power = Ok v ->
  In (lower s) ["constant"; "exponential"; "gaussian"]%string ->
  usual_range main -> range_arg perp -> range_arg depth -> is_finite azi = true -> is_finite dp = true ->
  is_finite x = true -> is_finite y = true -> le64 zero64 x -> le64 x y ->
  le64 (@GetCorr1 (Farith m) v y) (@GetCorr1 (Farith m) v x).
Proof. exact c76_names. Qed.
Print Assumptions C76_monotone_partial.
(** The general exponential type too, with a pow that never decreases. *)
Theorem C76_general_exponential_partial : forall (m : libm), fair m -> exp_monotone m -> pow_monotone m ->
  forall (s : string) (main perp depth azi dp power x y : b64) v, @CreateVariogram (Farith m) s main perp depth azi dp power = Ok v ->
  lower s = "general_exponential"%string ->
  usual_range main -> range_arg perp -> range_arg depth -> is_finite azi = true -> is_finite dp = true -> Bltb zero64 power = true ->
  is_finite x = true -> is_finite y = true -> le64 zero64 x -> le64 x y ->
  le64 (@GetCorr1 (Farith m) v y) (@GetCorr1 (Farith m) v x).
Proof. exact c76_gexp. Qed.
Print Assumptions C76_general_exponential_partial.
(** Not so for the spherical type: with range 1 it is 0 at lag 1 - 2^-52 and positive at lag 1 - 2^-53. *)
Theorem C76_spherical_refuted : forall m, trig_rounded m -> exists v,
  @CreateVariogram (Farith m) "spherical" (Flit 1 0) (Flit (-1) 0) (Flit (-1) 0) (Flit 0 0) (Flit 0 0) (Flit 15 1) = Ok v /\
  Bltb (d53 (2 ^ 53 - 2)) (d53 (2 ^ 53 - 1)) = true /\
  Bltb (@GetCorr1 (Farith m) v (d53 (2 ^ 53 - 2))) (@GetCorr1 (Farith m) v (d53 (2 ^ 53 - 1))) = true.
Proof. exact sph_grows. Qed.
Print Assumptions C76_spherical_refuted.
(** Nor for Matern 5/2: with range 1 it is larger at lag 3.3e-9 than at lag 0. *)
Theorem C76_matern_refuted : forall m, fair m -> trig_rounded m -> exp_rounded m -> exists v,
  @CreateVariogram (Farith m) "matern52" (Flit 1 0) (Flit (-1) 0) (Flit (-1) 0) (Flit 0 0) (Flit 0 0) (Flit 15 1) = Ok v /\
  Bltb (@GetCorr1 (Farith m) v zero64) (@GetCorr1 (Farith m) v (Flit 33 10)) = true.
Proof. exact matern_grows. Qed.
Print Assumptions C76_matern_refuted.

(** ** C77: rounding does not change correlations noticeably *)
(** False for rotated variograms with a very long main range: ranges 1e9 and 3, azimuth 45 degrees, lag (3, 3) along the main
    direction. The correlation is at least 0.999, and doubles give exactly 0. *)
Theorem C77_rotated_refuted : forall m, trig_rounded m -> exists (v : variogram (Farith m)) (w : variogram Rarith),
  @CreateVariogram (Farith m) "spherical" (Flit 1000000000 0) (Flit 3 0) (Flit (-1) 0) (Flit 45 0) (Flit 0 0) (Flit 15 1) = Ok v /\
  @CreateVariogram Rarith "spherical" 1000000000 3 (-1) 45 0 (15 / 10) = Ok w /\
  B2R (@GetCorr2 (Farith m) v (Flit 3 0) (Flit 3 0)) = 0 /\ 999 / 1000 <= @GetCorr2 Rarith w 3 3.
Proof. exact c77. Qed.
Print Assumptions C77_rotated_refuted.
(** with every other type the argument of exp or pow is a NaN *)
Theorem C77_rotated_nan_refuted : forall m, trig_rounded m -> forall s, is_ascii s -> exists v,
  @CreateVariogram (Farith m) s (Flit 1000000000 0) (Flit 3 0) (Flit (-1) 0) (Flit 45 0) (Flit 0 0) (Flit 15 1) = Ok v /\
  @GetCorr2 (Farith m) v (Flit 3 0) (Flit 3 0) = Corr1D v B754_nan.
Proof. exact c77_nan. Qed.
Print Assumptions C77_rotated_nan_refuted.

(** There is a library with all these properties: exact values of exp, sin, cos and pow, rounded. *)
Example CorrF_case : exists m, fair m /\ exp_monotone m /\ exp_rounded m /\ trig_rounded m /\ pow_rounded m /\ pow_monotone m.
Proof. exact rounded_library. Qed.
(** Ordinary ranges and lags meet the hypotheses of C74 to C76. *)
Example CorrF_args : usual_range (Flit 250 0) /\ range_arg (Flit (-1) 0) /\ is_finite (Flit 45 0) = true /\ Bltb zero64 (Flit 15 1) = true /\
  is_finite (Flit 10 0) = true /\ le64 zero64 (Flit 25 1) /\ le64 (Flit 25 1) (Flit 10 0).
Proof. exact corrf_args. Qed.
