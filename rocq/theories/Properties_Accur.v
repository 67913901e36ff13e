(** Accuracy of correlations in double precision: the part of C77 that holds, and what follows for C74 and C76. *)
From Coq Require Import ZArith Bool Lia Reals Lra String List.
From Flocq Require Import Core IEEE754.BinarySingleNaN.
From Verif Require Import Base Arith RealArith FloatArith M_Variogram S_Vario S_Random P_Vario P_NormF S_CorrF P_CorrF P_CorrF7 S_Accur P_Accur6 P_Accur11 P_Accur12.
Import ListNotations.
Open Scope R_scope.

(** ** C77: rounding does not change correlations noticeably *)
(** With azimuth and dip 0, ranges and lags of moderate size, and an exp, sin and cos that round correctly, the correlations of the
    double precision program differ by at most 2^-49 from those of exact arithmetic, in one, two and three dimensions. All types but
    general_exponential and matern72, which call pow; names that are not documented are spherical. *)
Theorem C77_unrotated_partial : forall (m : libm), fair m -> trig_rounded m -> exp_rounded m ->
  forall (s : string) (main perp depth power x y z : b64) (p : R) v w,
  @CreateVariogram (Farith m) s main perp depth (Flit 0 0) (Flit 0 0) power = Ok v ->
  @CreateVariogram Rarith s (B2R main) (B2R perp) (B2R depth) 0 0 p = Ok w -> 0 < p ->
  ~ In (lower s) ["general_exponential"; "matern72"]%string ->
  moderate main -> moderate_arg perp -> moderate_arg depth -> moderate_lag x -> moderate_lag y -> moderate_lag z ->
  very_close (@GetCorr1 (Farith m) v x) (@GetCorr1 Rarith w (B2R x)) /\
  very_close (@GetCorr2 (Farith m) v x y) (@GetCorr2 Rarith w (B2R x) (B2R y)) /\
  very_close (@GetCorr3 (Farith m) v x y z) (@GetCorr3 Rarith w (B2R x) (B2R y) (B2R z)).
Proof. exact c78. Qed.
Print Assumptions C77_unrotated_partial.

(** All types, also those that call pow (rounding correctly): within 2^-47, without rotation. The power of general_exponential is at
    most 2. Ranges and lags lie between 2^-100 and 2^100 and may differ by any factor. *)
Theorem C77_unrotated_all_partial : forall (m : libm), fair m -> trig_rounded m -> exp_rounded m -> pow_rounded m ->
  forall (s : string) (main perp depth power x y z : b64) v w,
  @CreateVariogram (Farith m) s main perp depth (Flit 0 0) (Flit 0 0) power = Ok v ->
  @CreateVariogram Rarith s (B2R main) (B2R perp) (B2R depth) 0 0 (B2R power) = Ok w ->
  is_finite power = true -> 0 < B2R power <= 2 ->
  ordinary main -> ordinary_arg perp -> ordinary_arg depth -> ordinary_lag x -> ordinary_lag y -> ordinary_lag z ->
  close_by (bpow radix2 (-47)) (@GetCorr1 (Farith m) v x) (@GetCorr1 Rarith w (B2R x)) /\
  close_by (bpow radix2 (-47)) (@GetCorr2 (Farith m) v x y) (@GetCorr2 Rarith w (B2R x) (B2R y)) /\
  close_by (bpow radix2 (-47)) (@GetCorr3 (Farith m) v x y z) (@GetCorr3 Rarith w (B2R x) (B2R y) (B2R z)).
Proof. exact c77_unrotated_all. Qed.
Print Assumptions C77_unrotated_all_partial.
(** Rotated variograms: if no range is more than [k] times another, the correlations are within k^2 * 2^-40 (about k^2 * 10^-12) of
    the exact ones, for all types, azimuths and dips of at most two turns. [k] is at most 2^18; the refuted case has k = 3.3e8. *)
Theorem C77_rotated_partial : forall (m : libm), fair m -> trig_rounded m -> exp_rounded m -> pow_rounded m ->
  forall (s : string) (main perp depth azi dp power x y z : b64) (k : R) v w,
  @CreateVariogram (Farith m) s main perp depth azi dp power = Ok v ->
  @CreateVariogram Rarith s (B2R main) (B2R perp) (B2R depth) (B2R azi) (B2R dp) (B2R power) = Ok w ->
  is_finite power = true -> 0 < B2R power <= 2 ->
  ordinary main -> ordinary_arg perp -> ordinary_arg depth -> angle azi -> angle dp -> ordinary_lag x -> ordinary_lag y -> ordinary_lag z ->
  1 <= k <= 262144 -> ratio_at_most k (B2R main) (or_main (B2R main) (B2R perp)) (or_main (B2R main) (B2R depth)) ->
  close_by (k ^ 2 * bpow radix2 (-40)) (@GetCorr1 (Farith m) v x) (@GetCorr1 Rarith w (B2R x)) /\
  close_by (k ^ 2 * bpow radix2 (-40)) (@GetCorr2 (Farith m) v x y) (@GetCorr2 Rarith w (B2R x) (B2R y)) /\
  close_by (k ^ 2 * bpow radix2 (-40)) (@GetCorr3 (Farith m) v x y z) (@GetCorr3 Rarith w (B2R x) (B2R y) (B2R z)).
Proof. exact c77_rotated. Qed.
Print Assumptions C77_rotated_partial.

(** ** C74: in double precision, a correlation is a number between 0 and 1 *)
(** In two and three dimensions and rotated, if no range is more than 2^18 times another; all types but the Matern ones. *)
Theorem C74_rotated_partial : forall (m : libm), fair m -> trig_rounded m ->
  forall (s : string) (main perp depth azi dp power x y z : b64) (k : R) v,
  @CreateVariogram (Farith m) s main perp depth azi dp power = Ok v -> ~ In (lower s) ["matern32"; "matern52"; "matern72"]%string -> Bltb zero64 power = true ->
  ordinary main -> ordinary_arg perp -> ordinary_arg depth -> angle azi -> angle dp -> ordinary_lag x -> ordinary_lag y -> ordinary_lag z ->
  1 <= k <= 262144 -> ratio_at_most k (B2R main) (or_main (B2R main) (B2R perp)) (or_main (B2R main) (B2R depth)) ->
  in_unit (@GetCorr1 (Farith m) v x) /\ in_unit (@GetCorr2 (Farith m) v x y) /\ in_unit (@GetCorr3 (Farith m) v x y z).
Proof. exact c74_rotated. Qed.
Print Assumptions C74_rotated_partial.
(** All types, up to the accuracy of C77. *)
Theorem C74_nearly_partial : forall (m : libm), fair m -> trig_rounded m -> exp_rounded m -> pow_rounded m ->
  forall (s : string) (main perp depth azi dp power : b64) (k : R) v,
  @CreateVariogram (Farith m) s main perp depth azi dp power = Ok v -> is_finite power = true -> 0 < B2R power <= 2 ->
  ordinary main -> ordinary_arg perp -> ordinary_arg depth -> angle azi -> angle dp ->
  1 <= k <= 262144 -> ratio_at_most k (B2R main) (or_main (B2R main) (B2R perp)) (or_main (B2R main) (B2R depth)) ->
  forall x y z, ordinary_lag x -> ordinary_lag y -> ordinary_lag z ->
  is_finite (@GetCorr1 (Farith m) v x) = true /\ - (k ^ 2 * bpow radix2 (-40)) <= B2R (@GetCorr1 (Farith m) v x) <= 1 + k ^ 2 * bpow radix2 (-40) /\
  is_finite (@GetCorr2 (Farith m) v x y) = true /\ - (k ^ 2 * bpow radix2 (-40)) <= B2R (@GetCorr2 (Farith m) v x y) <= 1 + k ^ 2 * bpow radix2 (-40) /\
  is_finite (@GetCorr3 (Farith m) v x y z) = true /\ - (k ^ 2 * bpow radix2 (-40)) <= B2R (@GetCorr3 (Farith m) v x y z) <= 1 + k ^ 2 * bpow radix2 (-40).
Proof. exact nearly_unit. Qed.
Print Assumptions C74_nearly_partial.

(** ** C76: in double precision, the correlation never grows with the lag *)
(** It grows by less than the accuracy of C77: the lag (x', y', z') is [c] times the lag (x, y, z), c >= 1. *)
Theorem C76_nearly_partial : forall (m : libm), fair m -> trig_rounded m -> exp_rounded m -> pow_rounded m ->
  forall (s : string) (main perp depth azi dp power : b64) (k : R) v,
  @CreateVariogram (Farith m) s main perp depth azi dp power = Ok v -> is_finite power = true -> 0 < B2R power <= 2 ->
  ordinary main -> ordinary_arg perp -> ordinary_arg depth -> angle azi -> angle dp ->
  1 <= k <= 262144 -> ratio_at_most k (B2R main) (or_main (B2R main) (B2R perp)) (or_main (B2R main) (B2R depth)) ->
  forall (c : R) x y z x' y' z', ordinary_lag x -> ordinary_lag y -> ordinary_lag z -> ordinary_lag x' -> ordinary_lag y' -> ordinary_lag z' ->
  1 <= c -> B2R x' = c * B2R x -> B2R y' = c * B2R y -> B2R z' = c * B2R z ->
  B2R (@GetCorr1 (Farith m) v x') <= B2R (@GetCorr1 (Farith m) v x) + k ^ 2 * bpow radix2 (-39) /\
  B2R (@GetCorr2 (Farith m) v x' y') <= B2R (@GetCorr2 (Farith m) v x y) + k ^ 2 * bpow radix2 (-39) /\
  B2R (@GetCorr3 (Farith m) v x' y' z') <= B2R (@GetCorr3 (Farith m) v x y z) + k ^ 2 * bpow radix2 (-39).
Proof. exact nearly_monotone. Qed.
Print Assumptions C76_nearly_partial.

Lemma l250r : exactly (Flit 250 0) 250. Proof. lit_t. Qed.
Lemma lm1r : exactly (Flit (-1) 0) (-1). Proof. lit_t. Qed.
Lemma l10r : exactly (Flit 10 0) 10. Proof. lit_t. Qed.
(** Ordinary arguments meet the hypotheses. *)
Example Accur_args : moderate (Flit 250 0) /\ moderate_arg (Flit (-1) 0) /\ moderate_lag (Flit 10 0) /\ moderate_lag zero64.
Proof.
  destruct l250r as [A1 V1]. destruct lm1r as [A2 V2]. destruct l10r as [A3 V3].
  assert (P0 : bpow radix2 (-200) <= 1) by (change 1 with (bpow radix2 0); apply bpow_le; lia).
  assert (P1 : 256 <= bpow radix2 200) by (change 256 with (bpow radix2 8); apply bpow_le; lia).
  split; [split; [exact A1|rewrite V1; lra]|]. split; [right; split; [exact A2|rewrite V2; lra]|]. split; [split; [exact A3|right; rewrite V3, Rabs_right; lra]|].
  split; [reflexivity|left; reflexivity].
Qed.
Lemma l45r : exactly (Flit 45 0) 45. Proof. lit_t. Qed.
(** The arguments of a rotated variogram with ranges 250 and 10 and the dip left out: the ratio is 25. *)
Example Accur_rotated_args : ordinary (Flit 250 0) /\ ordinary_arg (Flit 10 0) /\ ordinary_arg (Flit (-1) 0) /\ angle (Flit 45 0) /\ angle (Flit 0 0) /\ ordinary_lag (Flit 10 0) /\
  is_finite (Flit 15 1) = true /\ 0 < B2R (Flit 15 1) <= 2 /\
  ratio_at_most 25 (B2R (Flit 250 0)) (or_main (B2R (Flit 250 0)) (B2R (Flit 10 0))) (or_main (B2R (Flit 250 0)) (B2R (Flit (-1) 0))).
Proof.
  destruct l250r as [A1 V1]. destruct lm1r as [A2 V2]. destruct l10r as [A3 V3]. destruct l45r as [A4 V4]. destruct l0 as [A5 V5]. destruct l15 as [A6 V6].
  assert (P0 : bpow radix2 (-100) <= 1) by (change 1 with (bpow radix2 0); apply bpow_le; lia).
  assert (P1 : 256 <= bpow radix2 100) by (change 256 with (bpow radix2 8); apply bpow_le; lia).
  split; [split; [exact A1|rewrite V1; lra]|]. split; [left; split; [exact A3|rewrite V3; lra]|]. split; [right; split; [exact A2|rewrite V2; lra]|].
  split; [split; [exact A4|rewrite V4, Rabs_right; lra]|]. split; [split; [exact A5|rewrite V5, Rabs_R0; lra]|]. split; [split; [exact A3|right; rewrite V3, Rabs_right; lra]|].
  split; [exact A6|]. split; [rewrite V6; lra|]. rewrite V1, V2, V3. unfold ratio_at_most, or_main. destruct (Rlt_dec 10 0); [lra|]. destruct (Rlt_dec (-1) 0); [|lra]. repeat split; lra.
Qed.
