(** What is said about smoothing in double precision. *)
From Coq Require Import ZArith Bool String List Reals.
From Flocq Require Import Core IEEE754.BinarySingleNaN.
From Verif Require Import Base Arith RealArith FloatArith M_Variogram S_Vario S_CorrF S_Accur S_Reach.
Open Scope R_scope.

(** a pow that gives 1 for the power 0 of a positive number, as the C standard asks *)
Definition pow_one (m : libm) : Prop := forall x y, is_finite x = true -> is_finite y = true -> 0 < B2R x -> B2R y = 0 ->
  is_finite (lm_pow m x y) = true /\ B2R (lm_pow m x y) = 1.
(** The factor s^((l/r)^2) of the lag [l] is exp (- l^2 / spread s r): the square of the lag at which it has fallen to 1/e. *)
Definition spread (s r : R) : R := r ^ 2 / - ln s.
(** a parameter and a range for which smoothing is off, or the spread is between 1/650 and 2^48 *)
Definition smooth_args (s r : b64) : Prop := is_finite s = true /\ 0 < B2R s /\
  (B2R s < 99999 / 100000 -> 1 / 650 <= spread (B2R s) (B2R r) <= bpow radix2 48).
(** how far a factor in doubles can be from the exact one *)
Definition damp_error (s r : b64) : R := if Rlt_dec (B2R s) (99999 / 100000) then (1 + spread (B2R s) (B2R r)) * bpow radix2 (-47) else 0.
(** [v] and [w] are made by the same call of variogram() with angles 0, in doubles and in exact arithmetic. The ranges are of ordinary
    size, the other ranges are at most 1000 times the main range, and the power is at most 2. *)
Definition straight_call (m : libm) (main perp depth : b64) (v : variogram (Farith m)) (w : variogram Rarith) : Prop :=
  exists (s : string) (power : b64),
    @CreateVariogram (Farith m) s main perp depth (Flit 0 0) (Flit 0 0) power = Ok v /\
    @CreateVariogram Rarith s (B2R main) (B2R perp) (B2R depth) 0 0 (B2R power) = Ok w /\
    is_finite power = true /\ 0 < B2R power <= 2 /\ ordinary main /\ ordinary_arg perp /\ ordinary_arg depth /\
    or_main (B2R main) (B2R perp) <= 1000 * B2R main /\ or_main (B2R main) (B2R depth) <= 1000 * B2R main.
(** a range that is used: a negative one stands for the main range *)
Definition or_main64 (main r : b64) : b64 := if Bltb r (Flit 0 0) then main else r.
