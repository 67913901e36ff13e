(** What is said about correlations in double precision, and what is asked of the C library for it. *)
From Coq Require Import ZArith Bool Reals.
From Flocq Require Import Core IEEE754.BinarySingleNaN.
From Verif Require Import Base Arith RealArith FloatArith.
Open Scope R_scope.

(** a double that is a number between 0 and 1 *)
Definition in_unit (x : b64) : Prop := is_finite x = true /\ 0 <= B2R x <= 1.
(** [x <= y] and neither is a NaN *)
Definition le64 (x y : b64) : Prop := Bleb x y = true.
Definition zero64 : b64 := B754_zero false.
Definition one64 : b64 := Flit 1 0.

(** what every exp, pow, sin and cos satisfies: exp of a number that is not positive lies between 0 and 1; exp(0) = 1 for both
    zeros; a positive power of a number that is not negative is not negative, and of a zero is a zero; sin and cos of a
    number lie between -1 and 1 *)
Record fair (m : libm) : Prop := {
  exp_unit : forall x, le64 x zero64 -> in_unit (lm_exp m x);
  exp_zero : forall s, lm_exp m (B754_zero s) = one64;
  pow_nonneg : forall x y, le64 zero64 x -> Bltb zero64 y = true -> le64 zero64 (lm_pow m x y);
  pow_zero : forall s y, Bltb zero64 y = true -> exists s', lm_pow m (B754_zero s) y = B754_zero s';
  sin_unit : forall x, is_finite x = true -> is_finite (lm_sin m x) = true /\ Rabs (B2R (lm_sin m x)) <= 1;
  cos_unit : forall x, is_finite x = true -> is_finite (lm_cos m x) = true /\ Rabs (B2R (lm_cos m x)) <= 1
}.

(** a range between 2^-400 and 2^400, about 10^-120 and 10^120 *)
Definition usual_range (r : b64) : Prop := is_finite r = true /\ bpow radix2 (-400) <= B2R r <= bpow radix2 400.
(** a range argument: such a range, or a negative number, which stands for the main range *)
Definition range_arg (r : b64) : Prop := usual_range r \/ Bltb r zero64 = true.
(** exp, sin and cos that round correctly: the result is the double nearest to the exact value *)
Definition nearest (r : R) : R := round radix2 (FLT_exp (-1074) 53) ZnearestE r.
Definition exp_rounded (m : libm) : Prop := forall x, is_finite x = true -> B2R x <= 0 -> B2R (lm_exp m x) = nearest (exp (B2R x)).
Definition trig_rounded (m : libm) : Prop := forall x, is_finite x = true ->
  is_finite (lm_sin m x) = true /\ B2R (lm_sin m x) = nearest (sin (B2R x)) /\
  is_finite (lm_cos m x) = true /\ B2R (lm_cos m x) = nearest (cos (B2R x)).
(** an exp that never decreases *)
Definition exp_monotone (m : libm) : Prop := forall x y, le64 x y -> le64 (lm_exp m x) (lm_exp m y).
(** a pow that rounds correctly: for numbers x >= 0 and y > 0, unless the result is beyond 2^1000 *)
Definition pow_rounded (m : libm) : Prop := forall x y, is_finite x = true -> is_finite y = true -> 0 <= B2R x -> 0 < B2R y ->
  Rpow (B2R x) (B2R y) <= bpow radix2 1000 -> is_finite (lm_pow m x y) = true /\ B2R (lm_pow m x y) = nearest (Rpow (B2R x) (B2R y)).
(** a pow that never decreases in its first argument, for arguments that are not negative *)
Definition pow_monotone (m : libm) : Prop := forall x y p, le64 zero64 x -> le64 x y -> Bltb zero64 p = true -> le64 (lm_pow m x p) (lm_pow m y p).
