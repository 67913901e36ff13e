(** Doubles that are the same number, and the symmetries of the C library that mirroring asks for (glibc, musl and the Microsoft library
    have them). *)
From Coq Require Import Bool.
From Flocq Require Import IEEE754.BinarySingleNaN.
From Verif Require Import FloatArith.

(** the same double, or two zeros *)
Definition same (x y : b64) : Prop := x = y \/ exists s s', x = B754_zero s /\ y = B754_zero s'.
Record mirrored (m : libm) : Prop := {
  sin_odd : forall x, lm_sin m (Bopp x) = Bopp (lm_sin m x);
  cos_even : forall x, lm_cos m (Bopp x) = lm_cos m x;
  exp_same : forall x y, same x y -> same (lm_exp m x) (lm_exp m y);
  pow_same : forall x y p, same x y -> same (lm_pow m x p) (lm_pow m y p)
}.
