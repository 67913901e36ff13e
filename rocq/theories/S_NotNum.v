(** Numbers that make no sense as lengths. *)
From Coq Require Import Bool Reals.
From Flocq Require Import Core IEEE754.BinarySingleNaN.
From Verif Require Import FloatArith.

(** zero (of either sign) or NaN *)
Definition zero_or_nan (x : b64) : Prop := x = B754_nan \/ exists s, x = B754_zero s.
(** NaN or plus infinity *)
Definition nan_or_infinite (x : b64) : Prop := x = B754_nan \/ x = B754_infinity false.
