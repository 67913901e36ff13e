(** What is said about the accuracy of correlations in double precision. *)
From Coq Require Import ZArith Bool Reals.
From Flocq Require Import Core IEEE754.BinarySingleNaN.
From Verif Require Import Base Arith RealArith FloatArith S_CorrF.
Open Scope R_scope.

(** a range between 2^-200 and 2^200, about 10^-60 and 10^60 *)
Definition moderate (r : b64) : Prop := is_finite r = true /\ bpow radix2 (-200) <= B2R r <= bpow radix2 200.
(** a range argument: such a range, or a negative number, which stands for the main range *)
Definition moderate_arg (r : b64) : Prop := moderate r \/ (is_finite r = true /\ B2R r < 0).
(** a lag: zero, or between 2^-200 and 2^200 in absolute value *)
Definition moderate_lag (x : b64) : Prop := is_finite x = true /\ (B2R x = 0 \/ bpow radix2 (-200) <= Rabs (B2R x) <= bpow radix2 200).
(** a number as close as 2^-49, about 1.8e-15 *)
Definition very_close (x : b64) (r : R) : Prop := is_finite x = true /\ Rabs (B2R x - r) <= bpow radix2 (-49).
(** a number that close *)
Definition close_by (e : R) (x : b64) (r : R) : Prop := is_finite x = true /\ Rabs (B2R x - r) <= e.
(** ranges and lags of ordinary size, between 2^-100 and 2^100, about 10^-30 and 10^30; a negative range argument stands for the main range *)
Definition ordinary (r : b64) : Prop := is_finite r = true /\ bpow radix2 (-100) <= B2R r <= bpow radix2 100.
Definition ordinary_arg (r : b64) : Prop := ordinary r \/ (is_finite r = true /\ B2R r < 0).
Definition ordinary_lag (x : b64) : Prop := is_finite x = true /\ (B2R x = 0 \/ bpow radix2 (-100) <= Rabs (B2R x) <= bpow radix2 100).
(** an angle of at most two turns *)
Definition angle (a : b64) : Prop := is_finite a = true /\ Rabs (B2R a) <= 720.
(** no range is more than [k] times another *)
Definition ratio_at_most (k r1 r2 r3 : R) : Prop :=
  r1 <= k * r2 /\ r1 <= k * r3 /\ r2 <= k * r1 /\ r2 <= k * r3 /\ r3 <= k * r1 /\ r3 <= k * r2.
