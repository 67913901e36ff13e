(** What "at least as large" means for ranges, spacings and numbers of cells given as doubles and integers. *)
From Coq Require Import ZArith Bool Reals List.
From Flocq Require Import Core IEEE754.BinarySingleNaN.
From Verif Require Import FloatArith.
Open Scope R_scope.

(** two lengths, both numbers and positive, the second at least as long *)
Definition longer (r r' : b64) : Prop := is_finite r = true /\ is_finite r' = true /\ 0 < B2R r <= B2R r'.
(** a range left out (negative) is the main range *)
Definition given (main r : b64) : b64 := if Bltb r (B754_zero false) then main else r.
(** numbers of cells; up to 2^52, far more than there can be in memory *)
Definition more (n n' : Z) : Prop := (0 <= n <= n')%Z /\ (n' <= 2 ^ 52)%Z.
(** every size of the first list is at most the size at its place in the second *)
Definition fits_in (l l' : list Z) : Prop := forall i a, nth_error l i = Some a -> exists a', nth_error l' i = Some a' /\ (a <= a')%Z.
