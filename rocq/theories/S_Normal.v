(** Vocabulary for statements about the normal sampler. *)
From Coq Require Import ZArith Reals List.
From Coquelicot Require Import Coquelicot.
From Verif Require Import Base Arith RealArith M_Random.
Import ListNotations.
Open Scope R_scope.

(** The standard normal density. *)
Definition phi (x : R) : R := exp (- (x * x) / 2) / sqrt (2 * PI).

(** The density of 2 (U1 + U2 + U3) - 3 for independent uniform numbers. *)
Definition dens3 (x : R) : R :=
  if Rlt_dec (Rabs x) 1 then (3 - x * x) / 8
  else if Rle_dec (Rabs x) 3 then (3 - Rabs x) ^ 2 / 16 else 0.
(** The density of 1.5 (U1 + U2 - 1). *)
Definition dens2 (x : R) : R :=
  if Rle_dec (Rabs x) (3 / 2) then (3 / 2 - Rabs x) * (4 / 9) else 0.

(** A stream of uniform numbers given as a list; draws beyond its end are 0. *)
Definition feed (l : list R) : R * list R :=
  match l with [] => (0, []) | u :: l => (u, l) end.
(** One normal draw fed by the list. *)
Definition normal (trials : nat) (l : list R) : outcome (R * list R) := Norm01 (A := Rarith) feed trials l.

(** What a finished draw contributes to the mean of h; an unfinished one contributes nothing. *)
Definition taken (o : outcome (R * list R)) (h : R -> R) : R := match o with Ok (x, _) => h x | _ => 0 end.
(** The mean of h over the draws whose selector is u and whose next three uniform numbers are independent, in one trial. *)
Definition mean1 (h : R -> R) (u : R) : R :=
  RInt (fun u1 => RInt (fun u2 => RInt (fun u3 => taken (normal 1 [u; u1; u2; u3]) h) 0 1) 0 1) 0 1.
(** The same among the draws that finish in one trial. *)
Definition mean (h : R -> R) (u : R) : R := mean1 h u / mean1 (fun _ => 1) u.

(** ** Streams of doubles *)
From Flocq Require Import IEEE754.BinarySingleNaN.
From Verif Require Import FloatArith S_Random.

Section Stream.
Context {S : Type}.
Variable unif : S -> b64 * S.
(** the [n]-th number (from 0) the source gives from state [s] on *)
Definition drawn (s : S) (n : nat) : b64 := fst (unif (Nat.iter n (fun s => snd (unif s)) s)).
(** every number is k / 2^52, as the generator's are *)
Definition uniform_doubles (s : S) : Prop :=
  forall n, exists k, (0 <= k < 2 ^ 52)%Z /\ exactly (drawn s n) (IZR k / IZR (2 ^ 52)).
(** no two numbers in a row are both exactly one half *)
Definition no_two_halves (s : S) : Prop :=
  forall n, ~ (exactly (drawn s n) (1 / 2) /\ exactly (drawn s (Datatypes.S n)) (1 / 2)).
End Stream.

(** A logarithm that is finite, not positive and not below -1000 on the doubles strictly between 0 and 1 (there the true one
    is above -745). *)
Definition log_sane (m : libm) : Prop :=
  forall x, is_finite x = true -> 0 < B2R x < 1 -> is_finite (lm_log m x) = true /\ -1000 <= B2R (lm_log m x) <= 0.

(** A stream of doubles given as a list; draws beyond its end are 0. *)
Definition feedF (l : list b64) : b64 * list b64 := match l with [] => (Flit 0 0, []) | u :: l => (u, l) end.
