(** Outcomes of C++ calls, machine integers, checked arrays.
    Nothing here is specific to gaussianfft. *)
From Coq Require Import ZArith List Bool.
Import ListNotations.
Open Scope Z_scope.

(** C++ exceptions (or Python exceptions raised by pybind11) that the modelled code can raise. *)
Inductive exn : Set :=
| NotInitialized     (* NRLib::Exception("Random number generator is not initalized.") *)
| NegativeRange      (* NRLib::Exception("Negative ranges are not allowed.\n") *)
| UnknownType        (* NRLib::Exception("Unknown variogram type.") *)
| TypeError          (* pybind11 cannot convert an argument *)
| TooLarge.          (* a grid dimension does not fit the int the code narrows it to *)

(** Kinds of undefined behaviour the modelled code can run into. *)
Inductive ub : Set :=
| FloatToInt         (* conversion of a floating point value to an integer type that cannot hold it *)
| SignedOverflow     (* int arithmetic overflow *)
| OutOfBounds        (* array access outside the array *)
| BadChar            (* toupper() of a negative char *)
| NullPointer.       (* access through a null pointer *)

Inductive outcome (A : Type) : Type :=
| Ok (a : A)
| Throw (e : exn)
| UB (u : ub)
| NoFuel.            (* a rejection loop did not finish within the fuel given *)
Arguments Ok {A} a.
Arguments Throw {A} e.
Arguments UB {A} u.
Arguments NoFuel {A}.

Definition bind {A B} (m : outcome A) (k : A -> outcome B) : outcome B :=
  match m with
  | Ok a => k a
  | Throw e => Throw e
  | UB u => UB u
  | NoFuel => NoFuel
  end.
Notation "'let*' x ':=' m 'in' k" := (bind m (fun x => k))
  (at level 200, x pattern, m at level 100, k at level 200).

(** ** Machine integers.  [size_t], [unsigned long] are 64 bit, [int] is 32 bit (LP64). *)
Definition u64 (z : Z) : Z := z mod 2 ^ 64.
Definition u32 (z : Z) : Z := z mod 2 ^ 32.
Definition fits_int (z : Z) : bool := (- 2 ^ 31 <=? z) && (z <? 2 ^ 31).
Definition fits_size (z : Z) : bool := (0 <=? z) && (z <? 2 ^ 64).

(** ** Arrays *)
Definition rd {A} (l : list A) (i : nat) : outcome A :=
  match nth_error l i with Some a => Ok a | None => UB OutOfBounds end.

Fixpoint mapM {A B} (f : A -> outcome B) (l : list A) : outcome (list B) :=
  match l with
  | [] => Ok []
  | a :: l => let* b := f a in let* bs := mapM f l in Ok (b :: bs)
  end.

Fixpoint upd {A} (l : list A) (i : nat) (a : A) : list A :=
  match l, i with
  | [], _ => []
  | _ :: l, O => a :: l
  | x :: l, S i => x :: upd l i a
  end.

Definition wr {A} (l : list A) (p : nat * A) : outcome (list A) :=
  if (fst p <? length l)%nat then Ok (upd l (fst p) (snd p)) else UB OutOfBounds.

(** A loop nest whose body is one array assignment is modelled by the list of
    (index, value) assignments it performs, in program order. *)
Fixpoint writes {A} (ws : list (nat * A)) (l : list A) : outcome (list A) :=
  match ws with
  | [] => Ok l
  | w :: ws => let* l' := wr l w in writes ws l'
  end.

(** [for (i = a; i < b; i++)] *)
Definition range (a b : nat) : list nat := seq a (b - a).
