(** Specification of memory that is large enough. *)
From Coq Require Import ZArith List.
From Verif Require Import Base M_Large.
Import ListNotations.
Open Scope Z_scope.

(** Every element that is used lies inside the block. *)
Definition inside (bytes w : Z) (touched : Z -> Prop) : Prop := forall e, touched e -> 0 <= e /\ (e + 1) * w <= bytes.
(** The call uses only memory it has asked for, up to its end or to the first vector that is refused with an exception. *)
Fixpoint computed_or_refused (l : list event) : Prop :=
  match l with
  | [] => True
  | Vector n w :: l => 2 ^ 63 <= n * w \/ computed_or_refused l
  | Access bytes w touched :: l => inside bytes w touched /\ computed_or_refused l
  end.
(** The call uses only memory it has asked for, and no vector is refused. *)
Definition fits (l : list event) : Prop :=
  Forall (fun e => match e with Vector n w => 0 <= n * w < 2 ^ 63 | Access bytes w touched => inside bytes w touched end) l.
