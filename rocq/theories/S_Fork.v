(** Vocabulary for statements about several processes. *)
From Coq Require Import ZArith List Bool.
From Verif Require Import Base Arith M_Api M_Fork.
Import ListNotations.

(** the calls process p makes, with their times *)
Fixpoint calls_of {L : Lib} (p : nat) (es : list (event L)) : list (Z * call L) :=
  match es with
  | [] => []
  | Do q now c :: es => if Nat.eqb p q then (now, c) :: calls_of p es else calls_of p es
  | _ :: es => calls_of p es
  end.
(** what it gets *)
Definition results_of {L : Lib} (p : nat) (rs : list (nat * outcome (value L))) : list (outcome (value L)) :=
  map snd (filter (fun r => Nat.eqb p (fst r)) rs).
