(** Several fields: what the C++ overloads are to be compared with. *)
From Coq Require Import ZArith List.
From Verif Require Import Base Arith M_Variogram M_Dsfmt M_Random M_Multi.
Import ListNotations.

(** [n] calls one after the other, each starting from the state the one before left; the results in order. *)
Fixpoint repeatedly {S X} (n : nat) (call : S -> outcome (X * S)) (s : S) : outcome (list X * S) :=
  match n with
  | O => Ok ([], s)
  | Datatypes.S n =>
      let* (x, s) := call s in
      let* (xs, s) := repeatedly n call s in
      Ok (x :: xs, s)
  end.

(** One 2D field with the caller's generator. *)
Definition one_field {L : Lib} rec fuel (v : variogram L) nx dx ny dy padx pady sx sy (s : dsfmt * rstate)
  : outcome (list (num L) * (dsfmt * rstate)) :=
  let* (fs, s) := Fields2D rec fuel v nx dx ny dy 1%Z (Some (fst s)) padx pady sx sy (snd s) in
  let* f := rd fs 0 in Ok (f, s).
