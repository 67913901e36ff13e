(** The standard deviation of a variogram object after a history of setter calls. *)
From Coq Require Import List Reals.
From Verif Require Import Base Arith RealArith M_Variogram S_Vario.
Import ListNotations.

Fixpoint last_std (std : R) (os : list (setter Rarith)) : R :=
  match os with [] => std | OStd s :: os => last_std s os | _ :: os => last_std std os end.
