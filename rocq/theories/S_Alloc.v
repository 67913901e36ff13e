(** Vocabulary for calls that run out of memory. *)
From Coq Require Import ZArith.
From Verif Require Import M_Dsfmt M_Random.

(** All that later calls can see of the module's random state. *)
Definition stream (st : rstate) : bool * Z * dsfmt := (is_init st, start_seed st, gen st).
