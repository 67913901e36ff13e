(** Vocabulary for the part of the normal sampler beyond 3. *)
From Coq Require Import Reals.
Open Scope R_scope.

(** The radius beyond 3 that takes the place of a radius r of the unit disc. *)
Definition tail_radius (r : R) : R := sqrt (9 - 4 * ln r).
