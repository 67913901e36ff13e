(** How far a variogram reaches along each grid axis, and the factor that smoothing applies. *)
From Coq Require Import Reals.
Open Scope R_scope.

(** the largest of the projections on a grid axis of the three axes of the variogram, each as long as its range ([a]: azimuth, [d]: dip) *)
Definition reach_x (main perp depth a d : R) : R := Rmax (Rmax (main * Rabs (cos d * cos a)) (perp * Rabs (sin a))) (depth * Rabs (sin d * cos a)).
Definition reach_y (main perp depth a d : R) : R := Rmax (Rmax (main * Rabs (cos d * sin a)) (perp * Rabs (cos a))) (depth * Rabs (sin d * sin a)).
Definition reach_z (main depth d : R) : R := Rmax (main * Rabs (sin d)) (depth * Rabs (cos d)).
(** parameter [s], lag [l], length [r]: s at one length, s^4 at two, ...; parameters from 0.99999 on mean no smoothing *)
Definition damp (s r l : R) : R := if Rlt_dec s (99999 / 100000) then Rpower s ((l / r) ^ 2) else 1.
