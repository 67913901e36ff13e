(** What simulation_size promises in double precision. *)
From Coq Require Import ZArith List Bool Reals.
From Flocq Require Import Core IEEE754.BinarySingleNaN.
From Verif Require Import Base Arith FloatArith M_Variogram M_Api S_CorrF S_FieldF S_Room.
Import ListNotations.
Open Scope R_scope.

(** a finite double above zero *)
Definition positive (x : b64) : Prop := is_finite x = true /\ 0 < B2R x.
(** the cell size in direction [i]; one that is left out counts as -1 *)
Definition step64 {m f o cl} (d : dims (Flib m f o cl)) (i : nat) : b64 := nth i [d_dx d; opt (d_dy d) (Flit (-1) 0); opt (d_dz d) (Flit (-1) 0)] (Flit (-1) 0).
(** the ratio of S_Room.v, each operation rounded to the nearest double *)
Definition ratio64 (t : vtype) (power : R) : R :=
  match t with
  | GENERAL_EXPONENTIAL => nearest (4 + nearest (nearest (power - 15 / 10) * nearest (534 / 100)))
  | _ => nearest (grid_ratio t 0)
  end.
(** the size rule of S_Room.v, each operation rounded to the nearest double: the size, and the room it leaves *)
Definition size_rule64 (ratio range step : R) (n N : Z) : Prop :=
  (N = n + Z.max (Ztrunc (nearest (range / step))) (Ztrunc (nearest (nearest (nearest (ratio * range) / step) - nearest (IZR n)))) + 1)%Z /\
  nearest (range / step) < IZR (N - n) /\ (n < N <= n + 2 ^ 31)%Z.
(** a finite azimuth that is zero or not minute *)
Definition plain_azimuth (a : b64) : Prop := is_finite a = true /\ (B2R a = 0 \/ bpow radix2 (-1000) <= Rabs (B2R a)).
