(** What simulation_size promises, in exact arithmetic. *)
From Coq Require Import ZArith Reals.
From Flocq Require Import Core.Raux.
From Verif Require Import M_Variogram.
Open Scope R_scope.

(** The size in one direction: [n] cells of spacing [step], range [range], minimum grid-to-range ratio [ratio]. *)
Definition size_rule (ratio range step : R) (n N : Z) : Prop :=
  (N = n + Z.max (Zfloor (range / step)) (Ztrunc (ratio * range / step - IZR n)) + 1)%Z /\
  IZR n + range / step < IZR N /\ ratio * range / step < IZR N.

(** The smallest grid, in ranges, for each type of variogram ([power]: of the general exponential). *)
Definition grid_ratio (t : vtype) (power : R) : R :=
  match t with
  | CONSTANT => 1
  | EXPONENTIAL => 233 / 100
  | SPHERICAL => 192 / 100
  | GAUSSIAN => 667 / 100
  | GENERAL_EXPONENTIAL => 4 + (power - 15 / 10) * (534 / 100)
  | MATERN32 => 4
  | MATERN52 => 476 / 100
  | MATERN72 => 526 / 100
  | N_TYPES => 0
  end.

(** The range that sets the size in direction [i] of [dim]: in 1D the main range; otherwise the larger horizontal range in x, the
    same in y unless the azimuth is 0, and the depth range in z. *)
Definition room_range (main perp depth azi : R) (dim i : nat) : R :=
  match i with
  | 0%nat => if Nat.eqb dim 1 then main else Rmax main perp
  | 1%nat => if Req_EM_T azi 0 then perp else Rmax main perp
  | _ => depth
  end.
