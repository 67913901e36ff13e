(** When simulation_size and the simulations have an answer at all, in double precision. *)
From Coq Require Import ZArith List Bool Reals.
From Flocq Require Import Core IEEE754.BinarySingleNaN.
From Verif Require Import Base Arith FloatArith M_Variogram M_Api S_CorrF S_FieldF S_SizeF.
Import ListNotations.
Open Scope R_scope.

(** a power that makes sense: a number from 0 to 2 *)
Definition sensible_power (p : b64) : Prop := is_finite p = true /\ 0 <= B2R p <= 2.
(** a cell size: above zero and not astronomically large *)
Definition plain_step (x : b64) : Prop := positive x /\ B2R x <= bpow radix2 800.
(** the number of directions simulation_size counts *)
Definition directions {m f o cl} (d : dims (Flib m f o cl)) : nat :=
  (if (opt (d_ny d) 1 <=? 1)%Z then 1 else if (opt (d_nz d) 1 <=? 1)%Z then 2 else 3)%nat.
(** the longest range that plays a part in direction [i] of [dim] *)
Definition longest (main perp depth : R) (dim i : nat) : R :=
  match i with
  | 0%nat => if Nat.eqb dim 1 then main else Rmax main perp
  | 1%nat => Rmax main perp
  | _ => depth
  end.
(** calls that work out how much to pad: simulation_size and every simulation, whether or not the caller gives the padding *)
Definition needs_padding {m f o cl} (v : variogram (Farith m)) (d : dims (Flib m f o cl)) (c : call (Flib m f o cl)) : Prop :=
  c = CSize (L := Flib m f o cl) v d \/ c = CSimulate (L := Flib m f o cl) v d \/ exists a, c = CAdvanced (L := Flib m f o cl) v d a.
(** [K] cells (rounded up) in the longest range of direction [i] *)
Definition range_cells (main perp depth : R) (dim i : nat) (step : R) (K : Z) : Prop := (0 <= K <= 2 ^ 27)%Z /\ longest main perp depth dim i <= IZR K * step.
(** what direction [i] of a call can need, with [n] cells, [K] to a range and the padding [p] if given *)
Definition can_need (n K : Z) (p : option Z) : Z := match p with Some p => n + p | None => Z.max (n + K) (8 * K) + 1 end.
