(** What the resource extrapolator promises. *)
From Coq Require Import ZArith List Reals.
From Verif Require Import Base Arith M_Variogram M_Api.
Import ListNotations.
Open Scope Z_scope.

(** the sizes nmin, nmin + nstep, nmin + 2 nstep, ... that are at most nmax *)
Definition wanted_sizes (nmin nmax nstep : Z) : list Z :=
  filter (fun n => (n - nmin) mod nstep =? 0) (map (fun k => nmin + Z.of_nat k) (seq 0 (Z.to_nat (nmax + 1 - nmin)))).

(** the simulation of a line, square or cube of [n] cells along a side, 1000 long, [n] more cells of padding *)
Definition cube {L : Lib} (v : variogram L) (ndims : nat) (n : Z) : call L :=
  let d := div L (lit L 1000 0) (ofZ L (n - 1)) in
  CAdvanced v
    match ndims with
    | O | S O => mkDims n d (Some 1) (Some d) (Some 1) (Some d)
    | S (S O) => mkDims n d (Some n) (Some d) (Some 1) (Some d)
    | _ => mkDims n d (Some n) (Some d) (Some n) (Some d)
    end
    (mkAdv (Some n) (Some n) (Some n) None None None).

(** the sum of the squared errors of the line y = s x *)
Fixpoint misfit (s : R) (x y : list R) : R :=
  match x, y with
  | a :: x, b :: y => ((b - s * a) ^ 2 + misfit s x y)%R
  | _, _ => 0%R
  end.
