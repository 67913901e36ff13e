(** The estimation of variograms: distances, bins, averages. *)
From Coq Require Import ZArith List Bool Reals.
From Verif Require Import M_Util.
Import ListNotations.
Open Scope R_scope.

Definition in_grid (e : ev) (p : cell) : Prop := let '(i, j, k) := p in (i < ev_nx e)%nat /\ (j < ev_ny e)%nat /\ (k < ev_nz e)%nat.

(** a grid with one row in the y direction has one in the z direction *)
Definition proper (e : ev) : Prop := ev_ny e = 1%nat -> ev_nz e = 1%nat.

(** the distance between the centres of two cells, in the units of dx, dy, dz *)
Definition distance (e : ev) (p q : cell) : R :=
  let '(i, j, k) := p in let '(i', j', k') := q in
  sqrt ((ev_dx e * INR i - ev_dx e * INR i') ^ 2 + (ev_dy e * INR j - ev_dy e * INR j') ^ 2
        + (ev_dz e * INR k - ev_dz e * INR k') ^ 2).

(** [m] is the distance from [ref] to the cell farthest from it *)
Definition farthest (e : ev) (ref : cell) (m : R) : Prop :=
  (exists p, in_grid e p /\ distance e ref p = m) /\ forall p, in_grid e p -> distance e ref p <= m.

(** the interval from 0 to [m] in [nb] parts of equal width: [x] is in part [k] (the upper end belongs to the next part, [m] to the last) *)
Definition in_part (m : R) (nb k : nat) (x : R) : Prop :=
  (k < nb)%nat /\ (m * INR k / INR nb <= x < m * INR (k + 1) / INR nb \/ (k + 1 = nb)%nat /\ x = m).

(** the cells of a part, as a list without repetition *)
Definition cells_in (e : ev) (ref : cell) (m : R) (nb k : nat) (l : list cell) : Prop :=
  NoDup l /\ forall p, In p l <-> in_grid e p /\ in_part m nb k (distance e ref p).

(** number of parts: as many whole [resolution]s as fit in [m] *)
Definition parts (m resolution : R) (nb : nat) : Prop := INR nb * resolution <= m < INR (nb + 1) * resolution.

(** a cell of the grid from which some cell is at least [resolution] away *)
Definition suits (e : ev) (resolution : R) (r : cell) : Prop := in_grid e r /\ exists m, farthest e r m /\ resolution <= m.

Definition average (l : list R) : R := fold_right Rplus 0 l / INR (length l).

(** what a pair of cells contributes: one minus half the square of the difference *)
Definition pair_value (g : grid) (ref p : cell) : R := 1 - (g p - g ref) ^ 2 / 2.

(** [n] simulations in a row, none of which raises: the arrays and the state afterwards *)
Fixpoint simulated {S} (sim : S -> option (list R) * S) (n : nat) (s : S) : option (list (list R) * S) :=
  match n with
  | O => Some ([], s)
  | Datatypes.S n =>
      match sim s with
      | (Some x, s) => match simulated sim n s with Some (xs, s) => Some (x :: xs, s) | None => None end
      | (None, _) => None
      end
  end.

(** an array of nx*ny*nz values as a function of the cell, the x index running fastest *)
Definition as_grid (e : ev) (s : list R) : grid := fun '(i, j, k) => nth (i + ev_nx e * (j + ev_ny e * k)) s 0.

(** one row of cells *)
Definition row (nx : nat) (dx : R) (corr : R -> R) : ev := mkEv nx 1 1 dx 0 0 corr.
