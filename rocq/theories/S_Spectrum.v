(** Specification: spectra of covariance tables, linear expectations, white noise. *)
From Coq Require Import ZArith Bool List Reals.
From Verif Require Import Base Arith RealArith.
Import ListNotations.
Open Scope R_scope.

(** ** spectral values of a table: its discrete cosine sums *)
Definition wave1 (nx kx : nat) (x : R) : R := cos (2 * PI * (INR kx * x / INR nx)).
Definition wave2 (nx ny kx ky : nat) (x y : R) : R := cos (2 * PI * (INR kx * x / INR nx + INR ky * y / INR ny)).
Definition wave3 (nx ny nz kx ky kz : nat) (x y z : R) : R :=
  cos (2 * PI * (INR kx * x / INR nx + INR ky * y / INR ny + INR kz * z / INR nz)).

Definition sum2 (nx ny : nat) (f : nat -> nat -> R) : R := rsum nx (fun i => rsum ny (fun j => f i j)).
Definition sum3 (nx ny nz : nat) (f : nat -> nat -> nat -> R) : R := rsum nx (fun i => rsum ny (fun j => rsum nz (fun k => f i j k))).

Definition spectral1 (nx : nat) (c : nat -> R) (kx : nat) : R := rsum nx (fun i => c i * wave1 nx kx (INR i)).
Definition spectral2 (nx ny : nat) (c : nat -> nat -> R) (kx ky : nat) : R :=
  sum2 nx ny (fun i j => c i j * wave2 nx ny kx ky (INR i) (INR j)).
Definition spectral3 (nx ny nz : nat) (c : nat -> nat -> nat -> R) (kx ky kz : nat) : R :=
  sum3 nx ny nz (fun i j k => c i j k * wave3 nx ny nz kx ky kz (INR i) (INR j) (INR k)).

(** ** inverse transform of the clipped spectrum, at a lag given in cells *)
Definition clipped1 nx c (x : R) : R := / INR nx * rsum nx (fun kx => Rmax (spectral1 nx c kx) 0 * wave1 nx kx x).
Definition clipped2 nx ny c (x y : R) : R :=
  / (INR nx * INR ny) * sum2 nx ny (fun kx ky => Rmax (spectral2 nx ny c kx ky) 0 * wave2 nx ny kx ky x y).
Definition clipped3 nx ny nz c (x y z : R) : R :=
  / (INR nx * INR ny * INR nz) * sum3 nx ny nz (fun kx ky kz => Rmax (spectral3 nx ny nz c kx ky kz) 0 * wave3 nx ny nz kx ky kz x y z).

(** no spectral value is negative *)
Definition nonneg1 nx c : Prop := forall kx, (kx < nx)%nat -> 0 <= spectral1 nx c kx.
Definition nonneg2 nx ny c : Prop := forall kx ky, (kx < nx)%nat -> (ky < ny)%nat -> 0 <= spectral2 nx ny c kx ky.
Definition nonneg3 nx ny nz c : Prop := forall kx ky kz, (kx < nx)%nat -> (ky < ny)%nat -> (kz < nz)%nat -> 0 <= spectral3 nx ny nz c kx ky kz.
(** the total of what is clipped *)
Definition mass1 nx c : R := rsum nx (fun kx => Rmax (- spectral1 nx c kx) 0).
Definition mass2 nx ny c : R := sum2 nx ny (fun kx ky => Rmax (- spectral2 nx ny c kx ky) 0).
Definition mass3 nx ny nz c : R := sum3 nx ny nz (fun kx ky kz => Rmax (- spectral3 nx ny nz c kx ky kz) 0).

(** ** expectations: linear functionals on functions of the outcome *)
Definition expectation {W : Type} (E : (W -> R) -> R) : Prop :=
  (forall f g, (forall w, f w = g w) -> E f = E g) /\
  (forall f g, E (fun w => f w + g w) = E f + E g) /\
  (forall a f, E (fun w => a * f w) = a * E f).
(** uncorrelated noise of unit variance *)
Definition white {W : Type} (E : (W -> R) -> R) (n : nat) (noise : W -> list R) : Prop :=
  (forall w, length (noise w) = n) /\
  forall i j, (i < n)%nat -> (j < n)%nat -> E (fun w => nth i (noise w) 0 * nth j (noise w) 0) = if (i =? j)%nat then 1 else 0.
Definition centred {W : Type} (E : (W -> R) -> R) (n : nat) (noise : W -> list R) : Prop :=
  forall i, (i < n)%nat -> E (fun w => nth i (noise w) 0) = 0.

(** a*x + b*y for arrays *)
Definition comb (a b : R) (x y : list R) : list R := map (fun p => a * fst p + b * snd p) (combine x y).

(** ** sums of squares; how often a stored column of a half spectrum occurs in the full one *)
Definition sumsq (x : list R) : R := rsum (length x) (fun i => nth i x 0 * nth i x 0).
Definition norm2 (z : R * R) : R := fst z * fst z + snd z * snd z.
Definition columns (n k : nat) : R := if ((k =? 0) || (2 * k =? n))%nat%bool then 1 else 2.

(** ** what a table asks for: the mean of its entries at the lag from i' to i and at the opposite lag *)
Definition diff (n i i' : nat) : nat := ((i + (n - i')) mod n)%nat.
Definition asked1 nx (c : nat -> R) i i' : R := (c (diff nx i i') + c (diff nx i' i)) / 2.
Definition asked2 nx ny (c : nat -> nat -> R) i j i' j' : R := (c (diff nx i i') (diff ny j j') + c (diff nx i' i) (diff ny j' j)) / 2.
Definition asked3 nx ny nz (c : nat -> nat -> nat -> R) i j k i' j' k' : R :=
  (c (diff nx i i') (diff ny j j') (diff nz k k') + c (diff nx i' i) (diff ny j' j) (diff nz k' k)) / 2.
