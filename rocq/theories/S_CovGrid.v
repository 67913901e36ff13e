(** Specification of the covariance table. *)
From Coq Require Import ZArith List Bool.
From Verif Require Import Base Arith M_Variogram M_CovGrid.
Open Scope nat_scope.

(** The lag of index i in a periodic direction of n cells, in cells: i in the first half, i - n from the middle on. *)
Definition wrapped (n i : nat) : Z := if 2 * i <? n then Z.of_nat i else (Z.of_nat i - Z.of_nat n)%Z.

(** The FFT library returns arrays of the sizes it documents. *)
Definition fft_sizes (L : Lib) : Prop :=
  (forall n x, length (r2c1 L n x) = n / 2 + 1) /\
  (forall n x, length (c2r1 L n x) = n) /\
  (forall n0 n1 x, length (r2c2 L n0 n1 x) = n0 * (n1 / 2 + 1)) /\
  (forall n0 n1 x, length (c2r2 L n0 n1 x) = n0 * n1) /\
  (forall n0 n1 n2 x, length (r2c3 L n0 n1 n2 x) = n0 * n1 * (n2 / 2 + 1)) /\
  (forall n0 n1 n2 x, length (c2r3 L n0 n1 n2 x) = n0 * n1 * n2).

Section S.
Context {A : Arith}.
Notation num := (num A).

(** the smoothing kernel in one direction: the factor for a lag [dd], given the parameter of advanced.simulate and the
    base computed from it *)
Definition kernel (param base dd c : num) : num :=
  if flt A param (lit A 99999 5) then mul A c (fpow A base (mul A dd dd)) else c.
(** lags as numbers *)
Definition lag (n i : nat) (d : num) : num := mul A (ofZ A (wrapped n i)) d.
(** in 1D the code uses the distance instead *)
Definition lag1 (n i : nat) (d : num) : num :=
  if 2 * i <? n then mul A (ofZ A (Z.of_nat i)) d else mul A d (ofZ A (Z.of_nat n - Z.of_nat i)).

Definition cov1_spec (v : variogram A) nx dx sx (i : nat) : num :=
  let '(bx, _, _) := FindSmoothingFactors v sx (lit A 1 0) (lit A 1 0) in
  kernel sx bx (lag1 nx i dx) (mul A (var v) (GetCorr1 v (lag1 nx i dx))).
Definition cov2_spec (v : variogram A) nx dx ny dy sx sy (i j : nat) : num :=
  let '(bx, by_, _) := FindSmoothingFactors v sx sy (lit A 1 0) in
  kernel sy by_ (lag ny j dy) (kernel sx bx (lag nx i dx) (mul A (var v) (GetCorr2 v (lag nx i dx) (lag ny j dy)))).
Definition cov3_spec (v : variogram A) nx dx ny dy nz dz sx sy sz (i j k : nat) : num :=
  let '(bx, by_, bz) := FindSmoothingFactors v sx sy sz in
  kernel sz bz (lag nz k dz) (kernel sy by_ (lag ny j dy) (kernel sx bx (lag nx i dx)
    (mul A (var v) (GetCorr3 v (lag nx i dx) (lag ny j dy) (lag nz k dz))))).
End S.
