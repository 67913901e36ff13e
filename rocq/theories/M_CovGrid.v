(** Model of src/nrlib/variogram/fftcovgrid.{hpp,cpp}: the periodised covariance tables.
    The assert()s of FindSmoothingFactors (fftcovgrid.cpp:80-82) are not modelled (release builds define NDEBUG). *)
From Coq Require Import ZArith List Bool.
From Verif Require Import Base Arith M_Variogram M_Grid.
Import ListNotations.
Open Scope nat_scope.

Section CovGrid.
Context {A : Arith}.
Notation num := (num A).
Notation lit := (lit A).
Notation ofN n := (ofZ A (Z.of_nat n)).

(** fftcovgrid.cpp:31-72, FindVariogramRanges *)
Definition FindVariogramRanges (v : variogram A) : num * num * num :=
  let azi := azimuth v in
  let dp := dip v in
  let half_pi := (lit 314 2 / lit 2 0)%num in
  let main0 := fabs A (range_x v * fcos A dp * fcos A azi)%num in
  let main1 := fabs A (range_x v * fcos A dp * fsin A azi)%num in
  let main2 := fabs A (range_x v * fsin A dp)%num in
  let perp0 := fabs A (range_y v * fcos A (azi + half_pi))%num in
  let perp1 := fabs A (range_y v * fsin A (azi + half_pi))%num in
  let perp2 := lit 0 0 in
  let down0 := fabs A (range_z v * fcos A (dp + half_pi) * fcos A azi)%num in
  let down1 := fabs A (range_z v * fcos A (dp + half_pi) * fsin A azi)%num in
  let down2 := fabs A (range_z v * fsin A (dp + half_pi))%num in
  (fmax (fmax main0 perp0) down0, fmax (fmax main1 perp1) down1, fmax (fmax main2 perp2) down2).

(** fftcovgrid.cpp:74-95, FindSmoothingFactors *)
Definition FindSmoothingFactors (v : variogram A) (scaling_x scaling_y scaling_z : num) : num * num * num :=
  let '(rx, ry, rz) := FindVariogramRanges v in
  (fpow A scaling_x (lit 1 0 / (rx * rx))%num,
   fpow A scaling_y (lit 1 0 / (ry * ry))%num,
   fpow A scaling_z (lit 1 0 / (rz * rz))%num).

(** fftcovgrid.hpp:52,77,79,109-113, FindSmoothingFactorX/Y/Z: pow(s, dd*dd) *)
Definition smoothing (s dd : num) : num := fpow A s (dd * dd)%num.

(** "if (apply_scaling) cov *= FindSmoothingFactor(dd)" *)
Definition apply_smoothing (apply : bool) (s dd c : num) : num :=
  if apply then (c * smoothing s dd)%num else c.

(** fftcovgrid.cpp:103-133, FFTCovGrid1D *)
Definition FFTCovGrid1D (v : variogram A) (nx : nat) (dx scaling_x : num) : outcome (list num) :=
  let '(sx, _, _) := FindSmoothingFactors v scaling_x (lit 1 0) (lit 1 0) in
  let apply_x := (scaling_x <? lit 99999 5)%num in
  let nxm := (nx + 1) / 2 in
  let cell ddx := apply_smoothing apply_x sx ddx (GetCov1 v ddx) in
  writes
    (map (fun i => (i, cell (ofN i * dx)%num)) (range 0 nxm)
     ++ map (fun i => (i, cell (dx * ofZ A (Z.of_nat nx - Z.of_nat i))%num)) (range nxm nx))
    (repeat (lit 0 0) nx).

(** lags: i*dx in the first half, (i-nx)*dx in the second *)
Definition lag_lo (i : nat) (d : num) : num := (ofN i * d)%num.
Definition lag_hi (n i : nat) (d : num) : num := (ofZ A (Z.of_nat i - Z.of_nat n) * d)%num.

(** fftcovgrid.cpp:139-204, FFTCovGrid2D. Data in the storage order of Grid2D. *)
Definition FFTCovGrid2D (v : variogram A) (nx : nat) (dx : num) (ny : nat) (dy : num)
    (scaling_x scaling_y : num) : outcome (list num) :=
  let '(sx, sy, _) := FindSmoothingFactors v scaling_x scaling_y (lit 1 0) in
  let apply_x := (scaling_x <? lit 99999 5)%num in
  let apply_y := (scaling_y <? lit 99999 5)%num in
  let nxm := (nx + 1) / 2 in
  let nym := (ny + 1) / 2 in
  let cell i j ddx ddy :=
    (GetIndex2 nx i j,
     apply_smoothing apply_y sy ddy (apply_smoothing apply_x sx ddx (GetCov2 v ddx ddy))) in
  writes
    (flat_map (fun j =>
       map (fun i => cell i j (lag_lo i dx) (lag_lo j dy)) (range 0 nxm)
       ++ map (fun i => cell i j (lag_hi nx i dx) (lag_lo j dy)) (range nxm nx)) (range 0 nym)
     ++ flat_map (fun j =>
       map (fun i => cell i j (lag_hi nx i dx) (lag_hi ny j dy)) (range nxm nx)
       ++ map (fun i => cell i j (lag_lo i dx) (lag_hi ny j dy)) (range 0 nxm)) (range nym ny))
    (repeat (lit 0 0) (nx * ny)).

(** fftcovgrid.cpp:211-338, FFTCovGrid3D. Data in the storage order of Grid. *)
Definition FFTCovGrid3D (v : variogram A) (nx : nat) (dx : num) (ny : nat) (dy : num) (nz : nat) (dz : num)
    (scaling_x scaling_y scaling_z : num) : outcome (list num) :=
  let '(sx, sy, sz) := FindSmoothingFactors v scaling_x scaling_y scaling_z in
  let apply_x := (scaling_x <? lit 99999 5)%num in
  let apply_y := (scaling_y <? lit 99999 5)%num in
  let apply_z := (scaling_z <? lit 99999 5)%num in
  let nxm := (nx + 1) / 2 in
  let nym := (ny + 1) / 2 in
  let nzm := (nz + 1) / 2 in
  let cell i j k ddx ddy ddz :=
    (GetIndex3 nx ny i j k,
     apply_smoothing apply_z sz ddz
       (apply_smoothing apply_y sy ddy
         (apply_smoothing apply_x sx ddx (GetCov3 v ddx ddy ddz)))) in
  writes
    (flat_map (fun k => flat_map (fun j =>
       map (fun i => cell i j k (lag_lo i dx) (lag_lo j dy) (lag_lo k dz)) (range 0 nxm)
       ++ map (fun i => cell i j k (lag_hi nx i dx) (lag_lo j dy) (lag_lo k dz)) (range nxm nx))
         (range 0 nym)) (range 0 nzm)
     ++ flat_map (fun k => flat_map (fun j =>
       map (fun i => cell i j k (lag_hi nx i dx) (lag_hi ny j dy) (lag_lo k dz)) (range nxm nx)
       ++ map (fun i => cell i j k (lag_lo i dx) (lag_hi ny j dy) (lag_lo k dz)) (range 0 nxm))
         (range nym ny)) (range 0 nzm)
     ++ flat_map (fun k => flat_map (fun j =>
       map (fun i => cell i j k (lag_lo i dx) (lag_lo j dy) (lag_hi nz k dz)) (range 0 nxm)
       ++ map (fun i => cell i j k (lag_hi nx i dx) (lag_lo j dy) (lag_hi nz k dz)) (range nxm nx))
         (range 0 nym)) (range nzm nz)
     ++ flat_map (fun k => flat_map (fun j =>
       map (fun i => cell i j k (lag_lo i dx) (lag_hi ny j dy) (lag_hi nz k dz)) (range 0 nxm)
       ++ map (fun i => cell i j k (lag_hi nx i dx) (lag_hi ny j dy) (lag_hi nz k dz)) (range nxm nx))
         (range nym ny)) (range nzm nz))
    (repeat (lit 0 0) (nx * ny * nz)).

End CovGrid.
