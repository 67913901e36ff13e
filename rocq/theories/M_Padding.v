(** Model of the padding rules, src/nrlib/variogram/gaussianfield.cpp:43-88,
    and of simulation_size, src/gaussfft.cpp:27-52. *)
From Coq Require Import ZArith List Bool.
From Verif Require Import Base Arith M_Variogram.
Import ListNotations.
Open Scope Z_scope.

Section Padding.
Context {A : Arith}.

(** gaussianfield.cpp:43-51. Both static_cast<int> are undefined when the value does not
    fit an int; the int sum overflows when the maximum is INT_MAX; the cast of a negative int to
    size_t wraps. [grid_size] is converted to double by the usual arithmetic conversions. *)
Definition FindGaussianFieldPadding (v : variogram A) (grid_size : Z) (range step : num A)
  : outcome Z :=
  let* a := to_int (GetMinimumRangeToGridRatio v * range / step - ofZ A grid_size)%num in
  let* b := to_int (range / step)%num in
  let m := Z.max a b in
  if m =? 2 ^ 31 - 1 then UB SignedOverflow else Ok (u64 (m + 1)).

(** gaussianfield.cpp:53-88 *)
Definition FindNDimPadding (v : variogram A) (nx : Z) (dx : num A) (ny : Z) (dy : num A)
    (nz : Z) (dz : num A) : outcome (list Z) :=
  if ny <=? 1 then
    let* px := FindGaussianFieldPadding v nx (range_x v) dx in
    Ok [px]
  else
    let rx := fmax (range_x v) (range_y v) in
    let ry := if (azimuth v =? lit A 0 0)%num then range_y v else rx in
    if nz <=? 1 then
      let* px := FindGaussianFieldPadding v nx rx dx in
      let* py := FindGaussianFieldPadding v ny ry dy in
      Ok [px; py]
    else
      let rz := range_z v in
      let* px := FindGaussianFieldPadding v nx rx dx in
      let* py := FindGaussianFieldPadding v ny ry dy in
      let* pz := FindGaussianFieldPadding v nz rz dz in
      Ok [px; py; pz].

(** gaussfft.cpp:27-52 (size_t addition wraps) *)
Definition FindGridSizeAfterPadding (v : variogram A) (nx : Z) (dx : num A) (ny : Z) (dy : num A)
    (nz : Z) (dz : num A) : outcome (list Z) :=
  let* out := FindNDimPadding v nx dx ny dy nz dz in
  Ok (match out with
      | [px] => [u64 (px + nx)]
      | [px; py] => [u64 (px + nx); u64 (py + ny)]
      | [px; py; pz] => [u64 (px + nx); u64 (py + ny); u64 (pz + nz)]
      | _ => out    (* no other length is produced *)
      end).

End Padding.
