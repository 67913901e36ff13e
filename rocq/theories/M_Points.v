(** Model of the functions of two points of src/nrlib/variogram/variogram.hpp. *)
From Coq Require Import ZArith.
From Verif Require Import Base Arith M_Variogram.
Open Scope num_scope.

Section Points.
Context {A : Arith}.
(** variogram.hpp:82-87, GetCorrpoint in 3D, 2D and 1D *)
Definition GetCorrpoint3 (v : variogram A) x1 y1 z1 x2 y2 z2 := GetCorr3 v (x2 - x1) (y2 - y1) (z2 - z1).
Definition GetCorrpoint2 (v : variogram A) x1 y1 x2 y2 := GetCorr2 v (x2 - x1) (y2 - y1).
Definition GetCorrpoint1 (v : variogram A) x1 x2 := GetCorr1 v (x2 - x1).
(** variogram.hpp:101-106, GetCovpoint in 3D, 2D and 1D *)
Definition GetCovpoint3 (v : variogram A) x1 y1 z1 x2 y2 z2 := var v * GetCorr3 v (x2 - x1) (y2 - y1) (z2 - z1).
Definition GetCovpoint2 (v : variogram A) x1 y1 x2 y2 := var v * GetCorr2 v (x2 - x1) (y2 - y1).
Definition GetCovpoint1 (v : variogram A) x1 x2 := var v * GetCorr1 v (x2 - x1).
End Points.
