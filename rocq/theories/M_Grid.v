(** Model of the index arithmetic of src/nrlib/grid/grid2d.hpp and grid.hpp.
    Grid data is a list in storage order. Sizes and indices are natural numbers (size_t without wrap; M_Large.v has the sizes and indices
    with wrapping and C94 says when this makes no difference). *)
From Coq Require Import ZArith List Bool.
From Verif Require Import Base.
Import ListNotations.
Open Scope nat_scope.

(** grid2d.hpp:160-166, Grid2D::GetIndex *)
Definition GetIndex2 (ni i j : nat) : nat := i + j * ni.
(** grid2d.hpp:169-175, Grid2D::GetIJ *)
Definition GetIJ (ni nj index : nat) : nat * nat :=
  let i := index mod ni in
  (i, (index - i) / ni mod nj).
(** grid2d.hpp:179-186, Grid2D::IsValidIndex (int arguments) *)
Definition IsValidIndex (ni nj : nat) (i j : Z) : bool :=
  ((0 <=? i) && (i <? Z.of_nat ni) && (0 <=? j) && (j <? Z.of_nat nj))%Z.

(** grid.hpp:188-193, Grid::GetIndex *)
Definition GetIndex3 (ni nj i j k : nat) : nat := i + j * ni + k * ni * nj.
(** grid.hpp:196-203, Grid::GetIJK *)
Definition GetIJK (ni nj index : nat) : nat * nat * nat :=
  let i := index mod ni in
  let j := (index - i) / ni mod nj in
  (i, j, (index - j * ni - i) / ni / nj).
