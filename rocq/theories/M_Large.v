(** The arrays of a simulation with the 64-bit arithmetic of their sizes and indices. M_Grid.v, M_Fft.v and M_Field.v compute sizes and
    indices as natural numbers; here every product and sum that the code forms in size_t wraps. Only sizes and indices are modelled, not
    the values stored. *)
From Coq Require Import ZArith List Bool.
From Verif Require Import Base.
Import ListNotations.
Open Scope Z_scope.

(** size_t arithmetic on a 64-bit machine *)
Definition mul (a b : Z) : Z := u64 (a * b).
Definition add (a b : Z) : Z := u64 (a + b).

(** What a call does with memory, in order: [Vector n w] makes a std::vector of n elements of w bytes, which throws std::length_error when
    this is more than 2^63 - 1 bytes; [Access bytes w e] reads or writes the elements of w bytes with an index e in a block that was asked
    for with that number of bytes. That there may be no memory for a block is in M_Alloc.v. *)
Inductive event : Type :=
| Vector (n w : Z)
| Access (bytes w : Z) (touched : Z -> Prop).

(** for (e = 0; e < n; e++) *)
Definition below (n e : Z) : Prop := 0 <= e < n.
(** for (j < nj) for (i < ni) ... f(i, j), and the same with k *)
Definition each2 (ni nj : Z) (f : Z -> Z -> Z) (e : Z) : Prop :=
  exists i j, 0 <= i < ni /\ 0 <= j < nj /\ e = f i j.
Definition each3 (ni nj nk : Z) (f : Z -> Z -> Z -> Z) (e : Z) : Prop :=
  exists i j k, 0 <= i < ni /\ 0 <= j < nj /\ 0 <= k < nk /\ e = f i j k.
(** the counter of FFTGrid2D::Initialize and FFTGrid3D::Initialize, a size_t increased [n] times *)
Definition counted (n e : Z) : Prop := exists c, 0 <= c < n /\ e = u64 c.

Section Three.
Variables ni nj nk : Z.
(** ni_tot_ * nj_tot_ * nk_tot_ and GetComplexNI() * GetComplexNJ() * GetComplexNK() (fftgrid3d.hpp:115-117, 208-217, 233, 246) *)
Definition n_real3 : Z := mul (mul ni nj) nk.
Definition n_complex3 : Z := mul (mul (ni / 2 + 1) nj) nk.
(** the arguments of fftw_malloc (fftgrid3d.hpp:208-212) *)
Definition real_bytes3 : Z := mul n_real3 8.
Definition complex_bytes3 : Z := mul n_complex3 16.
(** fftgrid3d.hpp:196-220, the constructor *)
Definition FFTGrid3D_new : list event := [Access real_bytes3 8 (below n_real3); Access complex_bytes3 16 (below n_complex3)].
(** grid.hpp:104-110: data_(ni*nj*nk, val) *)
Definition Grid_new : list event := [Vector n_real3 8].
(** grid.hpp:188-193, GetIndex, for all cells *)
Definition Grid_index (i j k : Z) : Z := add (add i (mul j ni)) (mul (mul k ni) nj).
Definition Grid_cells : event := Access (8 * n_real3) 8 (each3 ni nj nk Grid_index).
(** fftgrid3d.hpp:296-308 *)
Definition Initialize3_at : list event := [Grid_cells; Access real_bytes3 8 (counted (ni * nj * nk))].
(** fftgrid3d.hpp:233-237, 246-254: the loops that scale *)
Definition scale3 : list event := [Access real_bytes3 8 (below n_real3)].
(** fftgrid3d.cpp:27-49: FFTW is told ni, nj, nk and uses every cell of both arrays (it computes in ptrdiff_t) *)
Definition fftw3 : list event := [Access real_bytes3 8 (below (ni * nj * nk)); Access complex_bytes3 16 (below ((ni / 2 + 1) * nj * nk))].
(** the loops over the spectrum, gaussianfield.cpp:158-162, 185-186 *)
Definition spectrum3 : list event := [Access complex_bytes3 16 (below n_complex3)].
(** fftgrid3d.hpp:373-385, GetRealGrid *)
Definition GetRealGrid3_at (nx ny nz : Z) : list event :=
  [Vector (mul (mul nx ny) nz) 8;
   Access real_bytes3 8 (each3 nx ny nz (fun i j k => add (add i (mul ni j)) (mul (mul ni nj) k)));
   Access (8 * mul (mul nx ny) nz) 8 (each3 nx ny nz (fun i j k => add (add i (mul j nx)) (mul (mul k nx) ny)))].
End Three.

(** gaussianfield.cpp:122-190, gaussfft.cpp:205-222: the arrays of a 3D call with nx, ny, nz cells and a padded grid of ni, nj, nk. The
    vector is copied by GetCov (fftcovgrid.hpp), by push_back and by GetStorage. *)
Definition arrays3 (nx ny nz ni nj nk : Z) : list event :=
  FFTGrid3D_new ni nj nk
  ++ Grid_new ni nj nk ++ [Grid_cells ni nj nk] ++ Grid_new ni nj nk
  ++ FFTGrid3D_new ni nj nk ++ Initialize3_at ni nj nk ++ fftw3 ni nj nk ++ spectrum3 ni nj nk
  ++ Grid_new ni nj nk ++ [Grid_cells ni nj nk]
  ++ Initialize3_at ni nj nk ++ scale3 ni nj nk ++ fftw3 ni nj nk ++ spectrum3 ni nj nk ++ fftw3 ni nj nk ++ scale3 ni nj nk
  ++ GetRealGrid3_at ni nj nk nx ny nz
  ++ [Vector (mul (mul nx ny) nz) 8; Vector (mul (mul nx ny) nz) 8].

Section Two.
Variables ni nj : Z.
(** fftgrid2d.hpp:176-199: one element more than the grid has is asked for *)
Definition n_real2 : Z := mul ni nj.
Definition n_complex2 : Z := mul (ni / 2 + 1) nj.
Definition real_bytes2 : Z := mul (add 1 n_real2) 8.
Definition complex_bytes2 : Z := mul n_complex2 16.
Definition FFTGrid2D_new : list event := [Access real_bytes2 8 (below n_real2); Access complex_bytes2 16 (below n_complex2)].
(** grid2d.hpp:95-100, 159-166 *)
Definition Grid2D_new : list event := [Vector n_real2 8].
Definition Grid2D_cells : event := Access (8 * n_real2) 8 (each2 ni nj (fun i j => add i (mul j ni))).
(** fftgrid2d.hpp:252-263 *)
Definition Initialize2_at : list event := [Grid2D_cells; Access real_bytes2 8 (counted (ni * nj))].
(** fftgrid2d.hpp:210-216, 224-232 *)
Definition scale2 : list event := [Access real_bytes2 8 (below n_real2)].
(** fftgrid2d.cpp:27-49 *)
Definition fftw2 : list event := [Access real_bytes2 8 (below (ni * nj)); Access complex_bytes2 16 (below ((ni / 2 + 1) * nj))].
(** gaussianfield.cpp:268-272, 294-295 *)
Definition spectrum2 : list event := [Access complex_bytes2 16 (below n_complex2)].
(** fftgrid2d.hpp:292-303 *)
Definition GetRealGrid2_at (nx ny : Z) : list event :=
  [Vector (mul nx ny) 8; Access real_bytes2 8 (each2 nx ny (fun i j => add i (mul ni j)));
   Access (8 * mul nx ny) 8 (each2 nx ny (fun i j => add i (mul j nx)))].
End Two.
(** gaussianfield.cpp:246-300, gaussfft.cpp:173-188 *)
Definition arrays2 (nx ny ni nj : Z) : list event :=
  FFTGrid2D_new ni nj
  ++ Grid2D_new ni nj ++ [Grid2D_cells ni nj] ++ Grid2D_new ni nj
  ++ FFTGrid2D_new ni nj ++ Initialize2_at ni nj ++ fftw2 ni nj ++ spectrum2 ni nj
  ++ Grid2D_new ni nj ++ [Grid2D_cells ni nj]
  ++ Initialize2_at ni nj ++ scale2 ni nj ++ fftw2 ni nj ++ spectrum2 ni nj ++ fftw2 ni nj ++ scale2 ni nj
  ++ GetRealGrid2_at ni nj nx ny ++ [Vector (mul nx ny) 8; Vector (mul nx ny) 8].

(** fft.hpp:79-116, ComputeFFT1D without padding, of [n] values: two buffers, and the vector of the result, filled from both ends *)
Definition ComputeFFT1D_at (n : Z) : list event :=
  let complex_size := n / 2 + 1 in
  [Access (mul n 8) 8 (below n); Access (mul complex_size 16) 16 (below complex_size); Vector n 16;
   Access (16 * n) 16 (fun e => e = 0 \/ exists i, 1 <= i < complex_size /\ (e = i \/ e = u64 (n - i)))].
(** fft.hpp:118-146 *)
Definition ComputeFFTInv1D_at (n : Z) : list event := [Access (mul n 16) 16 (below n); Access (mul n 8) 8 (below n); Access (8 * n) 8 (below n)].
(** gaussfft.cpp:145-162, gaussianfield.cpp:302-349 *)
Definition arrays1 (nx n : Z) : list event :=
  [Vector nx 8; Vector n 8; Access (8 * n) 8 (below n); Vector n 8; Vector n 8; Access (8 * n) 8 (below n)]
  ++ ComputeFFT1D_at n ++ ComputeFFT1D_at n ++ [Vector n 16; Access (16 * n) 16 (below n); Vector n 8]
  ++ ComputeFFTInv1D_at n ++ [Access (8 * nx) 8 (below nx); Access (8 * n) 8 (below nx)].

(** The arrays of a call with [cells i] cells and a padded grid of [grid i] cells in direction i. Simplified: sizes of the padded grid are
    below 2^31, so that the casts to int leave them as they are; for larger ones see M_Field.narrow. *)
Definition arrays (dim : nat) (cells grid : nat -> Z) : list event :=
  match dim with
  | 1%nat => arrays1 (cells 0%nat) (grid 0%nat)
  | 2%nat => arrays2 (cells 0%nat) (cells 1%nat) (grid 0%nat) (grid 1%nat)
  | _ => arrays3 (cells 0%nat) (cells 1%nat) (cells 2%nat) (grid 0%nat) (grid 1%nat) (grid 2%nat)
  end.
