(** Model of Simulate1D/2D/3DGaussianField, src/nrlib/variogram/gaussianfield.cpp:96-349, and of the dispatch in
    src/gaussfft.cpp:96-223. Only the overloads the Python module reaches (n_fields = 1, rg = NULL). *)
From Coq Require Import ZArith List Bool.
From Verif Require Import Base Arith M_Variogram M_Padding M_FftSize M_Grid M_CovGrid M_Fft M_Dsfmt M_Random.
Import ListNotations.
Open Scope nat_scope.

Section Field.
Context {L : Lib}.
Notation num := (num L).
Notation cplx := (cplx L).
Notation lit := (lit L).

(** gaussianfield.cpp:148-152, 257-261, 334-338: real = max(real,0), imag = 0, sqrt *)
Definition clip_sqrt (z : cplx) : cplx := csqrt (fmax (fst z) (lit 0 0), lit 0 0).

(** The field as a function of the noise, 1D: gaussianfield.cpp:320, 328-348. [nxp] is the padded size. *)
Definition field1d (v : variogram L) (nx nxp : nat) (dx sx : num) (noise : list num) : outcome (list num) :=
  let* cov := FFTCovGrid1D v nxp dx sx in
  let* cov_fft := ComputeFFT1D cov false 0 in
  let* noise_fft := ComputeFFT1D noise true 0 in
  let cov_fft := map clip_sqrt cov_fft in
  let* convolve := mapM (fun i => let* c := rd cov_fft i in let* n := rd noise_fft i in Ok (cmul c n))
                        (seq 0 (length cov_fft)) in
  let* tmp := ComputeFFTInv1D convolve (repeat (lit 0 0) nxp) true in
  mapM (fun i => rd tmp i) (seq 0 nx).

(** 2D: gaussianfield.cpp:245-266, 287-297; [noise] is the data of the Grid2D noise. *)
Definition field2d (v : variogram L) (nx ny nx_tot ny_tot : nat) (dx dy sx sy : num) (noise : list num)
  : outcome (list num) :=
  let* cov := FFTCovGrid2D v nx_tot dx ny_tot dy sx sy in
  let* filter_real := Initialize2 nx_tot ny_tot cov in
  let* filter := DoFFT2 nx_tot ny_tot false filter_real in
  let filter := map clip_sqrt filter in
  let* real_data := Initialize2 nx_tot ny_tot noise in
  let* complex_data := DoFFT2 nx_tot ny_tot true real_data in
  let* prod := mapM (fun i => let* c := rd complex_data i in let* f := rd filter i in Ok (cmul c f))
                    (seq 0 ((nx_tot / 2 + 1) * ny_tot)) in
  let* real_data := DoInverseFFT2 nx_tot ny_tot true prod in
  GetRealGrid2 nx ny nx_tot real_data.

(** 3D: gaussianfield.cpp:133-155, 176-188 *)
Definition field3d (v : variogram L) (nx ny nz nx_tot ny_tot nz_tot : nat) (dx dy dz sx sy sz : num)
    (noise : list num) : outcome (list num) :=
  let* cov := FFTCovGrid3D v nx_tot dx ny_tot dy nz_tot dz sx sy sz in
  let* filter_real := Initialize3 nx_tot ny_tot nz_tot cov in
  let* filter := DoFFT3 nx_tot ny_tot nz_tot false filter_real in
  let filter := map clip_sqrt filter in
  let* real_data := Initialize3 nx_tot ny_tot nz_tot noise in
  let* complex_data := DoFFT3 nx_tot ny_tot nz_tot true real_data in
  let* prod := mapM (fun i => let* c := rd complex_data i in let* f := rd filter i in Ok (cmul c f))
                    (seq 0 ((nx_tot / 2 + 1) * ny_tot * nz_tot)) in
  let* real_data := DoInverseFFT3 nx_tot ny_tot nz_tot true prod in
  GetRealGrid3 nx ny nz nx_tot ny_tot real_data.

(** gaussianfield.cpp:283-285: for i, for j: noise(i,j) = Norm01() *)
Definition noise_grid2 (ni nj : nat) (xs : list num) : outcome (list num) :=
  writes (combine (map (fun '(i, j) => GetIndex2 ni i j) (list_prod (seq 0 ni) (seq 0 nj))) xs)
         (repeat (lit 0 0) (ni * nj)).
(** gaussianfield.cpp:171-174: for i, for j, for k: noise(i,j,k) = Norm01() *)
Definition noise_grid3 (ni nj nk : nat) (xs : list num) : outcome (list num) :=
  writes (combine (map (fun '(i, (j, k)) => GetIndex3 ni nj i j k)
                       (list_prod (seq 0 ni) (list_prod (seq 0 nj) (seq 0 nk)))) xs)
         (repeat (lit 0 0) (ni * nj * nk)).

(** static_cast<int>(n_tot) before the covariance grid is built (gaussianfield.cpp:134-138, 246-248, 320). A size of 2^31 or
    more would wrap to another (possibly negative) int; the model stops with [TooLarge] there. *)
Definition narrow (n : Z) : outcome nat := if (n <? 2 ^ 31)%Z then Ok (Z.to_nat n) else Throw TooLarge.

(** "(padding < 0) ? default_padding[i] : padding", an int converted to size_t *)
Definition desired (padding : Z) (default : list Z) (i : nat) : outcome Z :=
  if (padding <? 0)%Z then rd default i else Ok padding.

(** The padded sizes: gaussianfield.cpp:310-318 (1D), 238-249 + fftgrid2d.hpp:178-179 (2D), 112-131 + fftgrid3d.hpp:201-203 (3D).
    size_t additions wrap. Default step -1 and sizes 1 of the unused dimensions: gaussianfield.hpp. *)
Definition sizes1 (v : variogram L) (nx : Z) (dx : num) (padx : Z) : outcome Z :=
  let* d := FindNDimPadding v nx dx 1 (lit (-1) 0) 1 (lit (-1) 0) in
  let* px := desired padx d 0 in
  FindNewSizeWithPadding (clogf L) (oor L) (u64 (nx + px)) false.
Definition sizes2 (v : variogram L) (nx : Z) (dx : num) (ny : Z) (dy : num) (padx pady : Z) : outcome (Z * Z) :=
  let* d := FindNDimPadding v nx dx ny dy 1 (lit (-1) 0) in
  let* px := desired padx d 0 in
  let* py := desired pady d 1 in
  let* nxt := FindNewSizeWithPadding (clogf L) (oor L) (u64 (nx + px)) true in
  let* nyt := FindNewSizeWithPadding (clogf L) (oor L) (u64 (ny + py)) false in
  Ok (nxt, nyt).
Definition sizes3 (v : variogram L) (nx : Z) (dx : num) (ny : Z) (dy : num) (nz : Z) (dz : num) (padx pady padz : Z)
  : outcome (Z * Z * Z) :=
  let* d := FindNDimPadding v nx dx ny dy nz dz in
  let* px := desired padx d 0 in
  let* py := desired pady d 1 in
  let* pz := desired padz d 2 in
  let* nxt := FindNewSizeWithPadding (clogf L) (oor L) (u64 (nx + px)) true in
  let* nyt := FindNewSizeWithPadding (clogf L) (oor L) (u64 (ny + py)) false in
  let* nzt := FindNewSizeWithPadding (clogf L) (oor L) (u64 (nz + pz)) false in
  Ok (nxt, nyt, nzt).

Variable rec : recursion.
Variable fuel : nat.

(** gaussianfield.cpp:302-349 and gaussfft.cpp:145-162. An outcome other than Ok leaves the random state as it was: everything
    that can fail before the draws comes before them in the code too, except that memory errors of the later steps and
    [NoFuel] end the modelled run anyway. The covariance grid is built before the seed is drawn in the code; as a pure function
    it is computed inside [field1d] here. *)
Definition Simulate1D (v : variogram L) (nx : Z) (dx : num) (padx : Z) (sx : num) (st : rstate)
  : outcome (list num * rstate) :=
  let* nxp := sizes1 v nx dx padx in
  let* nxp := narrow nxp in
  let '(rg, st) := new_generator rec st in
  let* (noise, _) := draws (Unif01 rec) fuel nxp rg in
  let* out := field1d v (Z.to_nat nx) nxp dx sx noise in
  Ok (out, st).

(** gaussianfield.cpp:224-300 and gaussfft.cpp:165-189 *)
Definition Simulate2D (v : variogram L) (nx : Z) (dx : num) (ny : Z) (dy : num) (padx pady : Z) (sx sy : num) (st : rstate)
  : outcome (list num * rstate) :=
  let* (nxt, nyt) := sizes2 v nx dx ny dy padx pady in
  let* nxt := narrow nxt in
  let* nyt := narrow nyt in
  let '(rg, st) := new_generator rec st in
  let* (xs, _) := draws (Unif01 rec) fuel (nxt * nyt) rg in
  let* noise := noise_grid2 nxt nyt xs in
  let* out := field2d v (Z.to_nat nx) (Z.to_nat ny) nxt nyt dx dy sx sy noise in
  Ok (out, st).

(** gaussianfield.cpp:96-191 and gaussfft.cpp:192-223: draws straight from the global generator *)
Definition Simulate3D (v : variogram L) (nx : Z) (dx : num) (ny : Z) (dy : num) (nz : Z) (dz : num)
    (padx pady padz : Z) (sx sy sz : num) (st : rstate) : outcome (list num * rstate) :=
  let* (nxt, nyt, nzt) := sizes3 v nx dx ny dy nz dz padx pady padz in
  let* nxt := narrow nxt in
  let* nyt := narrow nyt in
  let* nzt := narrow nzt in
  let* (xs, d) := draws (Unif01 rec) fuel (nxt * nyt * nzt) (gen st) in
  let st := mkRstate (is_init st) (start_seed st) d (leaked st) in
  let* noise := noise_grid3 nxt nyt nzt xs in
  let* out := field3d v (Z.to_nat nx) (Z.to_nat ny) (Z.to_nat nz) nxt nyt nzt dx dy dz sx sy sz noise in
  Ok (out, st).

(** gaussfft.cpp:128-138, the choice of dimension *)
Definition dimension (ny : Z) (dy : num) (nz : Z) (dz : num) : nat :=
  if ((ny <=? 1)%Z || (dy <? lit 0 0)%num)%bool then 1
  else if ((nz <=? 1)%Z || (dz <? lit 0 0)%num)%bool then 2
  else 3.

(** gaussfft.cpp:108-142 after the check that the generator is initialised *)
Definition SimulateAny (v : variogram L) (nx : Z) (dx : num) (ny : Z) (dy : num) (nz : Z) (dz : num)
    (padx pady padz : Z) (sx sy sz : num) (st : rstate) : outcome (list num * rstate) :=
  match dimension ny dy nz dz with
  | 1 => Simulate1D v nx dx padx sx st
  | 2 => Simulate2D v nx dx ny dy padx pady sx sy st
  | _ => Simulate3D v nx dx ny dy nz dz padx pady padz sx sy sz st
  end.

End Field.
