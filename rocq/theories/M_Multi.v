(** Model of the C++ overloads of Simulate1D/2D/3DGaussianField that the Python module does not reach,
    src/nrlib/variogram/gaussianfield.cpp:96-349: several fields in one call (n_fields), a generator supplied by the caller (rg),
    and the short 2D overload. In the loops over the fields the grids "noise" and "fftgrid" are the same objects from one field to
    the next, so their contents are part of the loop state here (complex_data_ is not: FFTW's r2c transform writes all of it). *)
From Coq Require Import ZArith List Bool.
From Verif Require Import Base Arith M_Variogram M_Padding M_FftSize M_Grid M_CovGrid M_Fft M_Dsfmt M_Random M_Field.
Import ListNotations.
Open Scope nat_scope.

Section Multi.
Context {L : Lib}.
Notation num := (num L).
Notation cplx := (cplx L).
Notation lit := (lit L).
Variable rec : recursion.
Variable fuel : nat.

(** fftgrid2d.hpp:252-263, Initialize over the present contents [real] of real_data_ *)
Definition refill2 (ni nj : nat) (values real : list num) : outcome (list num) :=
  let* vs := mapM (fun '(j, i) => rd values (GetIndex2 ni i j)) (list_prod (seq 0 nj) (seq 0 ni)) in
  writes (combine (seq 0 (ni * nj)) vs) real.
(** fftgrid3d.hpp:296-308 *)
Definition refill3 (ni nj nk : nat) (values real : list num) : outcome (list num) :=
  let* vs := mapM (fun '(k, (j, i)) => rd values (GetIndex3 ni nj i j k))
                  (list_prod (seq 0 nk) (list_prod (seq 0 nj) (seq 0 ni))) in
  writes (combine (seq 0 (ni * nj * nk)) vs) real.

(** gaussianfield.cpp:283-285 over the present contents of the noise grid *)
Definition new_noise2 (ni nj : nat) (xs noise : list num) : outcome (list num) :=
  writes (combine (map (fun '(i, j) => GetIndex2 ni i j) (list_prod (seq 0 ni) (seq 0 nj))) xs) noise.
(** gaussianfield.cpp:171-174 *)
Definition new_noise3 (ni nj nk : nat) (xs noise : list num) : outcome (list num) :=
  writes (combine (map (fun '(i, (j, k)) => GetIndex3 ni nj i j k)
                       (list_prod (seq 0 ni) (list_prod (seq 0 nj) (seq 0 nk)))) xs) noise.

(** gaussianfield.cpp:245-263 (2D) and 133-155 (3D): the filter, computed once for all fields *)
Definition filter2 (v : variogram L) (nx_tot ny_tot : nat) (dx dy sx sy : num) : outcome (list cplx) :=
  let* cov := FFTCovGrid2D v nx_tot dx ny_tot dy sx sy in
  let* filter_real := Initialize2 nx_tot ny_tot cov in
  let* filter := DoFFT2 nx_tot ny_tot false filter_real in
  Ok (map clip_sqrt filter).
Definition filter3 (v : variogram L) (nx_tot ny_tot nz_tot : nat) (dx dy dz sx sy sz : num) : outcome (list cplx) :=
  let* cov := FFTCovGrid3D v nx_tot dx ny_tot dy nz_tot dz sx sy sz in
  let* filter_real := Initialize3 nx_tot ny_tot nz_tot cov in
  let* filter := DoFFT3 nx_tot ny_tot nz_tot false filter_real in
  Ok (map clip_sqrt filter).

(** gaussianfield.cpp:282-298, the loop "for k < n_fields". [noise] and [real] are the contents of the two grids when an iteration
    begins; the values read by "fftgrid.GetRealGrid()" are what DoInverseFFT left in real_data_. *)
Fixpoint loop2 (n : nat) (nx ny nxt nyt : nat) (filter : list cplx) (noise real : list num) (rg : dsfmt)
  : outcome (list (list num) * dsfmt) :=
  match n with
  | O => Ok ([], rg)
  | S n =>
      let* (xs, rg) := draws (Unif01 (A := L) rec) fuel (nxt * nyt) rg in
      let* noise := new_noise2 nxt nyt xs noise in
      let* real := refill2 nxt nyt noise real in
      let* complex_data := DoFFT2 nxt nyt true real in
      let* prod := mapM (fun i => let* c := rd complex_data i in let* f := rd filter i in Ok (cmul c f))
                        (seq 0 ((nxt / 2 + 1) * nyt)) in
      let* real := DoInverseFFT2 nxt nyt true prod in
      let* out := GetRealGrid2 nx ny nxt real in
      let* (outs, rg) := loop2 n nx ny nxt nyt filter noise real rg in
      Ok (out :: outs, rg)
  end.

(** gaussianfield.cpp:170-190 *)
Fixpoint loop3 (n : nat) (nx ny nz nxt nyt nzt : nat) (filter : list cplx) (noise real : list num) (d : dsfmt)
  : outcome (list (list num) * dsfmt) :=
  match n with
  | O => Ok ([], d)
  | S n =>
      let* (xs, d) := draws (Unif01 (A := L) rec) fuel (nxt * nyt * nzt) d in
      let* noise := new_noise3 nxt nyt nzt xs noise in
      let* real := refill3 nxt nyt nzt noise real in
      let* complex_data := DoFFT3 nxt nyt nzt true real in
      let* prod := mapM (fun i => let* c := rd complex_data i in let* f := rd filter i in Ok (cmul c f))
                        (seq 0 ((nxt / 2 + 1) * nyt * nzt)) in
      let* real := DoInverseFFT3 nxt nyt nzt true prod in
      let* out := GetRealGrid3 nx ny nz nxt nyt real in
      let* (outs, d) := loop3 n nx ny nz nxt nyt nzt filter noise real d in
      Ok (out :: outs, d)
  end.

(** "if (rg == NULL) { rg = new RandomGenerator(); rg->Initialize(Random::DrawUint32()); }", gaussianfield.cpp:278-281, 322-325 *)
Definition generator (rg : option dsfmt) (st : rstate) : dsfmt * rstate :=
  match rg with Some d => (d, st) | None => new_generator rec st end.

(** gaussianfield.cpp:96-191. The result lists the grids pushed to grid_out (a C++ int [n] of 0 or less pushes none). *)
Definition Fields3D (v : variogram L) (nx : Z) (dx : num) (ny : Z) (dy : num) (nz : Z) (dz : num) (n : Z)
    (padx pady padz : Z) (sx sy sz : num) (st : rstate) : outcome (list (list num) * rstate) :=
  let* (nxt, nyt, nzt) := sizes3 v nx dx ny dy nz dz padx pady padz in
  let* nxt := narrow nxt in
  let* nyt := narrow nyt in
  let* nzt := narrow nzt in
  let* filter := filter3 v nxt nyt nzt dx dy dz sx sy sz in
  let* (outs, d) := loop3 (Z.to_nat n) (Z.to_nat nx) (Z.to_nat ny) (Z.to_nat nz) nxt nyt nzt filter
                      (repeat (lit 0 0) (nxt * nyt * nzt)) (repeat (lit 0 0) (nxt * nyt * nzt)) (gen st) in
  Ok (outs, mkRstate (is_init st) (start_seed st) d (leaked st)).

(** gaussianfield.cpp:224-300. Returns the grids and the generator used (the caller's, if they gave one) with the new global state. *)
Definition Fields2D (v : variogram L) (nx : Z) (dx : num) (ny : Z) (dy : num) (n : Z) (rg : option dsfmt)
    (padx pady : Z) (sx sy : num) (st : rstate) : outcome (list (list num) * (dsfmt * rstate)) :=
  let* (nxt, nyt) := sizes2 v nx dx ny dy padx pady in
  let* nxt := narrow nxt in
  let* nyt := narrow nyt in
  let* filter := filter2 v nxt nyt dx dy sx sy in
  let '(rg, st) := generator rg st in
  let* (outs, rg) := loop2 (Z.to_nat n) (Z.to_nat nx) (Z.to_nat ny) nxt nyt filter
                       (repeat (lit 0 0) (nxt * nyt)) (repeat (lit 0 0) (nxt * nyt)) rg in
  Ok (outs, (rg, st)).

(** gaussianfield.cpp:302-349. [cells] is grid_out.size(): that many values are copied, whatever nx is (346-347). *)
Definition Field1D (v : variogram L) (nx : Z) (dx : num) (cells : nat) (rg : option dsfmt) (padx : Z) (sx : num) (st : rstate)
  : outcome (list num * (dsfmt * rstate)) :=
  let* nxp := sizes1 v nx dx padx in
  let* nxp := narrow nxp in
  let '(rg, st) := generator rg st in
  let* (noise, rg) := draws (Unif01 (A := L) rec) fuel nxp rg in
  let* out := field1d v cells nxp dx sx noise in
  Ok (out, (rg, st)).

(** gaussianfield.cpp:194-221: the generator starts from Random's start seed, if there is one; else rg is NULL. The object made by
    "new RandomGenerator(seed)" (randomgenerator.cpp:39-44) is not deleted. Defaults of the other parameters: gaussianfield.hpp:66-76
    (padding -1, scaling 1). "grids[0]" of the one field. *)
Definition ShortField2D (v : variogram L) (nx : Z) (dx : num) (ny : Z) (dy : num) (st : rstate) : outcome (list num * rstate) :=
  let '(rg, st) := match GetStartSeed st with
                   | Ok s => (Some (init_gen_rand s), mkRstate (is_init st) (start_seed st) (gen st) (S (leaked st)))
                   | _ => (None, st)
                   end in
  let* (grids, (_, st)) := Fields2D v nx dx ny dy 1 rg (-1) (-1) (lit 1 0) (lit 1 0) st in
  let* grid := rd grids 0 in
  Ok (grid, st).

End Multi.
