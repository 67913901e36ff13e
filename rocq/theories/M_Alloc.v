(** A simulate call when memory runs out. The calls of M_Field.v and M_Api.v once more, function by function, with every allocation in the
    place where the code makes it. Simplifications: an allocation of no bytes is counted like any other; FFTW's own working memory, the
    stack and the few bytes of exception objects and short strings are not counted. *)
From Coq Require Import ZArith List Bool.
From Verif Require Import Base Arith M_Variogram M_Padding M_FftSize M_Grid M_CovGrid M_Fft M_Dsfmt M_Random M_Field M_Api.
Import ListNotations.
Open Scope nat_scope.

(** How a piece of code ends: by itself (with an outcome as in the other files); with the exception std::bad_alloc, or the exception
    pybind11 raises when Python has no memory, after which [lost] blocks are allocated that nothing refers to; or by writing through
    the null pointer that fftw_malloc returns when it fails, which nothing checks. *)
Inductive ending (T : Type) : Type :=
| Ended (o : outcome T)
| NoMemory (lost : nat)
| NullWrite.
Arguments Ended {T} o.
Arguments NoMemory {T} lost.
Arguments NullWrite {T}.

(** Code that allocates: it is given the number of allocations that will succeed before one fails, and the module's random state. *)
Definition mem (T : Type) : Type := nat -> rstate -> ending T * nat * rstate.
Definition pure {T} (o : outcome T) : mem T := fun k st => (Ended o, k, st).
Definition andthen {T U} (m : mem T) (f : T -> mem U) : mem U := fun k st =>
  match m k st with
  | (Ended (Ok x), k, st) => f x k st
  | (Ended (Throw e), k, st) => (Ended (Throw e), k, st)
  | (Ended (UB u), k, st) => (Ended (UB u), k, st)
  | (Ended NoFuel, k, st) => (Ended NoFuel, k, st)
  | (NoMemory lost, k, st) => (NoMemory lost, k, st)
  | (NullWrite, k, st) => (NullWrite, k, st)
  end.
Notation "'let!' x ':=' m 'in' k" := (andthen m (fun x => k)) (at level 200, x pattern, m at level 100, k at level 200).

(** operator new and what is built on it (std::vector); [held]: blocks the function holds in plain pointers, which an exception does not
    free *)
Definition new (held : nat) : mem unit := fun k st => match k with O => (NoMemory held, O, st) | S k => (Ended (Ok tt), k, st) end.
Fixpoint news (n : nat) : mem unit := match n with O => pure (Ok tt) | S n => let! _ := new 0 in news n end.
(** fftw_malloc: the result is used without a test *)
Definition fftw_malloc : mem unit := fun k st => match k with O => (NullWrite, O, st) | S k => (Ended (Ok tt), k, st) end.

Section Alloc.
Context {L : Lib}.
Notation num := (num L).
Notation cplx := (cplx L).
Notation lit := (lit L).
Variable rec : recursion.
Variable fuel : nat.

(** fft.hpp:79-116: two buffers, then vOut.resize while both are held in plain pointers *)
Definition ComputeFFT1D_mem (v : list num) (scale_forward : bool) (minPadSize : Z) : mem (list cplx) :=
  match v with
  | [] => pure (ComputeFFT1D v scale_forward minPadSize)
  | _ => let! _ := fftw_malloc in let! _ := fftw_malloc in let! _ := new 2 in pure (ComputeFFT1D v scale_forward minPadSize)
  end.
(** fft.hpp:118-146 *)
Definition ComputeFFTInv1D_mem (vIn : list cplx) (out : list num) (scale_forward : bool) : mem (list num) :=
  match vIn with
  | [] => pure (ComputeFFTInv1D vIn out scale_forward)
  | _ => let! _ := fftw_malloc in let! _ := fftw_malloc in pure (ComputeFFTInv1D vIn out scale_forward)
  end.
(** fftgrid2d.hpp:176-199, fftgrid3d.hpp:196-220: the buffers of a grid; its destructor frees them *)
Definition FFTGrid_mem : mem unit := let! _ := fftw_malloc in fftw_malloc.
(** fftcovgrid.cpp:31-95 and the constructors: the member cov_, the two vectors of three numbers that grow by push_back (three
    allocations each), the copy made by GetCov *)
Definition cov_mem {T} (cov : outcome T) : mem T := let! _ := new 0 in let! _ := news 6 in let! c := pure cov in let! _ := new 0 in pure (Ok c).
(** "rg = new RandomGenerator(); rg->Initialize(Random::DrawUint32());" *)
Definition generator_mem : mem dsfmt := let! _ := new 0 in fun k st => let '(rg, st) := new_generator rec st in (Ended (Ok rg), k, st).

(** gaussfft.cpp:145-162 (values.resize), gaussianfield.cpp:302-349 *)
Definition Simulate1D_mem (v : variogram L) (nx : Z) (dx : num) (padx : Z) (sx : num) : mem (list num) :=
  let! _ := new 0 in
  let! _ := news 1 in
  let! nxp := pure (sizes1 v nx dx padx) in
  let! nxp := pure (narrow nxp) in
  let! cov := cov_mem (FFTCovGrid1D v nxp dx sx) in
  let! rg := generator_mem in
  let! _ := new 0 in
  let! (noise, _) := pure (draws (Unif01 rec) fuel nxp rg) in
  let! cov_fft := ComputeFFT1D_mem cov false 0 in
  let! noise_fft := ComputeFFT1D_mem noise true 0 in
  let! _ := new 0 in
  let cov_fft := map clip_sqrt cov_fft in
  let! convolve := pure (mapM (fun i => let* c := rd cov_fft i in let* n := rd noise_fft i in Ok (cmul c n)) (seq 0 (length cov_fft))) in
  let! _ := new 0 in
  let! tmp := ComputeFFTInv1D_mem convolve (repeat (lit 0 0) nxp) true in
  pure (mapM (fun i => rd tmp i) (seq 0 (Z.to_nat nx))).

(** gaussianfield.cpp:224-300, gaussfft.cpp:165-189. At the end: the grid made by GetRealGrid, the room for it in grid_out and its copy
    there, the copy of its storage. *)
Definition Simulate2D_mem (v : variogram L) (nx : Z) (dx : num) (ny : Z) (dy : num) (padx pady : Z) (sx sy : num) : mem (list num) :=
  let! _ := news 2 in
  let! (nxt, nyt) := pure (sizes2 v nx dx ny dy padx pady) in
  let! _ := FFTGrid_mem in
  let! nxt := pure (narrow nxt) in
  let! nyt := pure (narrow nyt) in
  let! cov := cov_mem (FFTCovGrid2D v nxt dx nyt dy sx sy) in
  let! _ := FFTGrid_mem in
  let! filter_real := pure (Initialize2 nxt nyt cov) in
  let! filter := pure (DoFFT2 nxt nyt false filter_real) in
  let filter := map clip_sqrt filter in
  let! _ := new 0 in
  let! rg := generator_mem in
  let! (xs, _) := pure (draws (Unif01 rec) fuel (nxt * nyt) rg) in
  let! noise := pure (noise_grid2 nxt nyt xs) in
  let! real_data := pure (Initialize2 nxt nyt noise) in
  let! complex_data := pure (DoFFT2 nxt nyt true real_data) in
  let! prod := pure (mapM (fun i => let* c := rd complex_data i in let* f := rd filter i in Ok (cmul c f)) (seq 0 ((nxt / 2 + 1) * nyt))) in
  let! real_data := pure (DoInverseFFT2 nxt nyt true prod) in
  let! _ := new 0 in
  let! out := pure (GetRealGrid2 (Z.to_nat nx) (Z.to_nat ny) nxt real_data) in
  let! _ := news 3 in
  pure (Ok out).

(** the draws of a 3D call from the shared generator *)
Definition shared_draws (n : nat) : mem (list num) := fun k st =>
  match draws (Unif01 rec) fuel n (gen st) with
  | Ok (xs, d) => (Ended (Ok xs), k, mkRstate (is_init st) (start_seed st) d (leaked st))
  | Throw e => (Ended (Throw e), k, st)
  | UB u => (Ended (UB u), k, st)
  | NoFuel => (Ended NoFuel, k, st)
  end.
(** gaussianfield.cpp:96-191, gaussfft.cpp:192-223 *)
Definition Simulate3D_mem (v : variogram L) (nx : Z) (dx : num) (ny : Z) (dy : num) (nz : Z) (dz : num)
    (padx pady padz : Z) (sx sy sz : num) : mem (list num) :=
  let! _ := news 3 in
  let! (nxt, nyt, nzt) := pure (sizes3 v nx dx ny dy nz dz padx pady padz) in
  let! _ := FFTGrid_mem in
  let! nxt := pure (narrow nxt) in
  let! nyt := pure (narrow nyt) in
  let! nzt := pure (narrow nzt) in
  let! cov := cov_mem (FFTCovGrid3D v nxt dx nyt dy nzt dz sx sy sz) in
  let! _ := FFTGrid_mem in
  let! filter_real := pure (Initialize3 nxt nyt nzt cov) in
  let! filter := pure (DoFFT3 nxt nyt nzt false filter_real) in
  let filter := map clip_sqrt filter in
  let! _ := new 0 in
  let! xs := shared_draws (nxt * nyt * nzt) in
  let! noise := pure (noise_grid3 nxt nyt nzt xs) in
  let! real_data := pure (Initialize3 nxt nyt nzt noise) in
  let! complex_data := pure (DoFFT3 nxt nyt nzt true real_data) in
  let! prod := pure (mapM (fun i => let* c := rd complex_data i in let* f := rd filter i in Ok (cmul c f)) (seq 0 ((nxt / 2 + 1) * nyt * nzt))) in
  let! real_data := pure (DoInverseFFT3 nxt nyt nzt true prod) in
  let! _ := new 0 in
  let! out := pure (GetRealGrid3 (Z.to_nat nx) (Z.to_nat ny) (Z.to_nat nz) nxt nyt real_data) in
  let! _ := news 3 in
  pure (Ok out).

(** gaussfft.cpp:128-142: the field, then py::cast: a list, its numbers, the array *)
Definition SimulateAny_mem (v : variogram L) (nx : Z) (dx : num) (ny : Z) (dy : num) (nz : Z) (dz : num)
    (padx pady padz : Z) (sx sy sz : num) : mem (value L) :=
  let! l :=
    match dimension ny dy nz dz with
    | 1 => Simulate1D_mem v nx dx padx sx
    | 2 => Simulate2D_mem v nx dx ny dy padx pady sx sy
    | _ => Simulate3D_mem v nx dx ny dy nz dz padx pady padz sx sy sz
    end in
  let! _ := new 0 in
  let! _ := news (length l) in
  let! _ := new 0 in
  pure (Ok (VArray l)).

(** A call to simulate or advanced.simulate, as [step], in which [k] allocations succeed. Other calls: None. *)
Definition call_mem (now : Z) (c : call L) (k : nat) (st : rstate) : option (ending (value L) * nat * rstate) :=
  match c with
  | CSimulate v d =>
      match args d with
      | Ok (nx, dx, ny, dy, nz, dz) =>
          Some (SimulateAny_mem v nx dx ny dy nz dz (-1) (-1) (-1) (lit 1 0) (lit 1 0) (lit 1 0) k (ensure_init rec now st))
      | _ => Some (Ended (Throw TypeError), k, st)
      end
  | CAdvanced v d a =>
      match args d, adv_args a with
      | Ok (nx, dx, ny, dy, nz, dz), Ok (px, py, pz, sx, sy, sz) =>
          Some (SimulateAny_mem v nx dx ny dy nz dz px py pz sx sy sz k (ensure_init rec now st))
      | _, _ => Some (Ended (Throw TypeError), k, st)
      end
  | _ => None
  end.
End Alloc.
