(** Calls made by several threads at once, without the interpreter lock (gaussfftinterface.cpp:167 declares
    py::mod_gil_not_used, so a free-threaded interpreter does not serialise them). In C++ such accesses are a data race; the
    model is what the compiled code does on one memory: single loads and stores, interleaved. *)
From Coq Require Import ZArith List Bool.
From Verif Require Import Base Arith M_Variogram M_Dsfmt M_Random M_Field M_Api.
Import ListNotations.
Open Scope Z_scope.

(** dSFMT.h:256-266, dsfmt_genrand_uint32 on the shared generator, cut at its accesses to dsfmt->idx and psfmt64[...].
    Simplification: the test idx >= DSFMT_N64 and the refilling that follows it are one step. *)
Inductive pc : Type :=
| AtTest                       (* about to execute: if (idx >= DSFMT_N64) { gen_rand_all; idx = 0; } *)
| AtIdx                        (* about to load idx *)
| AtWord (i : nat)             (* about to load psfmt64[i] *)
| AtStore (i : nat) (w : Z)    (* about to store i + 1 to idx *)
| Drew (w : Z).                (* has its number *)

Definition micro (rec : recursion) (p : pc) (g : dsfmt) : outcome (pc * dsfmt) :=
  match p with
  | AtTest => Ok (AtIdx, if (DSFMT_N64 <=? idx g)%nat then {| status := gen_rand_all rec (status g); idx := 0 |} else g)
  | AtIdx => Ok (AtWord (idx g), g)
  | AtWord i =>
      (* status[] has 2 * length words; past them lies the rest of the object *)
      if (i <? 2 * length (status g))%nat then Ok (AtStore i (Z.land (word64 (status g) i) 0xffffffff), g) else UB OutOfBounds
  | AtStore i w => Ok (Drew w, {| status := status g; idx := S i |})
  | Drew w => Ok (Drew w, g)
  end.

(** The schedule says which thread makes its next access. *)
Fixpoint race (rec : recursion) (sched : list nat) (ts : list pc) (g : dsfmt) : outcome (list pc * dsfmt) :=
  match sched with
  | [] => Ok (ts, g)
  | t :: sched =>
      let* (p, g) := micro rec (nth t ts (Drew 0)) g in
      race rec sched (upd ts t p) g
  end.

(** What a 1D or 2D simulate call returns once it has drawn [seed] from the shared generator: gaussianfield.cpp:224-300,
    302-349. Everything else it works on is local to the call (the generator made from the seed, grids, FFT plans; that
    FFTW's planner is safe to use from several threads is not claimed). 3D calls draw their whole noise from the shared generator and
    are not modelled here. *)
Section Call.
Context {L : Lib}.
Notation num := (num L).
Variable rec : recursion.
Variable fuel : nat.

Definition seeded1 (v : variogram L) (nx : Z) (dx : num) (padx : Z) (sx : num) (seed : Z) : outcome (list num) :=
  let* nxp := sizes1 v nx dx padx in
  let* nxp := narrow nxp in
  let* (noise, _) := draws (Unif01 rec) fuel nxp (init_gen_rand seed) in
  field1d v (Z.to_nat nx) nxp dx sx noise.
Definition seeded2 (v : variogram L) (nx : Z) (dx : num) (ny : Z) (dy : num) (padx pady : Z) (sx sy : num) (seed : Z) : outcome (list num) :=
  let* (nxt, nyt) := sizes2 v nx dx ny dy padx pady in
  let* nxt := narrow nxt in
  let* nyt := narrow nyt in
  let* (xs, _) := draws (Unif01 rec) fuel (nxt * nyt) (init_gen_rand seed) in
  let* noise := noise_grid2 nxt nyt xs in
  field2d v (Z.to_nat nx) (Z.to_nat ny) nxt nyt dx dy sx sy noise.
Definition seeded_any (v : variogram L) (nx : Z) (dx : num) (ny : Z) (dy : num) (nz : Z) (dz : num)
    (padx pady : Z) (sx sy : num) (seed : Z) : outcome (value L) :=
  match dimension ny dy nz dz with
  | 1%nat => omap VArray (seeded1 v nx dx padx sx seed)
  | 2%nat => omap VArray (seeded2 v nx dx ny dy padx pady sx sy seed)
  | _ => Throw TypeError   (* not modelled here *)
  end.
Definition rest_of_call (c : call L) (seed : Z) : outcome (value L) :=
  match c with
  | CSimulate v d =>
      match args d with
      | Ok (nx, dx, ny, dy, nz, dz) => seeded_any v nx dx ny dy nz dz (-1) (-1) (lit L 1 0) (lit L 1 0) seed
      | _ => Throw TypeError
      end
  | CAdvanced v d a =>
      match args d, adv_args a with
      | Ok (nx, dx, ny, dy, nz, dz), Ok (px, py, pz, sx, sy, sz) => seeded_any v nx dx ny dy nz dz px py sx sy seed
      | _, _ => Throw TypeError
      end
  | _ => Throw TypeError
  end.

(** Threads that each make one such call at the same time, after the module has been seeded: their draws interleave. *)
Definition concurrent (sched : list nat) (cs : list (call L)) (g : dsfmt) : outcome (list (outcome (value L))) :=
  let* (ps, _) := race rec sched (map (fun _ => AtTest) cs) g in
  Ok (map (fun '(c, p) => match p with Drew w => rest_of_call c w | _ => NoFuel end) (combine cs ps)).
End Call.
