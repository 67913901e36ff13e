(** Model of the Python module gaussianfft._gaussianfft (src/gaussfftinterface.cpp:167-258, src/gaussfft.cpp): calls, their
    results, and the process-wide random state they act on. Variogram objects are immutable from Python (no setter is bound),
    so a call carries the object itself. *)
From Coq Require Import ZArith List Bool String.
From Verif Require Import Base Arith M_Variogram M_Padding M_FftSize M_Grid M_CovGrid M_Fft M_Dsfmt M_Random M_Field.
Import ListNotations.
Open Scope Z_scope.

Section Api.
Context {L : Lib}.
Notation num := (num L).
Notation lit := (lit L).

(** Optional arguments are [option]; None means that the argument is left out. *)
Record dims := mkDims {
  d_nx : Z; d_dx : num;
  d_ny : option Z; d_dy : option num;
  d_nz : option Z; d_dz : option num
}.
Record adv := mkAdv {
  a_padx : option Z; a_pady : option Z; a_padz : option Z;
  a_sx : option num; a_sy : option num; a_sz : option num
}.

Inductive call : Type :=
| CSeed (z : Z)                                         (* seed(z) *)
| CGetSeed                                              (* seed() *)
| CVariogram (type : string) (main : num) (perp depth azi dp power : option num)
| CCorr1 (v : variogram L) (x : num)                    (* v.corr(x) *)
| CCorr2 (v : variogram L) (x y : num)
| CCorr3 (v : variogram L) (x y z : num)
| CSize (v : variogram L) (d : dims)                    (* simulation_size *)
| CSimulate (v : variogram L) (d : dims)                (* simulate *)
| CAdvanced (v : variogram L) (d : dims) (a : adv).     (* advanced.simulate *)

Inductive value : Type :=
| VNone
| VInt (z : Z)
| VNum (x : num)
| VVariogram (v : variogram L)
| VSizes (l : list Z)
| VArray (l : list num).

Definition opt {T} (o : option T) (d : T) : T := match o with Some x => x | None => d end.

(** pybind11 rejects a Python int that does not fit the C++ parameter type with TypeError. *)
Definition as_size (z : Z) : outcome Z := if fits_size z then Ok z else Throw TypeError.
Definition as_int (z : Z) : outcome Z := if fits_int z then Ok z else Throw TypeError.

(** Defaults, gaussfftinterface.cpp:198-205, 227-234, 243-256 *)
Definition args (d : dims) : outcome (Z * num * Z * num * Z * num) :=
  let* nx := as_size (d_nx d) in
  let* ny := as_size (opt (d_ny d) 1) in
  let* nz := as_size (opt (d_nz d) 1) in
  Ok (nx, d_dx d, ny, opt (d_dy d) (lit (-1) 0), nz, opt (d_dz d) (lit (-1) 0)).
Definition adv_args (a : adv) : outcome (Z * Z * Z * num * num * num) :=
  let* px := as_int (opt (a_padx a) (-1)) in
  let* py := as_int (opt (a_pady a) (-1)) in
  let* pz := as_int (opt (a_padz a) (-1)) in
  Ok (px, py, pz, opt (a_sx a) (lit 1 0), opt (a_sy a) (lit 1 0), opt (a_sz a) (lit 1 0)).

Variable rec : recursion.
Variable fuel : nat.

(** gaussfft.cpp:122-128: initialise from the clock if no seed has been set *)
Definition ensure_init (now : Z) (st : rstate) : rstate :=
  match GetStartSeed st with
  | Throw _ => InitializeTime rec now st
  | _ => st
  end.

(** gaussfft.cpp:96-105, 108-142 *)
Definition do_simulate (now : Z) (v : variogram L) (nx : Z) (dx : num) (ny : Z) (dy : num) (nz : Z) (dz : num)
    (padx pady padz : Z) (sx sy sz : num) (st : rstate) : outcome value * rstate :=
  let st := ensure_init now st in
  match SimulateAny rec fuel v nx dx ny dy nz dz padx pady padz sx sy sz st with
  | Ok (l, st') => (Ok (VArray l), st')
  | Throw e => (Throw e, st)
  | UB u => (UB u, st)
  | NoFuel => (NoFuel, st)
  end.

Definition omap {T U} (f : T -> U) (m : outcome T) : outcome U := let* x := m in Ok (f x).

(** One call made at clock time [now]. *)
Definition step (now : Z) (c : call) (st : rstate) : outcome value * rstate :=
  match c with
  | CSeed z =>
      match as_size z with
      | Ok z => (Ok VNone, InitializeSeed z st)
      | _ => (Throw TypeError, st)
      end
  | CGetSeed => (omap VInt (GetStartSeed st), st)
  | CVariogram type main perp depth azi dp power =>
      (omap VVariogram (CreateVariogram type main (opt perp (lit (-1) 0)) (opt depth (lit (-1) 0))
                          (opt azi (lit 0 0)) (opt dp (lit 0 0)) (opt power (lit 15 1))), st)
  | CCorr1 v x => (Ok (VNum (GetCorr1 v x)), st)
  | CCorr2 v x y => (Ok (VNum (GetCorr2 v x y)), st)
  | CCorr3 v x y z => (Ok (VNum (GetCorr3 v x y z)), st)
  | CSize v d =>
      (let* (nx, dx, ny, dy, nz, dz) := args d in
       omap VSizes (FindGridSizeAfterPadding v nx dx ny dy nz dz), st)
  | CSimulate v d =>
      match args d with
      | Ok (nx, dx, ny, dy, nz, dz) =>
          do_simulate now v nx dx ny dy nz dz (-1) (-1) (-1) (lit 1 0) (lit 1 0) (lit 1 0) st
      | _ => (Throw TypeError, st)
      end
  | CAdvanced v d a =>
      match args d, adv_args a with
      | Ok (nx, dx, ny, dy, nz, dz), Ok (px, py, pz, sx, sy, sz) =>
          do_simulate now v nx dx ny dy nz dz px py pz sx sy sz st
      | _, _ => (Throw TypeError, st)
      end
  end.

(** A program: calls with the clock times at which they are made. Nothing is said about what follows
    undefined behaviour or a call that does not return. *)
Fixpoint run (p : list (Z * call)) (st : rstate) : list (outcome value) * rstate :=
  match p with
  | [] => ([], st)
  | (now, c) :: p =>
      let '(o, st) := step now c st in
      match o with
      | UB _ | NoFuel => ([o], st)
      | _ => let '(os, st) := run p st in (o :: os, st)
      end
  end.

End Api.
Arguments dims L : clear implicits.
Arguments adv L : clear implicits.
Arguments call L : clear implicits.
Arguments value L : clear implicits.
