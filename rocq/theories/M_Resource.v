(** Model of gaussianfft/util/resource_extrapolator.py: timing simulations of growing size and fitting a line through the timings.
    Simplifications: ndims is a non-negative int; the difference of the two readings of perf_counter around the k-th simulation (lines 30,
    32) is [took k], a real number, and the clock of the library is at [when k] during it; printing (33) is left out; the fit (18-21) is in
    exact arithmetic; lines 50-63 (a plot, run only as a script) are left out. *)
From Coq Require Import ZArith List Bool String Reals.
From Verif Require Import Base Arith M_Variogram M_Dsfmt M_Random M_Field M_Api.
Import ListNotations.
Open Scope Z_scope.

(** How a Python call ends: with a value, with an exception, or not at all (undefined behaviour, a call that does not return). *)
Inductive rexn : Set := PyZeroDivision | PyValueError | PyIndexError | Thrown (e : exn).
Inductive ended (T : Type) : Type := Returned (x : T) | Raised (e : rexn) | Lost.
Arguments Returned {T} x.
Arguments Raised {T} e.
Arguments Lost {T}.

(** range(start, stop, step) of Python *)
Definition py_range (start stop step : Z) : ended (list Z) :=
  if step =? 0 then Raised PyValueError
  else
    let len := if 0 <? step then (stop - start + step - 1) / step else (start - stop - step - 1) / (- step) in
    Returned (map (fun k => start + Z.of_nat k * step) (seq 0 (Z.to_nat len))).

(** np.linalg.lstsq with one column (20): the solution of least squares, 0 when the column is zero *)
Definition sum_prod (x y : list R) : R := fold_right Rplus 0%R (map (fun '(a, b) => (a * b)%R) (combine x y)).
Definition lstsq (x y : list R) : R :=
  if Req_EM_T (sum_prod x x) 0 then 0%R else (sum_prod x y / sum_prod x x)%R.

Section Resource.
Context {L : Lib}.
Variable rec : recursion.
Variable fuel : nat.
Variable when : nat -> Z.
Variable took : nat -> R.

(** 7-15: the constructor; the constants are in [the_call] and [generate] *)
Record extrapolator := mkExt { e_nmin : Z; e_nmax : Z; e_nstep : Z; e_ndims : nat }.

(** 37-48, without the division by zero *)
Definition the_call (r : extrapolator) (v : variogram L) (n : Z) : call L :=
  let d := (lit L 1000 0 / ofZ L (n - 1))%num in
  CAdvanced v (mkDims n d (Some (if (1 <? e_ndims r)%nat then n else 1)) (Some d) (Some (if (2 <? e_ndims r)%nat then n else 1)) (Some d))
    (mkAdv (Some n) (Some n) (Some n) None None None).

(** 29-35: the loop; [k] counts the simulations *)
Fixpoint loop (r : extrapolator) (v : variogram L) (ns : list Z) (k : nat) (st : rstate) : ended (list (Z * R)) * rstate :=
  match ns with
  | [] => (Returned [], st)
  | n :: ns =>
      if n - 1 =? 0 then (Raised PyZeroDivision, st)
      else match step rec fuel (when k) (the_call r v n) st with
           | (Ok _, st) =>
               match loop r v ns (S k) st with
               | (Returned data, st) => (Returned ((n, took k) :: data), st)
               | (other, st) => (other, st)
               end
           | (Throw e, st) => (Raised (Thrown e), st)
           | (_, st) => (Lost, st)
           end
  end.

(** 26-35; the variogram is made first *)
Definition generate (r : extrapolator) (vtype : string) (st : rstate) : ended (list (Z * R)) * rstate :=
  match step rec fuel (when 0%nat) (CVariogram vtype (lit L 500 0) None None None None None) st with
  | (Ok (VVariogram v), st) =>
      match py_range (e_nmin r) (e_nmax r + 1) (e_nstep r) with
      | Returned ns => loop r v ns 0 st
      | Raised e => (Raised e, st)
      | Lost => (Lost, st)
      end
  | (Throw e, st) => (Raised (Thrown e), st)
  | (_, st) => (Lost, st)
  end.

(** 17-24. np.array([]) has one dimension, so that [:, 0] is an IndexError. ex_nmax is not used. *)
Definition extrapolate (r : extrapolator) (ex_nmax : Z) (vtype : string) (st : rstate) : ended (list R * list R * R) * rstate :=
  match generate r vtype st with
  | (Returned [], st) => (Raised PyIndexError, st)
  | (Returned data, st) =>
      let x := map (fun '(n, _) => (IZR n ^ e_ndims r)%R) data in
      let y := map snd data in
      (Returned (x, y, lstsq x y), st)
  | (Raised e, st) => (Raised e, st)
  | (Lost, st) => (Lost, st)
  end.

End Resource.
