(** gaussianfft.util.resource_extrapolator. [when k] and [took k]: the clock during the k-th simulation and the time it took, both arbitrary. *)
From Coq Require Import ZArith Bool String Reals Lra List.
From Verif Require Import Base Arith M_Variogram M_Dsfmt M_Random M_Field M_Api M_Resource S_Api S_Resource P_Resource ExampleLib.
Import ListNotations.
Open Scope Z_scope.

(** ** C82 *)
(** generate() makes the wanted simulations in order, and no other call: the random state is the one after these calls *)
Theorem C82_calls : forall (L : Lib) rec fuel (when : nat -> Z) (took : nat -> R) (r : extrapolator) (vtype : string) (v : variogram L) st,
  fst (step rec fuel 0 (CVariogram vtype (lit L 500 0) None None None None None) rstate0) = Ok (VVariogram v) ->
  2 <= e_nmin r -> 0 < e_nstep r ->
  let ns := wanted_sizes (e_nmin r) (e_nmax r) (e_nstep r) in
  let p := at_times (map when (seq 0 (length ns))) (map (cube v (e_ndims r)) ns) in
  Forall (fun o => exists w, o = Ok w) (fst (run rec fuel p st)) ->
  @generate L rec fuel when took r vtype st = (Returned (combine ns (map took (seq 0 (length ns)))), snd (run rec fuel p st)).
Proof. exact (fun L rec fuel when took r vtype v st H => c82_calls rec fuel when took r vtype v st H). Qed.
Print Assumptions C82_calls.
(** what cannot be measured: one cell (the size of a cell would be 1000 / 0), steps of 0, no size at all *)
Theorem C82_errors : forall (L : Lib) rec fuel (when : nat -> Z) (took : nat -> R) (r : extrapolator) (vtype : string) (v : variogram L) n st,
  fst (step rec fuel 0 (CVariogram vtype (lit L 500 0) None None None None None) rstate0) = Ok (VVariogram v) ->
  (e_nmin r = 1 /\ 1 <= e_nmax r /\ 0 < e_nstep r -> @generate L rec fuel when took r vtype st = (Raised PyZeroDivision, st)) /\
  (e_nstep r = 0 -> @generate L rec fuel when took r vtype st = (Raised PyValueError, st)) /\
  (0 < e_nstep r /\ e_nmax r < e_nmin r ->
     @generate L rec fuel when took r vtype st = (Returned [], st) /\ @extrapolate L rec fuel when took r n vtype st = (Raised PyIndexError, st)).
Proof.
  exact (fun L rec fuel when took r vtype v n st H =>
    conj (fun h => c82_one rec fuel when took r vtype v st H (proj1 h) (proj1 (proj2 h)) (proj2 (proj2 h)))
   (conj (c82_no_step rec fuel when took r vtype v st H)
         (fun h => c82_none rec fuel when took r vtype v n st H (proj1 h) (proj2 h)))).
Qed.
Print Assumptions C82_errors.
(** extrapolate() returns the numbers of cells, the timings and the slope of the line through the origin that fits them best; its first
    argument has no effect *)
Theorem C82_fit : forall (L : Lib) rec fuel (when : nat -> Z) (took : nat -> R) (r : extrapolator) (vtype : string) n n' st st' data,
  @generate L rec fuel when took r vtype st = (Returned data, st') -> data <> [] ->
  exists x y s, @extrapolate L rec fuel when took r n vtype st = (Returned (x, y, s), st') /\
    @extrapolate L rec fuel when took r n' vtype st = (Returned (x, y, s), st') /\
    x = map (fun q => (IZR (fst q) ^ e_ndims r)%R) data /\ y = map snd data /\ forall s', (misfit s x y <= misfit s' x y)%R.
Proof. exact (fun L rec fuel when took r vtype n n' st st' data E N =>
  match c82_fit rec fuel when took r n vtype st st' data E N with
  | ex_intro _ x (ex_intro _ y (ex_intro _ s (conj H1 (conj H2 (conj H3 H4))))) =>
      ex_intro _ x (ex_intro _ y (ex_intro _ s (conj H1 (conj H1 (conj H2 (conj H3 H4))))))
  end). Qed.
Print Assumptions C82_fit.
(** a time proportional to the number of cells is found exactly *)
Theorem C82_line : forall (L : Lib) rec fuel (when : nat -> Z) (took : nat -> R) (r : extrapolator) (vtype : string) n st st' data (k : R),
  @generate L rec fuel when took r vtype st = (Returned data, st') -> data <> [] ->
  (forall m t, In (m, t) data -> (2 <= m)%Z /\ t = (k * IZR m ^ e_ndims r)%R) ->
  exists x y, @extrapolate L rec fuel when took r n vtype st = (Returned (x, y, k), st').
Proof. exact (fun L rec fuel when took r vtype n st st' data k => c82_line rec fuel when took r n vtype st st' data k). Qed.
Print Assumptions C82_line.
(** the variogram can be made, and lines of 2 and 4 cells are simulated *)
Example C82_case : wanted_sizes 2 5 2 = [2; 4] /\
  match fst (step do_recursion 100 0 (@CVariogram ELib "exponential" (lit ELib 500 0) None None None None None) rstate0) with
  | Ok (VVariogram v) => map (fun o => match o with Ok (VArray l) => length l | _ => 99%nat end) (fst (run do_recursion 100 (at_times [5; 6] (map (cube v 1) [2; 4])) rstate0))
  | _ => []
  end = [2; 4]%nat.
Proof. split; vm_compute; reflexivity. Qed.
