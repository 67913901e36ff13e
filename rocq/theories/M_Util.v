(** Model of gaussianfft/util/empirical_variogram.py and empirical_variogram2.py: the estimation of variograms from simulated fields.
    Simplifications: arithmetic is exact (R for numpy's float64); a missing value (nan) is [None], and sums with a missing value are
    missing; numpy and scipy functions are modelled by their documentation (np.max, np.pad, np.square, np.diff, cdist,
    scipy.stats.binned_statistic with statistic='mean' and a number of bins, scipy.sparse.csgraph.connected_components); the timings
    (perf_counter) and the ConvergenceAnalyzer are left out. The method simulate of an object can be replaced (the comment at 147-152
    suggests it), so it is a parameter: a function of a state [S]. *)
From Coq Require Import ZArith List Bool Reals.
From Flocq Require Import Core.Raux.
From Verif Require Import Base.
Import ListNotations.
Open Scope R_scope.

(** Python exceptions; [ValueError] also stands for OverflowError, from int(inf) *)
Inductive pyexn : Set := ValueError | ZeroDivision | SimulateFailed.
Inductive res (A : Type) : Type := Ret (a : A) | Raise (e : pyexn).
Arguments Ret {A} a.
Arguments Raise {A} e.

Definition rbind {A B} (m : res A) (k : A -> res B) : res B := match m with Ret a => k a | Raise e => Raise e end.
Notation "'do' x '<-' m ';' k" := (rbind m (fun x => k)) (at level 200, x pattern, m at level 100, k at level 200).

Definition cell := (nat * nat * nat)%type.
Definition cell_eqb (p q : cell) : bool :=
  let '(i, j, k) := p in let '(i', j', k') := q in ((i =? i') && (j =? j') && (k =? k'))%nat%bool.

(** empirical_variogram.py:14-23; [ev_corr] is v.corr with one argument. px, py, pz are used only in simulate. *)
Record ev := mkEv { ev_nx : nat; ev_ny : nat; ev_nz : nat; ev_dx : R; ev_dy : R; ev_dz : R; ev_corr : R -> R }.

(** empirical_variogram.py:164-173, empirical_variogram2.py:118-127: the indexes, in the order of the three loops *)
Definition find_indexes (nx ny nz : nat) : list cell :=
  map (fun '(i, (j, k)) => (i, j, k)) (list_prod (seq 0 nx) (list_prod (seq 0 ny) (seq 0 nz))).
Definition tuple_indexes (e : ev) : list cell := find_indexes (ev_nx e) (ev_ny e) (ev_nz e).

(** cdist of two of the points [dx*i, dy*j, dz*k] *)
Definition dist (e : ev) (p q : cell) : R :=
  let '(i, j, k) := p in let '(i', j', k') := q in
  sqrt ((ev_dx e * INR i - ev_dx e * INR i') ^ 2 + (ev_dy e * INR j - ev_dy e * INR j') ^ 2
        + (ev_dz e * INR k - ev_dz e * INR k') ^ 2).

(** a grid is np.array(s).reshape((nx, ny, nz), order='F'); its values as a function of the cell *)
Definition grid := cell -> R.
Definition reshape (e : ev) (s : list R) : res grid :=
  if (length s =? ev_nx e * ev_ny e * ev_nz e)%nat
  then Ret (fun '(i, j, k) => nth (i + ev_nx e * (j + ev_ny e * k)) s 0)
  else Raise ValueError.

(** empirical_variogram.py:107-119. When ny is 1 the grid is reshaped to (nx, 1, 1), which raises ValueError unless nz is 1 too (the other
    reshape changes nothing); tuple_indexes.index(ref) raises ValueError if there is no such cell. ("ref or (0,0,0)" at the
    call with ref=None is [origin].) *)
Definition origin : cell := (0, 0, 0)%nat.
Definition calculate_deltas (e : ev) (g : grid) (ref : cell) : res (list (R * R)) :=
  if ((ev_ny e =? 1) && negb (ev_nz e =? 1))%nat%bool && negb (ev_nx e =? 0)%nat then Raise ValueError
  else if existsb (cell_eqb ref) (tuple_indexes e)
  then Ret (map (fun p => (dist e ref p, g p - g ref)) (tuple_indexes e))
  else Raise ValueError.

Definition maximum (l : list R) : R := fold_right Rmax 0 l.
Definition total (l : list R) : R := fold_right Rplus 0 l.
Definition mean (l : list R) : option R := match l with [] => None | _ => Some (total l / INR (length l)) end.

(** scipy.stats.binned_statistic(x, values, 'mean', bins=nb) when min(x) = 0 and max(x) = m > 0: nb bins of equal width from 0 to m, closed
    below and open above except the last, which is closed *)
Definition bin_of (m : R) (nb : nat) (x : R) : nat :=
  if Rle_dec m x then (nb - 1)%nat else Z.to_nat (Zfloor (x * INR nb / m)).
Definition edge (m : R) (nb k : nat) : R := m * INR k / INR nb.
Definition binned_statistic (x values : list R) (nb : Z) : res (list (option R) * list R) :=
  let m := maximum x in
  if (nb <=? 0)%Z then Raise ValueError
  else let nb := Z.to_nat nb in
    Ret (map (fun k => mean (map snd (filter (fun p => (bin_of m nb (fst p) =? k)%nat) (combine x values)))) (seq 0 nb),
         map (edge m nb) (seq 0 (nb + 1))).

(** empirical_variogram.py:121-127 *)
Definition binned_variogram_statistics (e : ev) (resolution : R) (g : grid) (ref : cell) : res (list (option R) * list R) :=
  do l <- calculate_deltas e g ref;
  let dists := map fst l in
  let deltas2 := map (fun p => snd p ^ 2) l in
  if Req_EM_T resolution 0 then Raise ValueError
  else binned_statistic dists deltas2 (Ztrunc (maximum dists / resolution)).

Section Estimate.
Context {S : Type}.
(** the method simulate before the reshape; [None]: it raised *)
Variable sim : S -> option (list R) * S.

(** computations with the state of the simulator *)
Definition M (A : Type) := S -> res A * S.
Definition mret {A} (a : A) : M A := fun s => (Ret a, s).
Definition lift {A} (r : res A) : M A := fun s => (r, s).
Definition mbind {A B} (m : M A) (k : A -> M B) : M B :=
  fun s => match m s with (Ret a, s) => k a s | (Raise x, s) => (Raise x, s) end.
Notation "'run' x '<-' m ';' k" := (mbind m (fun x => k)) (at level 200, x pattern, m at level 100, k at level 200).

(** empirical_variogram.py:134-141 *)
Definition simulate (e : ev) : M grid :=
  fun s => match sim s with (Some l, s) => (reshape e l, s) | (None, s) => (Raise SimulateFailed, s) end.

(** empirical_variogram.py:129-132. edges[:-1] + np.diff(edges)[0] *)
Definition find_midpoints (e : ev) (resolution : R) : M (list R) :=
  run g <- simulate e;
  run (_, edges) <- lift (binned_variogram_statistics e resolution g origin);
  let w := nth 1 edges 0 - nth 0 edges 0 in
  mret (map (fun x => x + w) (removelast edges)).

(** empirical_variogram.py:68-80 *)
Definition true_variogram (e : ev) (resolution : R) : M (list R * list R) :=
  run midpoints <- find_midpoints e resolution;
  mret (midpoints, map (ev_corr e) midpoints).

(** sums of arrays with missing values *)
Definition oplus (x y : option R) : option R := match x, y with Some a, Some b => Some (a + b) | _, _ => None end.
Definition vplus (x y : list (option R)) : list (option R) := map (fun p => oplus (fst p) (snd p)) (combine x y).
(** x / n, missing if n = 0 *)
Definition over (x : option R) (n : R) : option R := match x with Some a => if Req_EM_T n 0 then None else Some (a / n) | None => None end.

(** empirical_variogram.py:49-54, the loop over the reference points; [n] is len(accumulated_sum). np.pad raises ValueError when the width
    is negative. *)
Fixpoint references (e : ev) (resolution : R) (g : grid) (n : nat) (refs : list cell) (acc : list (option R)) (count : list R)
  : res (list (option R) * list R) :=
  match refs with
  | [] => Ret (acc, count)
  | ref :: refs =>
      do (means, _) <- binned_variogram_statistics e resolution g ref;
      let means := map (option_map (fun x => 1 - x / 2)) means in
      if (n <? length means)%nat then Raise ValueError
      else
        let diff := (n - length means)%nat in
        references e resolution g n refs (vplus acc (means ++ repeat (Some 0) diff))
          (map (fun p => fst p + snd p) (combine count (repeat 1 (length means) ++ repeat 0 diff)))
  end.

(** empirical_variogram.py:40-63, the loop over the simulations *)
Fixpoint simulations (e : ev) (resolution : R) (n : nat) (refs : list cell) (nmax : nat) (acc : list (option R)) (samples : list R)
  : M (list (option R) * list R) :=
  match nmax with
  | O => mret (acc, samples)
  | Datatypes.S nmax =>
      run g <- simulate e;
      run (local, count) <- lift (references e resolution g n refs (repeat (Some 0) n) (repeat 0 n));
      let local := map (fun p => over (fst p) (snd p)) (combine local count) in
      simulations e resolution n refs nmax (vplus acc local) (map (fun p => fst p + snd p) (combine samples count))
  end.

(** empirical_variogram.py:25-66: distance values, estimates, number of samples *)
Definition estimate_variogram (e : ev) (nmax : nat) (resolution : R) (refs : list cell)
  : M (list R * list (option R) * list R) :=
  run midpoints <- find_midpoints e resolution;
  let n := length midpoints in
  run _ <- true_variogram e resolution;
  run (acc, samples) <- simulations e resolution n refs nmax (repeat (Some 0) n) (repeat 0 n);
  mret (midpoints, map (fun x => over x (INR nmax)) acc, samples).

(** empirical_variogram.py:39-66 with analyze_convergence = step: what is fed to the ConvergenceAnalyzer (178-189), in order: after
    simulation i with step > 0 and i % step = 0, the estimate so far minus the true variogram *)
Definition ominus (x : option R) (y : R) : option R := option_map (fun x => x - y) x.
Definition deviation (acc : list (option R)) (i : nat) (truth : list R) : list (option R) :=
  map (fun p => ominus (over (fst p) (INR (i + 1))) (snd p)) (combine acc truth).
Fixpoint simulations_fed (e : ev) (resolution : R) (n : nat) (refs : list cell) (step : nat) (truth : list R) (i nmax : nat)
  (acc : list (option R)) (fed : list (list (option R))) : M (list (list (option R))) :=
  match nmax with
  | O => mret fed
  | Datatypes.S nmax =>
      run g <- simulate e;
      run (local, count) <- lift (references e resolution g n refs (repeat (Some 0) n) (repeat 0 n));
      let local := map (fun p => over (fst p) (snd p)) (combine local count) in
      let acc := vplus acc local in
      let fed := if ((0 <? step) && (i mod step =? 0))%nat%bool then fed ++ [deviation acc i truth] else fed in
      simulations_fed e resolution n refs step truth (i + 1) nmax acc fed
  end.
Definition estimate_convergence (e : ev) (nmax : nat) (resolution : R) (refs : list cell) (step : nat) : M (list (list (option R))) :=
  run midpoints <- find_midpoints e resolution;
  let n := length midpoints in
  run (_, truth) <- true_variogram e resolution;
  simulations_fed e resolution n refs step truth 0 nmax (repeat (Some 0) n) [].

(** padding_analyzer.py:35, 58-61 for one range and one padding: the last of the deviations, sampled every 10 simulations; one reference point
    ('origo'). deltas[-1] of no deviations raises IndexError, here ValueError. *)
Definition analysed (e : ev) (nmax : nat) (dr : R) : M (list (option R)) :=
  run fed <- estimate_convergence e nmax dr [origin] 10;
  match rev fed with [] => lift (Raise ValueError) | d :: _ => mret d end.

End Estimate.

(** padding_analyzer.py:26-31: "x or default" for numbers: 0 and None give the default *)
Definition or_default (x : option Z) (default : Z) : Z := match x with Some x => if (x =? 0)%Z then default else x | None => default end.
(** padding_analyzer.py:9-15 *)
Definition default_seed : Z := 12313.
(** padding_analyzer.py:65, np.linspace(0, len*d, len): the distances given for the deviations *)
Definition axis (len : nat) (d : R) : list R := map (fun t => INR t * (INR len * d) / INR (len - 1)) (seq 0 len).

(** empirical_variogram.py:143-162: the dummy field, sqrt((1 - corr(d)) * 2) at distance d from the origin; index(ref) as above *)
Definition dummy_sim (e : ev) : res grid :=
  if existsb (cell_eqb origin) (tuple_indexes e)
  then Ret (fun p => sqrt ((1 - ev_corr e (dist e origin p)) * 2))
  else Raise ValueError.

(** e.simulate = e.dummy_sim (the comment at 147-152). The array is given as the list of which it is the reshape. *)
Definition flatten (e : ev) (g : grid) : list R :=
  map (fun t => g (t mod ev_nx e, (t / ev_nx e) mod ev_ny e, t / ev_nx e / ev_ny e)%nat) (seq 0 (ev_nx e * ev_ny e * ev_nz e)).
Definition patched (e : ev) (s : unit) : option (list R) * unit :=
  (match dummy_sim e with Ret g => Some (flatten e g) | Raise _ => None end, s).

(** empirical_variogram.py:82-105. Strategies; [SRandom l] with l the sample that random.sample(tuple_indexes, n) returns: any list of n
    elements of pairwise different positions; it raises ValueError if n < 0 or n > len. The slice [offset::step] for offset, step of any
    sign is Python's. *)
Inductive strategy : Set := All | Origo | Center | Random (positions : list nat) | Regular (n offset : Z).

Definition clamp (lo hi x : Z) : Z := Z.max lo (Z.min hi x).
(** slice.indices(len) with start = offset, stop omitted; CPython PySlice_AdjustIndices *)
Definition slice_from (len : nat) (offset step : Z) : list nat :=
  let n := Z.of_nat len in
  if (0 <? step)%Z then
    let start := clamp 0 n (if (offset <? 0)%Z then offset + n else offset) in
    map (fun k => Z.to_nat (start + Z.of_nat k * step)) (seq 0 (Z.to_nat ((n - start + step - 1) / step)))
  else
    let start := clamp (-1) (n - 1) (if (offset <? 0)%Z then offset + n else offset) in
    map (fun k => Z.to_nat (start + Z.of_nat k * step)) (seq 0 (Z.to_nat ((start + 1 - step - 1) / (- step)))).

Definition pick_reference_points (e : ev) (st : strategy) : res (list cell) :=
  let l := tuple_indexes e in
  match st with
  | All => Ret l
  | Origo => Ret [origin]
  | Center => Ret [(ev_nx e / 2, ev_ny e / 2, ev_nz e / 2)%nat]
  | Random positions => Ret (map (fun k => nth k l origin) positions)
  | Regular n offset =>
      if (n =? 0)%Z then Raise ZeroDivision
      else let step := Z.quot (Z.of_nat (length l)) n in
        if (step =? 0)%Z then Raise ValueError
        else Ret (map (fun k => nth k l origin) (slice_from (length l) offset step))
  end.

(** empirical_variogram2.py:58-75: points at the same distance (closer than 1e-10 in distance, transitively) from the origin form a group. The
    graph's components in the order of their first points. *)
Section Groups.
Variable d : list R.
Definition near (x y : R) : bool := if Rlt_dec (Rabs (x - y)) (1 / 10000000000) then true else false.
(** positions reachable from a set in one step *)
Definition grow (l : list nat) : list nat :=
  filter (fun i => existsb (fun j => near (nth i d 0) (nth j d 0)) l) (seq 0 (length d)).
Definition component (i : nat) : list nat := Nat.iter (length d) grow (grow [i]).
(** argwhere(labels == c) for c in range(n_comps): a component is listed at its first position *)
Definition distance_groups : list (list nat) :=
  map component (filter (fun i => (hd (length d) (component i) =? i)%nat) (seq 0 (length d))).
(** group_dists = [dists[g[0]] for g in groups] *)
Definition group_dists : list R := map (fun g => nth (hd 0%nat g) d 0) distance_groups.
End Groups.

(** empirical_variogram2.py:30-48: the positions of the points used, close ones (distance below close_range) and samples (every index a
    multiple of step; step 0 raises ZeroDivisionError) *)
Definition unit_ev (nx ny nz : nat) (corr : R -> R) : ev := mkEv nx ny nz 1 1 1 corr.
Definition short_points (e : ev) (close_range : R) : list cell :=
  filter (fun p => if Rlt_dec (dist e origin p) close_range then true else false) (tuple_indexes e).
Definition sample_points (e : ev) (step : nat) : list cell :=
  filter (fun '(i, j, k) => (i mod step =? 0) && (j mod step =? 0) && (k mod step =? 0))%nat%bool (tuple_indexes e).

(** empirical_variogram2.py:100-116 and 50-56 for one set of points [pts]: per simulation and group the mean of the squared differences from
    the origin; then the mean over the simulations ([gs]: the fields) *)
Definition group_data (e : ev) (pts : list cell) (g : grid) : list (option R) :=
  map (fun c => mean (map (fun i => (g (nth i pts origin) - g origin) ^ 2) c)) (distance_groups (map (dist e origin) pts)).
Definition group_means (e : ev) (pts : list cell) (gs : list grid) : list (option R) :=
  map (fun j => mean (flat_map (fun g => match nth j (group_data e pts g) None with Some x => [x] | None => [] end) gs))
      (seq 0 (length (distance_groups (map (dist e origin) pts)))).
