(** C59 to C66: the utilities that estimate variograms from simulated fields. [sim] is the method simulate, a function of a state; exact
    arithmetic. The small specification is in S_Util.v. *)
From Coq Require Import ZArith Bool Reals Lia Lra String.
From Coq Require Import List.
From Verif Require Import Base Arith RealArith M_Variogram M_CovGrid M_Field S_Spectrum S_Vario P_DftProps M_Util S_Util P_Util3 P_Util4 P_Util5 P_Util6 P_Util7 P_Util8 P_Util9.
Import ListNotations.
Open Scope R_scope.

(** ** C59 *)
(** [m]: the distance to the farthest cell from the origin; [n]: the number of bins; [far_ r], [nb r], [cells r]: the same for reference point r and
    the cells in its bin k. The first two simulations (a, b) are not used. *)
Theorem C59_estimate : forall (S : Type) (sim : S -> option (list R) * S) e nmax resolution refs s a b xs s',
  proper e -> 0 < resolution -> (0 < nmax)%nat ->
  suits e resolution origin -> (forall r, In r refs -> suits e resolution r) ->
  simulated sim (2 + nmax) s = Some (a :: b :: xs, s') ->
  (forall x, In x (a :: b :: xs) -> List.length x = (ev_nx e * ev_ny e * ev_nz e)%nat) ->
  exists distances estimates samples, estimate_variogram sim e nmax resolution refs s = (Ret (distances, estimates, samples), s') /\
  forall m n, farthest e origin m -> parts m resolution n ->
  List.length distances = n /\ List.length estimates = n /\ List.length samples = n /\
  forall k, (k < n)%nat ->
  nth k distances 0 = m * INR (k + 1) / INR n /\
  forall (far_ : cell -> R) (nb : cell -> nat) (cells : cell -> list cell),
  (forall r, In r refs -> farthest e r (far_ r) /\ parts (far_ r) resolution (nb r) /\ cells_in e r (far_ r) (nb r) k (cells r)) ->
  let u := filter (fun r => (k <? nb r)%nat) refs in
  nth k samples 0 = INR nmax * INR (List.length u) /\
  (u <> [] -> (forall r, In r u -> cells r <> []) ->
   nth k estimates None = Some (average (map (fun x => average (map (fun r => average (map (pair_value (as_grid e x) r) (cells r))) u)) xs))) /\
  (u = [] \/ (exists r, In r u /\ cells r = []) -> nth k estimates None = None).
Proof. exact c59. Qed.
Print Assumptions C59_estimate.
(** fields with covariances C (C p p = 1): the mean of the estimate is the average covariance over the pairs of the bin *)
Theorem C59_unbiased : forall (W S : Type) (E : (W -> R) -> R) (sim : S -> option (list R) * S) e nmax resolution refs
    (s s' : W -> S) (a b : W -> list R) (xs : W -> list (list R)) (C : cell -> cell -> R),
  expectation E -> E (fun _ => 1) = 1 ->
  proper e -> 0 < resolution -> (0 < nmax)%nat ->
  suits e resolution origin -> (forall r, In r refs -> suits e resolution r) ->
  (forall w, simulated sim (2 + nmax) (s w) = Some (a w :: b w :: xs w, s' w)) ->
  (forall w x, In x (a w :: b w :: xs w) -> List.length x = (ev_nx e * ev_ny e * ev_nz e)%nat) ->
  (forall i p q, (i < nmax)%nat -> in_grid e p -> in_grid e q ->
     E (fun w => as_grid e (nth i (xs w) []) p * as_grid e (nth i (xs w) []) q) = C p q) ->
  (forall p, in_grid e p -> C p p = 1) ->
  forall m n, farthest e origin m -> parts m resolution n -> forall k, (k < n)%nat ->
  forall (far_ : cell -> R) (nb : cell -> nat) (cells : cell -> list cell),
  (forall r, In r refs -> farthest e r (far_ r) /\ parts (far_ r) resolution (nb r) /\ cells_in e r (far_ r) (nb r) k (cells r)) ->
  let u := filter (fun r => (k <? nb r)%nat) refs in
  u <> [] -> (forall r, In r u -> cells r <> []) ->
  exists est : W -> R,
    (forall w, exists distances estimates samples, estimate_variogram sim e nmax resolution refs (s w) = (Ret (distances, estimates, samples), s' w) /\
       nth k estimates None = Some (est w)) /\
    E est = average (map (fun r => average (map (C r) (cells r))) u).
Proof. exact c59_mean. Qed.
Print Assumptions C59_unbiased.
(** 2 by 2 cells, two corners as reference points, one simulation after the two unused ones *)
Example C59_example : proper square /\ suits square 1 origin /\ (forall r, In r corners -> suits square 1 r) /\
  simulated steady (2 + 1) 0%nat = Some ([[0; 1; 2; 3]; [1; 1; 2; 3]; [2; 1; 2; 3]], 3%nat) /\
  farthest square origin (sqrt 2) /\ parts (sqrt 2) 1 1 /\
  (forall r, In r corners -> farthest square r (sqrt 2) /\ parts (sqrt 2) 1 1 /\ cells_in square r (sqrt 2) 1 0 four) /\
  filter (fun r => (0 <? 1)%nat) corners <> [] /\ four <> [].
Proof. exact c59_example. Qed.

(** ** C60 *)
(** one row of cells, bins of one cell, the first cell as the reference point: the mean of the estimate reported at distance (k+1)*dx is the
    correlation at k*dx *)
Theorem C60_shift : forall (o : Z -> outcome Z) (cl : Z -> Z -> Z) s main perp depth azi dp pw (v : variogram (Rlib o cl)),
  @CreateVariogram Rarith s main perp depth azi dp pw = Ok v -> 0 < main -> perp <> 0 -> depth <> 0 -> 0 < pw ->
  (vt v = EXPONENTIAL \/ vt v = SPHERICAL \/ vt v = CONSTANT \/ vt v = GENERAL_EXPONENTIAL /\ pw <= 1) ->
  forall nx n nmax (dx sx : R), (2 <= nx)%nat -> 0 < dx -> (0 < nmax)%nat -> (nx <= n)%nat -> 99999 / 100000 <= sx ->
  forall (W : Type) (E : (W -> R) -> R) (noises : W -> list (list R)), expectation E -> E (fun _ => 1) = 1 ->
  (forall w, List.length (noises w) = (2 + nmax)%nat /\ forall x, In x (noises w) -> List.length x = n) ->
  (forall i, (i < 2 + nmax)%nat -> white E n (fun w => nth i (noises w) [])) ->
  forall k, (k < nx - 2)%nat ->
  exists est : W -> R,
    (forall w, exists distances estimates samples,
       estimate_variogram (next_field v nx n dx sx) (row nx dx (@GetCorr1 Rarith v)) nmax dx [origin] (noises w) = (Ret (distances, estimates, samples), []) /\
       nth k distances 0 = INR (k + 1) * dx /\ nth k estimates None = Some (est w)) /\
    E est = @GetCorr1 Rarith v (INR (Nat.min k (n - k)) * dx).
Proof. exact row_mean. Qed.
Print Assumptions C60_shift.
(** the claim that it is the correlation at the distance reported is false *)
Theorem C60_reported_distance_refuted : forall (o : Z -> outcome Z) (cl : Z -> Z -> Z) s main perp depth azi dp pw (v : variogram (Rlib o cl)),
  @CreateVariogram Rarith s main perp depth azi dp pw = Ok v -> 0 < main -> perp <> 0 -> depth <> 0 -> 0 < pw -> vt v = EXPONENTIAL ->
  forall nx n nmax (dx sx : R), (2 <= nx)%nat -> 0 < dx -> (0 < nmax)%nat -> (2 * nx <= n)%nat -> 99999 / 100000 <= sx ->
  forall (W : Type) (E : (W -> R) -> R) (noises : W -> list (list R)), expectation E -> E (fun _ => 1) = 1 ->
  (forall w, List.length (noises w) = (2 + nmax)%nat /\ forall x, In x (noises w) -> List.length x = n) ->
  (forall i, (i < 2 + nmax)%nat -> white E n (fun w => nth i (noises w) [])) ->
  forall k, (k < nx - 2)%nat ->
  exists est : W -> R,
    (forall w, exists distances estimates samples,
       estimate_variogram (next_field v nx n dx sx) (row nx dx (@GetCorr1 Rarith v)) nmax dx [origin] (noises w) = (Ret (distances, estimates, samples), []) /\
       nth k distances 0 = INR (k + 1) * dx /\ nth k estimates None = Some (est w)) /\
    @GetCorr1 Rarith v (INR (k + 1) * dx) < E est.
Proof. exact c60_refuted. Qed.
Print Assumptions C60_reported_distance_refuted.
(** whatever the fields, the first value is 1, reported at a distance of one cell *)
Theorem C60_first_value : forall nx dx corr (S : Type) (sim : S -> option (list R) * S) nmax s a b xs s', (3 <= nx)%nat -> 0 < dx -> (0 < nmax)%nat ->
  simulated sim (2 + nmax) s = Some (a :: b :: xs, s') -> (forall x, In x (a :: b :: xs) -> List.length x = nx) ->
  exists distances estimates samples, estimate_variogram sim (row nx dx corr) nmax dx [origin] s = (Ret (distances, estimates, samples), s') /\
    nth 0 distances 0 = dx /\ nth 0 estimates None = Some 1.
Proof. exact c60_first. Qed.
Print Assumptions C60_first_value.
Example C60_noise : forall n nmax, (0 < n)%nat ->
  expectation (Ex n) /\ Ex n (fun _ => 1) = 1 /\
  (forall w, List.length (repeat (nz n w) (2 + nmax)) = (2 + nmax)%nat /\ forall x, In x (repeat (nz n w) (2 + nmax)) -> List.length x = n) /\
  forall i, (i < 2 + nmax)%nat -> white (Ex n) n (fun w => nth i (repeat (nz n w) (2 + nmax)) []).
Proof. exact noises_example. Qed.
Example C60_variogram : forall (o : Z -> outcome Z) (cl : Z -> Z -> Z), exists v : variogram (Rlib o cl),
  @CreateVariogram Rarith "exponential" 10 10 10 0 0 1 = Ok v /\ vt v = EXPONENTIAL.
Proof. exact expo_ok. Qed.

(** ** C61 *)
(** the dummy data: each estimate is the average correlation over the cells of the bin, without error *)
Theorem C61_dummy_data : forall e nmax resolution, proper e -> 0 < resolution -> (0 < nmax)%nat -> suits e resolution origin ->
  ev_corr e 0 = 1 -> (forall x, 0 <= x -> ev_corr e x <= 1) ->
  exists distances estimates samples, estimate_variogram (patched e) e nmax resolution [origin] tt = (Ret (distances, estimates, samples), tt) /\
  forall m n, farthest e origin m -> parts m resolution n -> List.length distances = n /\
  forall k cells, (k < n)%nat -> cells_in e origin m n k cells -> cells <> [] ->
    nth k distances 0 = m * INR (k + 1) / INR n /\
    nth k estimates None = Some (average (map (fun p => ev_corr e (distance e origin p)) cells)).
Proof. exact dummy_estimate. Qed.
Print Assumptions C61_dummy_data.
(** the claim that the dummy data give the true variogram is false: every value is too large *)
Theorem C61_exact_refuted : forall nx dx range nmax, (3 <= nx)%nat -> 0 < dx -> 0 < range -> (0 < nmax)%nat ->
  let corr := fun x => exp (- 3 * (x / range)) in
  exists distances estimates samples,
    estimate_variogram (patched (row nx dx corr)) (row nx dx corr) nmax dx [origin] tt = (Ret (distances, estimates, samples), tt) /\
    true_variogram (patched (row nx dx corr)) (row nx dx corr) dx tt = (Ret (distances, map corr distances), tt) /\
    forall k, (k < nx - 2)%nat -> exists y, nth k estimates None = Some y /\ corr (nth k distances 0) < y.
Proof. exact c61_refuted. Qed.
Print Assumptions C61_exact_refuted.
Example C61_example : proper square /\ suits square 1 origin /\ ev_corr square 0 = 1 /\ cells_in square origin (sqrt 2) 1 0 four.
Proof.
  split; [discriminate|]. split; [apply square_suits; now left|]. split; [cbn; rewrite Ropp_0; apply exp_0|]. apply square_cells. now left.
Qed.

(** ** C62 *)
Theorem C62_all : forall e, exists l, pick_reference_points e All = Ret l /\ NoDup l /\ forall p, In p l <-> in_grid e p.
Proof. exact c63_all. Qed.
Print Assumptions C62_all.
Theorem C62_one : forall e st, (0 < ev_nx e)%nat -> (0 < ev_ny e)%nat -> (0 < ev_nz e)%nat -> st = Origo \/ st = Center ->
  exists p, pick_reference_points e st = Ret [p] /\ in_grid e p.
Proof. exact c63_one. Qed.
Print Assumptions C62_one.
Theorem C62_random : forall e ps, NoDup ps -> (forall k, In k ps -> (k < ev_nx e * ev_ny e * ev_nz e)%nat) ->
  exists l, pick_reference_points e (Random ps) = Ret l /\ NoDup l /\ (forall p, In p l -> in_grid e p) /\ List.length l = List.length ps.
Proof. exact c63_random. Qed.
Print Assumptions C62_random.
(** 'regular': from n to 2n-1 different points if the offset is below the step *)
Theorem C62_regular : forall e n offset, let N := Z.of_nat (ev_nx e * ev_ny e * ev_nz e) in (1 <= n <= N)%Z -> (0 <= offset < N)%Z ->
  exists l, pick_reference_points e (Regular n offset) = Ret l /\ NoDup l /\ (forall p, In p l -> in_grid e p) /\ l <> [] /\
    (offset = 0%Z -> (n <= Z.of_nat (List.length l) < 2 * n)%Z) /\ ((offset < N / n)%Z -> (n <= Z.of_nat (List.length l) < 2 * n)%Z).
Proof. exact c63_regular. Qed.
Print Assumptions C62_regular.
Theorem C62_errors : forall e offset, 
  pick_reference_points e (Regular 0 offset) = Raise ZeroDivision /\
  forall n, (Z.of_nat (ev_nx e * ev_ny e * ev_nz e) < n)%Z -> pick_reference_points e (Regular n offset) = Raise ValueError.
Proof. exact c63_errors. Qed.
Print Assumptions C62_errors.
(** A negative offset counts from the end, as in Python; below -N it is 0; from N on nothing is returned. *)
Theorem C62_offsets : forall e n offset, let N := Z.of_nat (ev_nx e * ev_ny e * ev_nz e) in (1 <= n <= N)%Z ->
  ((0 <= offset < N)%Z -> pick_reference_points e (Regular n (offset - N)) = pick_reference_points e (Regular n offset)) /\
  ((offset < - N)%Z -> pick_reference_points e (Regular n offset) = pick_reference_points e (Regular n 0)) /\
  ((N <= offset)%Z -> pick_reference_points e (Regular n offset) = Ret []).
Proof. exact c62_offsets. Qed.
Print Assumptions C62_offsets.
(** A negative n is accepted: different cells, walking backwards from the offset; with the default offset 0 only the first cell. *)
Theorem C62_backwards : forall e n offset, let N := Z.of_nat (ev_nx e * ev_ny e * ev_nz e) in (1 <= n <= N)%Z ->
  exists l, pick_reference_points e (Regular (- n) offset) = Ret l /\ NoDup l /\ (forall p, In p l -> in_grid e p) /\
    (offset = (-1)%Z -> (n <= Z.of_nat (List.length l) < 2 * n)%Z) /\ (offset = 0%Z -> l = [origin]).
Proof. exact c62_backwards. Qed.
Print Assumptions C62_backwards.
(** 7 points asked for, 4 by 3 cells: all 12 are returned *)
Example C62_example : exists l, pick_reference_points (mkEv 4 3 1 1 1 1 (fun _ => 1)) (Regular 7 0) = Ret l /\ List.length l = 12%nat.
Proof. eexists. split; reflexivity. Qed.

(** ** C63 *)
(** Estimation works for every grid with a row of cells in y (C59); with one row in y and several in z it fails. *)
Theorem C63_shapes_refuted : forall (S : Type) (sim : S -> option (list R) * S) e nmax resolution refs s,
  ev_ny e = 1%nat -> (1 < ev_nz e)%nat -> (0 < ev_nx e)%nat ->
  exists x s', estimate_variogram sim e nmax resolution refs s = (Raise x, s').
Proof. exact c64. Qed.
Print Assumptions C63_shapes_refuted.

(** ** C64 *)
(** EmpiricalVariogram2 (cells of size 1): the points used; one group per distance *)
Theorem C64_points : forall nx ny nz corr, INR nx <= 2000000000 -> INR ny <= 2000000000 -> INR nz <= 2000000000 ->
  let e := unit_ev nx ny nz corr in
  (forall r, NoDup (short_points e r)) /\ (forall step, NoDup (sample_points e step)) /\
  (forall p, in_grid e p -> distance e origin p <= 5000000000) /\
  (forall r p, In p (short_points e r) <-> in_grid e p /\ distance e origin p < r) /\
  (forall step p, In p (sample_points e step) <-> in_grid e p /\ let '(i, j, k) := p in (i mod step = 0 /\ j mod step = 0 /\ k mod step = 0)%nat).
Proof. exact points_ok. Qed.
Print Assumptions C64_points.
Theorem C64_groups : forall nx ny nz corr pts, let e := unit_ev nx ny nz corr in
  (forall p, In p pts -> distance e origin p <= 5000000000) ->
  let d := map (dist e origin) pts in let groups := distance_groups d in let dists := group_dists d in
  List.length groups = List.length dists /\ NoDup dists /\ (forall x, In x dists <-> exists p, In p pts /\ x = distance e origin p) /\
  forall k, (k < List.length groups)%nat -> NoDup (nth k groups []) /\
    forall i, In i (nth k groups []) <-> (i < List.length pts)%nat /\ distance e origin (nth i pts origin) = nth k dists 0.
Proof. exact c65_groups. Qed.
Print Assumptions C64_groups.
(** per distance x, the value returned from the fields [gs] *)
Theorem C64_value : forall nx ny nz corr pts, let e := unit_ev nx ny nz corr in
  (forall p, In p pts -> distance e origin p <= 5000000000) -> NoDup pts ->
  forall gs k x cells, gs <> [] -> nth_error (group_dists (map (dist e origin) pts)) k = Some x ->
  NoDup cells -> (forall p, In p cells <-> In p pts /\ distance e origin p = x) ->
  nth k (group_means e pts gs) None = Some (average (map (fun g => average (map (fun p => (g p - g origin) ^ 2) cells)) gs)).
Proof. exact c65_value. Qed.
Print Assumptions C64_value.
(** its mean: twice one minus the average covariance between the origin and the cells at that distance *)
Theorem C64_mean : forall (W : Type) (E : (W -> R) -> R) nx ny nz corr pts (gs : W -> list grid) nmax (C : cell -> cell -> R) k x cells,
  let e := unit_ev nx ny nz corr in
  expectation E -> E (fun _ => 1) = 1 ->
  (forall p, In p pts -> distance e origin p <= 5000000000) -> NoDup pts -> (0 < nmax)%nat -> (forall w, List.length (gs w) = nmax) ->
  (forall i p q, (i < nmax)%nat -> E (fun w => nth i (gs w) (fun _ => 0) p * nth i (gs w) (fun _ => 0) q) = C p q) ->
  (forall p, C p p = 1) ->
  nth_error (group_dists (map (dist e origin) pts)) k = Some x -> NoDup cells -> (forall p, In p cells <-> In p pts /\ distance e origin p = x) ->
  exists est : W -> R, (forall w, nth k (group_means e pts (gs w)) None = Some (est w)) /\
    E est = 2 * (1 - average (map (C origin) cells)).
Proof. exact c65_mean. Qed.
Print Assumptions C64_mean.
(** covariances as required: every cell the same value, plus or minus one *)
Example C64_example : let E := fun f : bool -> R => (f true + f false) / 2 in
  expectation E /\ E (fun _ => 1) = 1 /\ forall p q : cell, E (fun w => (if w then 1 else -1) * (if w then 1 else -1)) = 1.
Proof.
  cbv zeta. split; [|split; [field|intros; field]]. split; [|split].
  - intros f g H. now rewrite !H.
  - intros. field.
  - intros. field.
Qed.

(** ** C65 *)
(** the deviations that the padding analyzer reports after nmax simulations: from the first m of them, m the last number up to nmax that ends in 1 *)
Theorem C65_deviation : forall nx dx corr (S : Type) (sim : S -> option (list R) * S) nmax s a b xs s', (2 <= nx)%nat -> 0 < dx -> (0 < nmax)%nat ->
  simulated sim (2 + nmax) s = Some (a :: b :: xs, s') -> (forall x, In x (a :: b :: xs) -> List.length x = nx) ->
  exists d m, analysed sim (row nx dx corr) nmax dx s = (Ret d, s') /\ List.length d = (nx - 1)%nat /\
  (m <= nmax < m + 10)%nat /\ (m mod 10 = 1)%nat /\
  forall k, (k < nx - 2)%nat ->
    nth k d None = Some (average (map (fun x => 1 - (nth k x 0 - nth 0 x 0) ^ 2 / 2) (firstn m xs)) - corr (INR (k + 1) * dx)).
Proof. exact c65_last. Qed.
Print Assumptions C65_deviation.
(** the claim that fields with the variogram asked for have deviations of mean zero is false *)
Theorem C65_zero_mean_refuted : forall (o : Z -> outcome Z) (cl : Z -> Z -> Z) s main perp depth azi dp pw (v : variogram (Rlib o cl)),
  @CreateVariogram Rarith s main perp depth azi dp pw = Ok v -> 0 < main -> perp <> 0 -> depth <> 0 -> 0 < pw -> vt v = EXPONENTIAL ->
  forall nx n nmax (dx sx : R), (2 <= nx)%nat -> 0 < dx -> (0 < nmax)%nat -> (2 * nx <= n)%nat -> 99999 / 100000 <= sx ->
  forall (W : Type) (E : (W -> R) -> R) (noises : W -> list (list R)), expectation E -> E (fun _ => 1) = 1 ->
  (forall w, List.length (noises w) = (2 + nmax)%nat /\ forall x, In x (noises w) -> List.length x = n) ->
  (forall i, (i < 2 + nmax)%nat -> white E n (fun w => nth i (noises w) [])) ->
  forall k, (k < nx - 2)%nat ->
  exists dev : W -> R,
    (forall w, exists d, analysed (next_field v nx n dx sx) (row nx dx (@GetCorr1 Rarith v)) nmax dx (noises w) = (Ret d, []) /\ nth k d None = Some (dev w)) /\
    0 < E dev.
Proof. exact c66_refuted. Qed.
Print Assumptions C65_zero_mean_refuted.

(** ** C66 *)
(** a seed other than zero is used; zero is not *)
Theorem C66_seed_partial : forall s, s <> 0%Z -> or_default (Some s) default_seed = s.
Proof. exact (fun s => proj2 (proj2 (or_default_eq s))). Qed.
Print Assumptions C66_seed_partial.
Theorem C66_seed_zero_refuted : or_default (Some 0%Z) default_seed = 12313%Z.
Proof. exact (proj1 (proj2 (or_default_eq 0))). Qed.
Print Assumptions C66_seed_zero_refuted.
(** the distances given for the deviations are neither those of the cells compared (k*dx) nor those of the true values subtracted *)
Theorem C66_axis_refuted : forall nx dx k, (3 <= nx)%nat -> 0 < dx -> (k < nx - 2)%nat -> 
  ((0 < k)%nat -> nth k (axis (nx - 1) dx) 0 <> INR k * dx) /\ nth k (axis (nx - 1) dx) 0 <> INR (k + 1) * dx.
Proof. exact axis_wrong. Qed.
Print Assumptions C66_axis_refuted.
