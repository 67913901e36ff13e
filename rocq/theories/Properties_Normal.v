(** C12, C13: normal draws. *)
From Coq Require Import ZArith Bool Lia Reals Lra List.
From Coquelicot Require Import Coquelicot.
From Flocq Require Import IEEE754.BinarySingleNaN.
From Verif Require Import Base Arith RealArith FloatArith M_Dsfmt M_Random S_Random S_Normal S_NormTail S_NormPlane
  P_Norm P_NormDens P_NormMix P_NormMass P_NormLaw P_NormF P_NormTail P_NormPlane3 P_NormPlane4.
Import ListNotations.
Open Scope R_scope.

(** ** C12, in doubles *)

(** As stated C12 is false: a stream of possible uniform numbers, three in all, makes the draw NaN, whatever the math library. *)
Theorem C12_centre_refuted : exists l, uniform_doubles feedF l /\
  forall m n, Norm01 (A := Farith m) feedF (S n) l = Ok (B754_nan, []).
Proof. exact c12_refuted. Qed.
Print Assumptions C12_centre_refuted.

(** It holds for every source of numbers k/2^52 that never gives one half twice in a row, and every math library whose logarithm is
    finite on (0,1): a draw that ends is finite, at most 3 in size if its first number is below 0.9973002039, above 3 otherwise. *)
Theorem C12_finite_partial : forall m (S : Type) (unif : S -> b64 * S) trials s x s',
  log_sane m -> uniform_doubles unif s -> no_two_halves unif s ->
  Norm01 (A := Farith m) unif trials s = Ok (x, s') ->
  is_finite x = true /\
  (if Bltb (drawn unif s 0) (Flit 9973002039 10) then Rabs (B2R x) <= 3 else 3 < Rabs (B2R x)).
Proof. intros m S unif. exact (norm_any m unif). Qed.
Print Assumptions C12_finite_partial.

(** For the generator the numbers are always of that kind. *)
Theorem C12_generator_partial : forall m rec trials g x g', is_build rec -> log_sane m -> reachable rec g ->
  no_two_halves (Unif01 (A := Farith m) rec) g ->
  Norm01 (A := Farith m) (Unif01 (A := Farith m) rec) trials g = Ok (x, g') ->
  is_finite x = true /\
  (if Bltb (drawn (Unif01 (A := Farith m) rec) g 0) (Flit 9973002039 10) then Rabs (B2R x) <= 3 else 3 < Rabs (B2R x)).
Proof. exact norm_gen. Qed.
Print Assumptions C12_generator_partial.

Definition ex_libm : libm := mkLibm (fun x => x) (fun x => Flit (-1) 0) (fun x => x) (fun x => x) (fun x _ => x).
Example C12_case : let l := [u_top; Flit 25 2; Flit 5 1] in
  log_sane ex_libm /\ uniform_doubles feedF l /\ no_two_halves feedF l /\
  Bltb (drawn feedF l 0) (Flit 9973002039 10) = false /\
  exists x, Norm01 (A := Farith ex_libm) feedF 1 l = Ok (x, []).
Proof.
  cbv zeta. split; [|split; [|split; [|split]]].
  - assert (E : exactly (Flit (-1) 0) (-1)) by (eapply lit_fin; [vm_compute; reflexivity|unfold Defs.F2R; cbn [Defs.Fnum Defs.Fexp Zaux.cond_Zopp]; unfold Raux.bpow, Zaux.radix2, Z.pow_pos; simpl; lra]).
    intros x _ _. destruct E as [E1 E2]. cbn [lm_log ex_libm]. split; [exact E1|]. rewrite E2. lra.
  - apply feed_grid. repeat constructor; [apply grid_top|apply grid_quarter|apply grid_half].
  - intros n [A B]. rewrite !feed_drawn in *. destruct n as [|[|n]]; cbn [nth] in *.
    + destruct quarter_val as [_ Q]. destruct B as [_ B]. lra.
    + destruct quarter_val as [_ Q]. destruct A as [_ A]. lra.
    + destruct B as [_ B]. destruct zero_val as [_ Z]. destruct n as [|n]; [|destruct n]; cbn [nth] in B; lra.
  - vm_compute. reflexivity.
  - match goal with |- exists x, ?o = _ => assert (K : match o with Ok (_, []) => true | _ => false end = true) by (vm_compute; reflexivity);
      destruct o as [[x [|]]| | |]; try discriminate K; exists x; reflexivity end.
Qed.

(** ** C13, in exact arithmetic *)

(** The branch densities, weighted with the probabilities of the branches, add up to the normal density to within 1e-9, for
    every x in [-3,3]. *)
Theorem C13_mixture : forall x, -3 <= x <= 3 ->
  Rabs (8638 / 10000 * dens3 x + (9745 / 10000 - 8638 / 10000) * dens2 x +
        (9973002039 / 10000000000 - 9745 / 10000) * g (A := Rarith) x - phi x) <= 1 / 1000000000.
Proof. exact mixture. Qed.
Print Assumptions C13_mixture.

(** The residual density is non-negative and below the envelope constant. *)
Theorem C13_envelope : forall x, -3 <= x <= 3 -> 0 <= g (A := Rarith) x <= 358 / 1000.
Proof. exact g_range. Qed.
Print Assumptions C13_envelope.

(** Those are the densities the code draws from: the mean of any continuous h over the uniform inputs of each branch. The third
    branch accepts a trial with density g / (6 * 0.358); a rejected trial is repeated with fresh numbers. *)
Theorem C13_branches : forall (h : R -> R), (forall x, continuous h x) ->
  (forall u, u < 8638 / 10000 -> mean1 h u = RInt (fun x => h x * dens3 x) (-3) 3) /\
  (forall u, 8638 / 10000 <= u < 9745 / 10000 -> mean1 h u = RInt (fun x => h x * dens2 x) (-3) 3) /\
  (forall u, 9745 / 10000 <= u < 9973002039 / 10000000000 ->
     mean1 h u = RInt (fun x => h x * g (A := Rarith) x) (-3) 3 / (6 * (358 / 1000))).
Proof.
  intros h Hh. split; [|split]; intros u Hu; [apply mean1_1|apply mean1_2|apply mean1_3]; assumption.
Qed.
Print Assumptions C13_branches.

Theorem C13_retry : forall trials u u1 u2 l, 9745 / 10000 <= u < 9973002039 / 10000000000 ->
  (358 / 1000 * u2 <= g (A := Rarith) (6 * u1 - 3) -> normal (S trials) (u :: u1 :: u2 :: l) = Ok (6 * u1 - 3, l)) /\
  (g (A := Rarith) (6 * u1 - 3) < 358 / 1000 * u2 -> normal (S trials) (u :: u1 :: u2 :: l) = normal trials (u :: l)).
Proof. exact wedge_case. Qed.
Print Assumptions C13_retry.

(** Together: the mean of h over everything the three central branches return is its mean under the normal density on [-3,3], to
    within 4e-8 of the size of h; and the probability of those branches is that of [-3,3] to within 1e-9. *)
Theorem C13_central_law : forall (h : R -> R), (forall x, continuous h x) ->
  forall M, (forall x, -3 <= x <= 3 -> Rabs (h x) <= M) ->
  Rabs (RInt (mean h) 0 (9973002039 / 10000000000) - RInt (fun x => h x * phi x) (-3) 3) <= 4 / 100000000 * M.
Proof. exact central_law. Qed.
Print Assumptions C13_central_law.

Theorem C13_central_probability : Rabs (RInt phi (-3) 3 - 9973002039 / 10000000000) <= 1 / 1000000000.
Proof. exact phi_mass. Qed.
Print Assumptions C13_central_probability.

Example C13_case : (forall x, continuous (fun x : R => x * x) x) /\ (forall x, -3 <= x <= 3 -> Rabs (x * x) <= 9) /\
  normal 1 [98 / 100; 1 / 2; 0] = Ok (0, []).
Proof.
  split; [|split].
  - intros x. apply (ex_derive_continuous (V := R_NormedModule)). auto_derive. auto.
  - intros x H. apply Rabs_le. nra.
  - assert (W : in_wedge (98 / 100)) by (unfold in_wedge; lra).
    destruct (wedge_case 0 (98 / 100) (1 / 2) 0 [] W) as [A _]. rewrite A; [f_equal; f_equal; lra|].
    pose proof (g_range (6 * (1 / 2) - 3) ltac:(lra)). lra.
Qed.

(** ** C13, beyond 3 *)
(** The fourth branch: a point of the unit disc, given in polar coordinates, is moved along its direction to the radius
    [tail_radius r]; the first of its coordinates that is beyond 3 is returned, and if there is none the branch starts again. Points
    outside the disc are skipped. *)
Theorem C13_tail_branch : forall trials u r t l, 9973002039 / 10000000000 <= u -> 0 < r < 1 ->
  let x := tail_radius r * cos t in let y := tail_radius r * sin t in
  let o := normal (S trials) (u :: (1 + r * cos t) / 2 :: (1 + r * sin t) / 2 :: l) in
  (3 < Rabs x -> o = Ok (x, l)) /\ (Rabs x <= 3 -> 3 < Rabs y -> o = Ok (y, l)) /\ (Rabs x <= 3 -> Rabs y <= 3 -> o = normal trials (u :: l)).
Proof. exact tail_case. Qed.
Print Assumptions C13_tail_branch.
Theorem C13_tail_disc : forall trials u u1 u2 l, 9973002039 / 10000000000 <= u -> 1 <= (2 * u1 - 1) ^ 2 + (2 * u2 - 1) ^ 2 ->
  disc (A := Rarith) feed (S trials) (u1 :: u2 :: l) = disc (A := Rarith) feed trials l.
Proof. exact disc_case. Qed.
Print Assumptions C13_tail_disc.
(** The radius of a point uniform in the disc has the density 2r, so its square is uniform; the new radius exceeds q with the
    probability exp((9 - q^2)/2) that a normal pair has radius above q given that it has radius above 3, and the mean of any
    continuous h over it is the mean with that density, q exp((9 - q^2)/2). *)
Theorem C13_tail_radius : forall r q, 0 < r < 1 -> 3 <= q -> (q < tail_radius r <-> r * r < exp ((9 - q * q) / 2)).
Proof. exact radius_gt. Qed.
Print Assumptions C13_tail_radius.
Theorem C13_tail_law : forall (h : R -> R) T, (forall x, continuous h x) -> 3 <= T ->
  RInt (fun r => h (tail_radius r) * (2 * r)) (exp ((9 - T * T) / 4)) 1 = RInt (fun q => h q * (q * exp ((9 - q * q) / 2))) 3 T.
Proof. exact tail_law. Qed.
Print Assumptions C13_tail_law.
Example C13_tail_case : tail_radius (exp (- (7 / 4))) = 4 /\ normal 1 [1; (1 + exp (- (7 / 4)) * cos 0) / 2; (1 + exp (- (7 / 4)) * sin 0) / 2] = Ok (4, []).
Proof.
  assert (E : tail_radius (exp (- (7 / 4))) = 4).
  { unfold tail_radius. rewrite ln_exp. replace (9 - 4 * - (7 / 4)) with (4 * 4) by field. apply sqrt_square. lra. }
  split; [exact E|].
  assert (H : 0 < exp (- (7 / 4)) < 1) by (split; [apply exp_pos|rewrite <- exp_0; apply exp_increasing; lra]).
  destruct (tail_case 0 1 (exp (- (7 / 4))) 0 [] ltac:(lra) H) as (A & _ & _). rewrite A; rewrite E, cos_0, Rmult_1_r; [reflexivity|].
  rewrite Rabs_right; lra.
Qed.

(** ** C13, beyond 3: the normal law itself *)
(** [share] (S_NormPlane.v) is the fraction of the unit disc, that is, the probability for a point uniform in the disc. The moved point
    is a normal pair given that its radius exceeds 3 (an event of probability exp(-9/2)): it falls between the lines x = q, x = T,
    y = a x and y = b x with the probability a normal pair does, times exp(9/2). *)
Theorem C13_tail_pair : forall a b q T, a <= b -> 3 <= q <= T ->
  share (fun r t => q < tail_radius r * cos t < T) (atan a) (atan b) (exp (9 / 2) * RInt (fun x => phi x * RInt phi (a * x) (b * x)) q T).
Proof. exact wedge_share. Qed.
Print Assumptions C13_tail_pair.
(** The value returned has exactly the normal law: the probability that one round of the branch returns its first coordinate, and that
    this lies between q and T, or between -T and -q, is a constant times the normal probability of that interval; *)
Theorem C13_tail_first : forall q T, 3 <= q <= T ->
  share (fun r t => q < tail_radius r * cos t < T) (- (PI / 2)) (PI / 2) (exp (9 / 2) * RInt phi q T) /\
  share (fun r t => - T < tail_radius r * cos t < - q) (PI / 2) (3 * (PI / 2)) (exp (9 / 2) * RInt phi q T).
Proof. intros q T H. exact (Logic.conj (first_share q T H) (first_share_neg q T H)). Qed.
Print Assumptions C13_tail_first.
(** and so is the probability that it returns its second coordinate. *)
Theorem C13_tail_second : forall q T, 3 <= q <= T ->
  share (fun r t => Rabs (tail_radius r * cos t) <= 3 /\ q < tail_radius r * sin t < T) 0 PI (exp (9 / 2) * (RInt phi (-3) 3 * RInt phi q T)) /\
  share (fun r t => Rabs (tail_radius r * cos t) <= 3 /\ - T < tail_radius r * sin t < - q) (- PI) 0 (exp (9 / 2) * (RInt phi (-3) 3 * RInt phi q T)).
Proof. intros q T H. exact (Logic.conj (second_share q T H) (second_share_neg q T H)). Qed.
Print Assumptions C13_tail_second.
(** A set has one share only. *)
Example C13_share : forall E t1 t2 a b, t1 <= t2 -> share E t1 t2 a -> share E t1 t2 b -> a = b.
Proof. exact share_unique. Qed.
(** The normal density has the integral 1; with C13_central_probability the fourth branch is entered with the probability of the tails,
    to within 1e-9. *)
Theorem C13_total : forall B, 1 <= B -> 0 <= 1 - RInt phi (- B) B <= 2 / B.
Proof. exact phi_total. Qed.
Print Assumptions C13_total.
