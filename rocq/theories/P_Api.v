(** Proofs about programs: seeding, reproducibility, queries, leaks. *)
From Coq Require Import ZArith List Bool Lia.
From Verif Require Import Base Arith M_Variogram M_Padding M_FftSize M_Grid M_CovGrid M_Fft M_Dsfmt M_Random M_Field M_Api
  S_Api P_Base.
Import ListNotations.
Open Scope Z_scope.


Local Opaque new_generator genrand_uint32 init_gen_rand.

Section P.
Context {L : Lib}.
Variable rec : recursion.
Variable fuel : nat.
Notation num := (num L).
Implicit Types c : call L.
Implicit Types p : list (Z * call L).
Notation step := (@step L rec fuel).
Notation run := (@run L rec fuel).

(** ** How a simulation acts on the random state *)

Definition setgen (st : rstate) (d : dsfmt) (k : nat) : rstate :=
  mkRstate (is_init st) (start_seed st) d (k + leaked st).

Definition sim_core (v : variogram L) nx dx ny dy nz dz px py pz sx sy sz (d : dsfmt)
  : outcome (list num * dsfmt * nat) :=
  let* (l, st') := SimulateAny rec fuel v nx dx ny dy nz dz px py pz sx sy sz (mkRstate true 0 d 0) in
  Ok (l, gen st', leaked st').

Local Transparent new_generator.
Lemma new_generator_eq st :
  new_generator rec st =
  (init_gen_rand (fst (genrand_uint32 rec (gen st))), setgen st (snd (genrand_uint32 rec (gen st))) 1).
Proof.
  unfold new_generator, DrawUint32, setgen. destruct (genrand_uint32 rec (gen st)). reflexivity.
Qed.
Local Opaque new_generator.

Lemma SimulateAny_core (v : variogram L) nx dx ny dy nz dz px py pz sx sy sz st :
  SimulateAny rec fuel v nx dx ny dy nz dz px py pz sx sy sz st =
  let* r := sim_core v nx dx ny dy nz dz px py pz sx sy sz (gen st) in
  Ok (fst (fst r), setgen st (snd (fst r)) (snd r)).
Proof.
  unfold sim_core, SimulateAny.
  destruct (dimension ny dy nz dz) as [|[|[|n]]].
  - unfold Simulate3D. simpl gen.
    destruct sizes3 as [[[a b] c]| | |]; simpl; auto.
    destruct (narrow a); simpl; auto. destruct (narrow b); simpl; auto. destruct (narrow c); simpl; auto.
    destruct draws as [[xs d]| | |]; simpl; auto.
    destruct noise_grid3; simpl; auto. destruct field3d; simpl; auto.
  - unfold Simulate1D.
    destruct sizes1; simpl; auto. destruct (narrow a); simpl; auto.
    rewrite !new_generator_eq. simpl gen.
    destruct draws as [[xs d]| | |]; simpl; auto. destruct field1d; simpl; auto.
  - unfold Simulate2D.
    destruct sizes2 as [[a b]| | |]; simpl; auto. destruct (narrow a); simpl; auto. destruct (narrow b); simpl; auto.
    rewrite !new_generator_eq. simpl gen.
    destruct draws as [[xs d]| | |]; simpl; auto.
    destruct noise_grid2; simpl; auto. destruct field2d; simpl; auto.
  - unfold Simulate3D. simpl gen.
    destruct sizes3 as [[[a b] c]| | |]; simpl; auto.
    destruct (narrow a); simpl; auto. destruct (narrow b); simpl; auto. destruct (narrow c); simpl; auto.
    destruct draws as [[xs d]| | |]; simpl; auto.
    destruct noise_grid3; simpl; auto. destruct field3d; simpl; auto.
Qed.

(** 1D and 2D: one 32-bit draw, nothing else of the generator is used *)
Lemma sim_core_low (v : variogram L) nx dx ny dy nz dz px py pz sx sy sz d l d' k :
  dimension ny dy nz dz <> 3%nat ->
  sim_core v nx dx ny dy nz dz px py pz sx sy sz d = Ok (l, d', k) ->
  d' = snd (genrand_uint32 rec d) /\ k = 1%nat.
Proof.
  intros Hd. unfold sim_core, SimulateAny.
  assert (Hdim : dimension ny dy nz dz = 1%nat \/ dimension ny dy nz dz = 2%nat \/ dimension ny dy nz dz = 3%nat).
  { unfold dimension. destruct orb; auto. destruct orb; auto. }
  destruct Hdim as [-> | [-> | E]]; [| | congruence].
  - unfold Simulate1D. rewrite new_generator_eq. intros H.
    apply bind_Ok in H as ([l1 st'] & H & E).
    apply bind_Ok in H as (a & _ & H). apply bind_Ok in H as (a' & _ & H).
    apply bind_Ok in H as ([xs d1] & _ & H). apply bind_Ok in H as (out & _ & H).
    injection H as <- <-. injection E as <- <- <-. auto.
  - unfold Simulate2D. rewrite new_generator_eq. intros H.
    apply bind_Ok in H as ([l1 st'] & H & E).
    apply bind_Ok in H as ([a b] & _ & H). apply bind_Ok in H as (a' & _ & H). apply bind_Ok in H as (b' & _ & H).
    apply bind_Ok in H as ([xs d1] & _ & H). apply bind_Ok in H as (ns & _ & H). apply bind_Ok in H as (out & _ & H).
    injection H as <- <-. injection E as <- <- <-. auto.
Qed.

Lemma sim_core_low_seed (v : variogram L) nx dx ny dy nz dz px py pz sx sy sz d1 d2 :
  dimension ny dy nz dz <> 3%nat ->
  fst (genrand_uint32 rec d1) = fst (genrand_uint32 rec d2) ->
  omap (fun r => fst (fst r)) (sim_core v nx dx ny dy nz dz px py pz sx sy sz d1) =
  omap (fun r => fst (fst r)) (sim_core v nx dx ny dy nz dz px py pz sx sy sz d2).
Proof.
  intros Hd Hs. unfold sim_core, SimulateAny.
  assert (Hdim : dimension ny dy nz dz = 1%nat \/ dimension ny dy nz dz = 2%nat \/ dimension ny dy nz dz = 3%nat).
  { unfold dimension. destruct orb; auto. destruct orb; auto. }
  destruct Hdim as [-> | [-> | E]]; [| | congruence].
  - unfold Simulate1D. destruct sizes1; simpl; auto. destruct (narrow a); simpl; auto.
    rewrite !new_generator_eq. simpl gen. rewrite Hs.
    destruct draws as [[xs d]| | |]; simpl; auto. destruct field1d; simpl; auto.
  - unfold Simulate2D.
    destruct sizes2 as [[a b]| | |]; simpl; auto. destruct (narrow a); simpl; auto. destruct (narrow b); simpl; auto.
    rewrite !new_generator_eq. simpl gen. rewrite Hs.
    destruct draws as [[xs d]| | |]; simpl; auto.
    destruct noise_grid2; simpl; auto. destruct field2d; simpl; auto.
Qed.

Lemma sim_core_3d (v : variogram L) nx dx ny dy nz dz px py pz sx sy sz d l d' k :
  dimension ny dy nz dz = 3%nat ->
  sim_core v nx dx ny dy nz dz px py pz sx sy sz d = Ok (l, d', k) -> k = 0%nat.
Proof.
  unfold sim_core, SimulateAny. intros ->. unfold Simulate3D. intros H.
  apply bind_Ok in H as ([l1 st'] & H & E).
  apply bind_Ok in H as ([[a b] c] & _ & H). apply bind_Ok in H as (a' & _ & H). apply bind_Ok in H as (b' & _ & H).
  apply bind_Ok in H as (c' & _ & H).
  apply bind_Ok in H as ([xs d1] & _ & H). apply bind_Ok in H as (ns & _ & H). apply bind_Ok in H as (out & _ & H).
  injection H as <- <-. injection E as <- <- <-. auto.
Qed.

(** ** The arguments of a simulate call *)
Definition sim_args (c : call L) :
  outcome (variogram L * (Z * num * Z * num * Z * num) * (Z * Z * Z * num * num * num)) :=
  match c with
  | CSimulate v d => let* a := args d in Ok (v, a, (-1, -1, -1, lit L 1 0, lit L 1 0, lit L 1 0))
  | CAdvanced v d a => let* x := args d in let* y := adv_args a in Ok (v, x, y)
  | _ => Throw TypeError
  end.

Definition run_core (x : variogram L * (Z * num * Z * num * Z * num) * (Z * Z * Z * num * num * num)) (d : dsfmt) :=
  let '(v, (nx, dx, ny, dy, nz, dz), (px, py, pz, sx, sy, sz)) := x in
  sim_core v nx dx ny dy nz dz px py pz sx sy sz d.
Definition dim_of (x : variogram L * (Z * num * Z * num * Z * num) * (Z * Z * Z * num * num * num)) :=
  let '(v, (nx, dx, ny, dy, nz, dz), _) := x in dimension ny dy nz dz.

Definition after_core (st : rstate) (r : outcome (list num * dsfmt * nat)) : outcome (value L) * rstate :=
  match r with
  | Ok (l, d, k) => (Ok (VArray l), setgen st d k)
  | Throw e => (Throw e, st)
  | UB u => (UB u, st)
  | NoFuel => (NoFuel, st)
  end.

Lemma args_cases (d : dims L) : (exists a, args d = Ok a) \/ args d = Throw TypeError.
Proof.
  unfold args, as_size.
  destruct (fits_size (d_nx d)); simpl; auto.
  destruct (fits_size (opt (d_ny d) 1)); simpl; auto.
  destruct (fits_size (opt (d_nz d) 1)); simpl; eauto.
Qed.
Lemma adv_args_cases (d : adv L) : (exists a, adv_args d = Ok a) \/ adv_args d = Throw TypeError.
Proof.
  unfold adv_args, as_int.
  destruct (fits_int (opt (a_padx d) (-1))); simpl; auto.
  destruct (fits_int (opt (a_pady d) (-1))); simpl; auto.
  destruct (fits_int (opt (a_padz d) (-1))); simpl; eauto.
Qed.

Lemma step_sim now c st : is_simulate c = true ->
  step now c st =
  match sim_args c with
  | Ok x => after_core (ensure_init rec now st) (run_core x (gen (ensure_init rec now st)))
  | _ => (Throw TypeError, st)
  end.
Proof.
  destruct c; simpl; try discriminate; intros _.
  - destruct (args_cases d) as [[[[[[[nx dx] ny] dy] nz] dz] E]|E]; rewrite E; simpl; auto.
    unfold do_simulate. rewrite SimulateAny_core.
    destruct sim_core as [[[l d'] k]| | |]; simpl; auto.
  - destruct (args_cases d) as [[[[[[[nx dx] ny] dy] nz] dz] E]|E]; rewrite E; simpl; auto.
    destruct (adv_args_cases a) as [[[[[[[px py] pz] sx] sy] sz] E2]|E2]; rewrite E2; simpl; auto.
    unfold do_simulate. rewrite SimulateAny_core.
    destruct sim_core as [[[l d'] k]| | |]; simpl; auto.
Qed.

Lemma fits_size_spec z : fits_size z = true <-> size_ok z.
Proof. unfold fits_size, size_ok. rewrite andb_true_iff, Z.leb_le, Z.ltb_lt. tauto. Qed.
Lemma fits_int_spec z : fits_int z = true <-> int_ok z.
Proof. unfold fits_int, int_ok. rewrite andb_true_iff, Z.leb_le, Z.ltb_lt. tauto. Qed.

Lemma as_size_ok z : size_ok z -> as_size z = Ok z.
Proof. unfold as_size. intros H. apply fits_size_spec in H. rewrite H. auto. Qed.
Lemma as_size_bad z : ~ size_ok z -> as_size z = Throw TypeError.
Proof.
  unfold as_size. intros H. destruct (fits_size z) eqn:E; auto. apply fits_size_spec in E. tauto.
Qed.
Lemma as_size_inv z y : as_size z = Ok y -> size_ok z /\ y = z.
Proof.
  unfold as_size. destruct (fits_size z) eqn:E; [|discriminate]. apply fits_size_spec in E. intros H; injection H; auto.
Qed.
Lemma as_int_inv z y : as_int z = Ok y -> int_ok z /\ y = z.
Proof.
  unfold as_int. destruct (fits_int z) eqn:E; [|discriminate]. apply fits_int_spec in E. intros H; injection H; auto.
Qed.
Lemma as_int_ok z : int_ok z -> as_int z = Ok z.
Proof. unfold as_int. intros H. apply fits_int_spec in H. rewrite H. auto. Qed.

Lemma given_opt {P : Z -> Prop} o d : P d -> (given P o <-> P (opt o d)).
Proof.
  intros Hd. unfold given. destruct o as [z|]; simpl; split; intros H; auto.
  - intros ? E; inversion E; subst; auto.
  - intros ? E; discriminate.
Qed.

Lemma size_ok_1 : size_ok 1. Proof. unfold size_ok; lia. Qed.
Lemma int_ok_m1 : int_ok (-1). Proof. unfold int_ok; lia. Qed.

Lemma args_ok (d : dims L) : dims_ok d <-> exists a, args d = Ok a.
Proof.
  unfold dims_ok. rewrite (given_opt (d_ny d) 1), (given_opt (d_nz d) 1) by exact size_ok_1.
  unfold args. split.
  - intros (H1 & H2 & H3). rewrite !as_size_ok by auto. simpl. eauto.
  - intros [a H]. apply bind_Ok in H as (? & H1 & H). apply bind_Ok in H as (? & H2 & H).
    apply bind_Ok in H as (? & H3 & _).
    apply as_size_inv in H1, H2, H3. tauto.
Qed.

Lemma adv_args_ok (a : adv L) :
  (given int_ok (a_padx a) /\ given int_ok (a_pady a) /\ given int_ok (a_padz a)) <-> exists y, adv_args a = Ok y.
Proof.
  rewrite (given_opt (a_padx a) (-1)), (given_opt (a_pady a) (-1)), (given_opt (a_padz a) (-1)) by exact int_ok_m1.
  unfold adv_args. split.
  - intros (H1 & H2 & H3). rewrite !as_int_ok by auto. simpl. eauto.
  - intros [y H]. apply bind_Ok in H as (? & H1 & H). apply bind_Ok in H as (? & H2 & H).
    apply bind_Ok in H as (? & H3 & _).
    apply as_int_inv in H1, H2, H3. tauto.
Qed.

Lemma sim_args_ok c : is_simulate c = true -> (accepted c <-> exists x, sim_args c = Ok x).
Proof.
  destruct c; simpl; try discriminate; intros _.
  - rewrite args_ok. split.
    + intros [x ->]. simpl. eauto.
    + intros [x H]. apply bind_Ok in H as (y & H & _). eauto.
  - rewrite args_ok, adv_args_ok. split.
    + intros [[x ->] [y ->]]. simpl. eauto.
    + intros [x H]. apply bind_Ok in H as (y & H & H'). apply bind_Ok in H' as (z & H' & _). eauto.
Qed.

Lemma sim_args_cases c : is_simulate c = true -> (exists x, sim_args c = Ok x) \/ sim_args c = Throw TypeError.
Proof.
  destruct c; simpl; try discriminate; intros _.
  - destruct (args_cases d) as [[x ->]| ->]; simpl; eauto.
  - destruct (args_cases d) as [[x ->]| ->]; simpl; eauto.
    destruct (adv_args_cases a) as [[y ->]| ->]; simpl; eauto.
Qed.

Lemma in_range_given lo hi o : in_range lo hi o = true <-> given (fun z => lo <= z < hi) o.
Proof.
  unfold given. destruct o as [z|]; simpl.
  - rewrite andb_true_iff, Z.leb_le, Z.ltb_lt. split.
    + intros H ? E; inversion E; subst; lia.
    + intros H. apply (H z eq_refl).
  - split; auto. intros _ ? E; discriminate.
Qed.
Lemma accepted_b_spec c : accepted_b c = true <-> accepted c.
Proof.
  assert (Hg : forall (P : Z -> Prop) z, given P (Some z) <-> P z).
  { unfold given. intros P z; split; intros H; auto. intros ? E; inversion E; subst; auto. }
  unfold accepted_b, accepted.
  destruct c; unfold dims_ok_b, dims_ok, size_ok, int_ok;
    rewrite ?andb_true_iff, ?in_range_given, ?Hg; try tauto.
Qed.

Lemma not_accepted c : is_simulate c = true -> ~ accepted c -> sim_args c = Throw TypeError.
Proof.
  intros Hs Ha. destruct (sim_args_cases c Hs) as [H|H]; auto. apply sim_args_ok in H; tauto.
Qed.

Lemma step_query now c st : is_query c = true -> snd (step now c st) = st.
Proof. destruct c; simpl; try discriminate; auto. Qed.

Lemma ensure_init_init now st : is_init st = true -> ensure_init rec now st = st.
Proof. unfold ensure_init, GetStartSeed. intros ->. auto. Qed.

(** the dispatch is the dimension asked for *)
Lemma dim_args (d : dims L) nx dx ny dy nz dz : args d = Ok (nx, dx, ny, dy, nz, dz) ->
  dimension ny dy nz dz = dim_asked d.
Proof.
  unfold args. intros H.
  apply bind_Ok in H as (? & H1 & H). apply bind_Ok in H as (? & H2 & H). apply bind_Ok in H as (? & H3 & H).
  apply as_size_inv in H1 as [_ ->]. apply as_size_inv in H2 as [_ ->]. apply as_size_inv in H3 as [_ ->].
  injection H as <- <- <- <- <- <-.
  unfold dimension, dim_asked, wants.
  rewrite !negb_andb, !negb_involutive.
  replace (negb (1 <? opt (d_ny d) 1)) with (opt (d_ny d) 1 <=? 1) by lia.
  replace (negb (1 <? opt (d_nz d) 1)) with (opt (d_nz d) 1 <=? 1) by lia.
  reflexivity.
Qed.


Lemma sim_args_dim c x : sim_args c = Ok x -> exists d, sim_dims c = Some d /\ dim_of x = dim_asked d.
Proof.
  destruct c; simpl; try discriminate; intros H.
  - apply bind_Ok in H as ([[[[[nx dx] ny] dy] nz] dz] & H & E). injection E as <-.
    exists d. split; auto. simpl. eapply dim_args; eauto.
  - apply bind_Ok in H as ([[[[[nx dx] ny] dy] nz] dz] & H & E).
    apply bind_Ok in E as (y & _ & E). injection E as <-.
    exists d. split; auto. simpl. eapply dim_args; eauto.
Qed.

Lemma low_dim_spec c x : sim_args c = Ok x -> (low_dim c = true <-> dim_of x <> 3%nat).
Proof.
  intros H. destruct (sim_args_dim c x H) as (d & Hd & ->).
  destruct c; simpl in *; try discriminate; injection Hd as ->;
    rewrite negb_true_iff, Nat.eqb_neq; tauto.
Qed.

Lemma low_dim_sim c : low_dim c = true -> is_simulate c = true.
Proof. destruct c; simpl; auto. Qed.

(** ** States that differ only in the leak counter, or in the reported seed *)
Definition same (st1 st2 : rstate) : Prop :=
  is_init st1 = is_init st2 /\ start_seed st1 = start_seed st2 /\ gen st1 = gen st2.
Definition same_gen (st1 st2 : rstate) : Prop :=
  is_init st1 = true /\ is_init st2 = true /\ gen st1 = gen st2.

Lemma same_ensure now st1 st2 : same st1 st2 -> same (ensure_init rec now st1) (ensure_init rec now st2).
Proof.
  intros (H1 & H2 & H3). unfold ensure_init, GetStartSeed. rewrite H1.
  destruct (is_init st2) eqn:E; [repeat split; congruence|].
  unfold InitializeTime. destruct genrand_uint32. repeat split.
Qed.

Lemma same_gen_ensure now1 now2 st1 st2 :
  same_gen st1 st2 -> same_gen (ensure_init rec now1 st1) (ensure_init rec now2 st2).
Proof. intros (H1 & H2 & H3). rewrite !ensure_init_init by auto. repeat split; auto. Qed.

Lemma sim_args_not_sim c : is_simulate c = false -> is_query c = true \/ exists z, c = CSeed z.
Proof. destruct c; simpl; try discriminate; eauto. Qed.

Lemma query_same now1 now2 c st1 st2 : is_query c = true -> same st1 st2 ->
  fst (step now1 c st1) = fst (step now2 c st2).
Proof.
  destruct c; simpl; try discriminate; auto. intros _ (H1 & H2 & H3).
  unfold GetStartSeed. rewrite H1, H2. auto.
Qed.

Lemma step_same now c st1 st2 : same st1 st2 ->
  fst (step now c st1) = fst (step now c st2) /\ same (snd (step now c st1)) (snd (step now c st2)).
Proof.
  intros H. destruct (is_simulate c) eqn:Hs.
  - rewrite !step_sim by auto. destruct (sim_args_cases c Hs) as [[x ->]| ->]; [|simpl; auto].
    pose proof (same_ensure now _ _ H) as H'.
    destruct H' as (E1 & E2 & E3). rewrite E3.
    destruct run_core as [[[l d'] k]| | |]; simpl; split; auto; repeat split; auto.
  - destruct (sim_args_not_sim c Hs) as [Hq|[z ->]].
    + rewrite !step_query by auto. split; auto. apply query_same; auto.
    + simpl. destruct (as_size z); simpl; split; auto. repeat split.
Qed.

Lemma step_same_gen now1 now2 c st1 st2 : same_gen st1 st2 -> c <> CGetSeed ->
  fst (step now1 c st1) = fst (step now2 c st2) /\ same_gen (snd (step now1 c st1)) (snd (step now2 c st2)).
Proof.
  intros H Hc. destruct (is_simulate c) eqn:Hs.
  - rewrite !step_sim by auto. destruct (sim_args_cases c Hs) as [[x ->]| ->]; [|simpl; auto].
    pose proof (same_gen_ensure now1 now2 _ _ H) as H'.
    destruct H' as (E1 & E2 & E3). rewrite E3.
    destruct run_core as [[[l d'] k]| | |]; simpl; split; auto; repeat split; auto.
  - destruct (sim_args_not_sim c Hs) as [Hq|[z ->]].
    + rewrite !step_query by auto. split; auto. destruct c; simpl in *; try discriminate; auto. congruence.
    + simpl. destruct (as_size z); simpl; split; auto. repeat split.
Qed.

(** with an initialised generator the clock is not looked at *)
Lemma step_clock now1 now2 c st : is_init st = true -> step now1 c st = step now2 c st.
Proof.
  intros H. destruct (is_simulate c) eqn:Hs.
  - rewrite !step_sim by auto. rewrite !ensure_init_init by auto. auto.
  - destruct c; simpl in *; try discriminate; auto.
Qed.

Lemma step_init now c st : is_init st = true -> is_init (snd (step now c st)) = true.
Proof.
  intros H. destruct (is_simulate c) eqn:Hs.
  - rewrite !step_sim by auto. rewrite !ensure_init_init by auto.
    destruct (sim_args_cases c Hs) as [[x ->]| ->]; simpl; auto.
    destruct run_core as [[[l d'] k]| | |]; simpl; auto.
  - destruct (sim_args_not_sim c Hs) as [Hq|[z ->]].
    + rewrite step_query; auto.
    + simpl. destruct as_size; auto.
Qed.

(** ** Programs *)
Lemma run_cons t c p st :
  run ((t, c) :: p) st =
  let '(o, st1) := step t c st in
  match o with
  | UB _ | NoFuel => ([o], st1)
  | _ => (o :: fst (run p st1), snd (run p st1))
  end.
Proof.
  simpl. destruct (M_Api.step rec fuel t c st) as [o st1].
  destruct o; auto; destruct (M_Api.run rec fuel p st1); auto.
Qed.

Lemma run_same p st1 st2 : same st1 st2 ->
  fst (run p st1) = fst (run p st2) /\ same (snd (run p st1)) (snd (run p st2)).
Proof.
  revert st1 st2; induction p as [|[t c] p IH]; intros st1 st2 H; [simpl; auto|].
  rewrite !run_cons. destruct (step_same t c _ _ H) as [E E'].
  destruct (step t c st1) as [o1 s1], (step t c st2) as [o2 s2]. simpl in E, E'. subst o2.
  destruct (IH _ _ E') as [F F'].
  destruct o1; simpl; rewrite ?F; auto.
Qed.

Lemma run_clock cs ts1 ts2 st : is_init st = true -> length ts1 = length cs -> length ts2 = length cs ->
  run (combine ts1 cs) st = run (combine ts2 cs) st.
Proof.
  revert ts1 ts2 st; induction cs as [|c cs IH]; intros [|t1 ts1] [|t2 ts2] st H E1 E2; simpl in E1, E2; try discriminate; auto.
  simpl combine. rewrite !run_cons. rewrite (step_clock t1 t2) by auto.
  pose proof (step_init t2 c st H) as Hi.
  destruct (step t2 c st) as [o s]. simpl in Hi.
  destruct o; auto; rewrite (IH ts1 ts2 s Hi) by auto; auto.
Qed.

Lemma run_same_gen cs ts1 ts2 st1 st2 : same_gen st1 st2 -> length ts1 = length cs -> length ts2 = length cs ->
  (forall c, In c cs -> c <> CGetSeed) ->
  fst (run (combine ts1 cs) st1) = fst (run (combine ts2 cs) st2) /\
  same_gen (snd (run (combine ts1 cs) st1)) (snd (run (combine ts2 cs) st2)).
Proof.
  revert ts1 ts2 st1 st2; induction cs as [|c cs IH]; intros [|t1 ts1] [|t2 ts2] st1 st2 H E1 E2 Hc;
    simpl in E1, E2; try discriminate; auto.
  simpl combine. rewrite !run_cons.
  destruct (step_same_gen t1 t2 c _ _ H) as [E E']; [apply Hc; simpl; auto|].
  destruct (step t1 c st1) as [o1 s1], (step t2 c st2) as [o2 s2]. simpl in E, E'. subst o2.
  destruct (IH ts1 ts2 s1 s2) as [F F']; auto; [intros; apply Hc; simpl; auto|].
  destruct o1; simpl; rewrite ?F; auto.
Qed.

Lemma run_app p q st : Forall came_back (fst (run p st)) ->
  run (p ++ q) st = (fst (run p st) ++ fst (run q (snd (run p st))), snd (run q (snd (run p st)))).
Proof.
  revert st; induction p as [|[t c] p IH]; intros st H.
  - simpl. destruct (M_Api.run rec fuel q st); auto.
  - simpl app. rewrite !run_cons in *. destruct (step t c st) as [o s].
    destruct o; simpl in *; inversion H; subst; simpl in *; try tauto; rewrite IH by auto;
      destruct (M_Api.run rec fuel p s); auto.
Qed.

(** ** C01 *)
Lemma seed_step t s st : size_ok s -> step t (CSeed s) st = (Ok VNone, InitializeSeed s st).
Proof. intros H. simpl. rewrite as_size_ok; auto. Qed.

Lemma seed_reproducible (h1 h2 : list (Z * call L)) t1 t2 s cs ts1 ts2 :
  size_ok s -> length ts1 = length cs -> length ts2 = length cs ->
  let p1 := (t1, CSeed s) :: at_times ts1 cs in
  let p2 := (t2, CSeed s) :: at_times ts2 cs in
  fst (run p1 (after rec fuel h1)) = fst (run p2 (after rec fuel h2)) /\
  same (snd (run p1 (after rec fuel h1))) (snd (run p2 (after rec fuel h2))).
Proof.
  intros Hs E1 E2. cbv zeta. rewrite !run_cons, !seed_step by auto. unfold at_times. simpl.
  rewrite (run_clock cs ts1 ts2) by auto.
  destruct (run_same (combine ts2 cs) (InitializeSeed s (after rec fuel h1)) (InitializeSeed s (after rec fuel h2)))
    as [F F']; [repeat split|]. rewrite F. auto.
Qed.

(** ** C02 *)
Definition auto_seed (t : Z) : Z := fst (genrand_uint32 rec (init_gen_rand (u64 t))).

Local Transparent genrand_uint32.
Lemma genrand_uint32_range d : 0 <= fst (genrand_uint32 rec d) < 2 ^ 32.
Proof.
  unfold genrand_uint32. destruct next_word as [w d']. simpl fst.
  change 0xffffffff with (Z.ones 32). rewrite Z.land_ones by lia. apply Z.mod_pos_bound. lia.
Qed.
Local Opaque genrand_uint32.

Lemma InitializeTime_eq t st :
  InitializeTime rec t st = InitializeSeed (auto_seed t) st.
Proof. unfold InitializeTime, InitializeSeed, auto_seed. destruct genrand_uint32. reflexivity. Qed.

Lemma ensure_init_eq t st :
  ensure_init rec t st = if is_init st then st else InitializeSeed (auto_seed t) st.
Proof.
  unfold ensure_init, GetStartSeed. destruct (is_init st); [reflexivity|apply InitializeTime_eq].
Qed.


(** The seed in force after a program whose calls all came back: the last seed given, or else the one chosen
    at the first simulation. *)
Lemma run_seed p st : Forall came_back (fst (run p st)) ->
  let st' := snd (run p st) in
  (if is_init st' then Some (start_seed st') else None) =
  seed_in_force auto_seed (if is_init st then Some (start_seed st) else None) p.
Proof.
  revert st; induction p as [|[t c] p IH]; intros st H; [reflexivity|].
  rewrite run_cons in *. simpl seed_in_force.
  assert (Hst : (if is_init (snd (step t c st)) then Some (start_seed (snd (step t c st))) else None) =
    seed_effect auto_seed t c (if is_init st then Some (start_seed st) else None)).
  { destruct (is_simulate c) eqn:Hs.
    - rewrite step_sim by auto.
      assert (Ha : match sim_args c with Ok _ => true | _ => false end = accepted_b c).
      { destruct (sim_args_cases c Hs) as [[x Hx]|Hx]; rewrite Hx.
        - symmetry. apply accepted_b_spec. apply sim_args_ok; eauto.
        - destruct (accepted_b c) eqn:E; auto. apply accepted_b_spec in E. apply sim_args_ok in E as [x E]; auto.
          congruence. }
      destruct (sim_args_cases c Hs) as [[x Hx]|Hx]; rewrite Hx in *.
      + replace (seed_effect auto_seed t c (if is_init st then Some (start_seed st) else None))
          with (match (if is_init st then Some (start_seed st) else None) with
                | Some z => Some z | None => Some (auto_seed t) end)
          by (destruct c; simpl in Hs; try discriminate; unfold seed_effect; rewrite <- Ha; auto).
        rewrite ensure_init_eq.
        destruct (is_init st) eqn:Ei; destruct run_core as [[[l d'] k]| | |]; simpl; rewrite ?Ei; auto.
      + simpl. destruct c; simpl in Hs; try discriminate; unfold seed_effect; rewrite <- Ha; auto.
    - destruct (sim_args_not_sim c Hs) as [Hq|[z ->]].
      + rewrite step_query by auto. destruct c; simpl in *; try discriminate; auto.
      + unfold M_Api.step, as_size, fits_size, seed_effect, accepted_b, in_range.
        destruct ((0 <=? z) && (z <? 2 ^ 64)); reflexivity. }
  destruct (step t c st) as [o s]. simpl in Hst.
  destruct o; simpl in *; inversion H; subst; simpl in *; try tauto; rewrite <- Hst; apply IH; auto.
Qed.

(** ** C03 *)
Lemma auto_seed_range t : 0 <= auto_seed t < 2 ^ 32.
Proof. apply genrand_uint32_range. Qed.

Lemma seed_in_force_keep auto (l : list (Z * call L)) z :
  (forall y, In y l -> forall w, snd y <> CSeed w) -> seed_in_force auto (Some z) l = Some z.
Proof.
  revert z; induction l as [|[t c] l IH]; intros z H; auto.
  pose proof (H (t, c) (or_introl eq_refl)) as Hc. cbn [snd] in Hc.
  assert (Hi : seed_in_force auto (Some z) l = Some z) by (apply IH; intros; apply H; simpl; auto).
  destruct c; cbn [seed_in_force seed_effect]; auto; try (destruct accepted_b; auto).
  exfalso; eapply Hc; eauto.
Qed.

Lemma replay t c ts cs st t0 t0' ts' :
  is_init st = false -> is_simulate c = true -> accepted c ->
  length ts = length cs -> length ts' = length cs ->
  forall st',
  let r1 := run ((t, c) :: at_times ts cs) st in
  let r2 := run ((t0, CSeed (auto_seed t)) :: (t0', c) :: at_times ts' cs) st' in
  fst r2 = Ok VNone :: fst r1 /\ gen (snd r2) = gen (snd r1) /\
  is_init (snd r1) = true /\ 
  (Forall came_back (fst r1) -> (forall z, ~ In (CSeed z) cs) -> start_seed (snd r1) = auto_seed t).
Proof.
  intros Hi Hs Ha E1 E2 st'. cbv zeta.
  pose proof (auto_seed_range t) as Hr.
  assert (Hz : size_ok (auto_seed t)) by (unfold size_ok; lia).
  rewrite (run_cons t0), seed_step by auto.
  assert (Hstep : step t c st = step t c (InitializeSeed (auto_seed t) st)).
  { rewrite !step_sim, !ensure_init_eq by auto. rewrite Hi. simpl. 
    destruct (proj1 (sim_args_ok c Hs) Ha) as [x ->]. auto. }
  assert (Hrun : run ((t, c) :: at_times ts cs) st = run ((t, c) :: at_times ts cs) (InitializeSeed (auto_seed t) st)).
  { rewrite !run_cons, Hstep. auto. }
  rewrite Hrun.
  assert (Hc : run ((t0', c) :: at_times ts' cs) (InitializeSeed (auto_seed t) st') =
               run ((t, c) :: at_times ts cs) (InitializeSeed (auto_seed t) st')).
  { apply (run_clock (c :: cs) (t0' :: ts') (t :: ts)); simpl; auto. }
  destruct (run_same ((t, c) :: at_times ts cs) (InitializeSeed (auto_seed t) st) (InitializeSeed (auto_seed t) st'))
    as [F (F1 & F2 & F3)]; [repeat split|].
  repeat split.
  - cbn [fst]. rewrite Hc, F. reflexivity.
  - cbn [snd]. rewrite Hc. auto.
  - clear -fuel. assert (H : is_init (InitializeSeed (auto_seed t) st) = true) by auto.
    revert H. generalize (InitializeSeed (auto_seed t) st) as s. 
    generalize ((t, c) :: at_times ts cs) as p.
    induction p as [|[t1 c1] p IH]; intros s H; auto. rewrite run_cons.
    pose proof (step_init t1 c1 s H). destruct (step t1 c1 s) as [o s1]. destruct o; simpl in *; auto.
  - intros Hb Hns.
    pose proof (run_seed _ _ Hb) as Hf. cbv zeta in Hf. simpl is_init in Hf at 2. simpl start_seed in Hf at 2.
    cbv iota in Hf. rewrite seed_in_force_keep in Hf.
    + destruct is_init in Hf; [injection Hf; auto|discriminate].
    + intros y Hy w. destruct Hy as [<-|Hy]; simpl.
      * intros ->. discriminate.
      * destruct y as [ty cy]. apply in_combine_r in Hy. simpl. intros ->. eapply Hns; eauto.
Qed.

(** ** C04 *)
Local Transparent init_gen_rand.
Lemma init_gen_rand_u32 s1 s2 : s1 mod 2 ^ 32 = s2 mod 2 ^ 32 -> init_gen_rand s1 = init_gen_rand s2.
Proof. unfold init_gen_rand, u32. intros ->. reflexivity. Qed.
Local Opaque init_gen_rand.

Lemma seed_low32 s1 s2 t1 t2 st1 st2 cs ts1 ts2 :
  size_ok s1 -> size_ok s2 -> s1 mod 2 ^ 32 = s2 mod 2 ^ 32 ->
  length ts1 = length cs -> length ts2 = length cs ->
  (forall c, In c cs -> c <> CGetSeed) ->
  fst (run ((t1, CSeed s1) :: at_times ts1 cs) st1) = fst (run ((t2, CSeed s2) :: at_times ts2 cs) st2).
Proof.
  intros H1 H2 E E1 E2 Hc. rewrite !run_cons, !seed_step by auto. simpl fst. f_equal.
  apply run_same_gen; auto. repeat split; simpl. apply init_gen_rand_u32; auto.
Qed.

(** ** C10 *)
Lemma run_erase p st : Forall came_back (fst (run p st)) ->
  run (filter (fun x => negb (is_query (snd x))) p) st =
  (map snd (filter (fun x => negb (is_query (snd (fst x)))) (combine p (fst (run p st)))), snd (run p st)).
Proof.
  revert st; induction p as [|[t c] p IH]; intros st H; [reflexivity|].
  rewrite run_cons in H |- *. simpl filter.
  destruct (is_query c) eqn:Hq; simpl.
  - pose proof (step_query t c st Hq) as Hst. destruct (step t c st) as [o s]. simpl in Hst. subst s.
    destruct o; simpl in *; inversion H; subst; simpl in *; try tauto;
      rewrite Hq; simpl; rewrite IH by auto; auto.
  - pose proof (run_cons t c (filter (fun x => negb (is_query (snd x))) p) st) as R. simpl M_Api.run in R.
    rewrite R. clear R.
    destruct (M_Api.step rec fuel t c st) as [o s].
    destruct o; simpl in *; inversion H; subst; simpl in *; try tauto;
      rewrite Hq; simpl; rewrite IH by auto; auto.
Qed.

(** ** C09, C46: what 1D and 2D calls do to the state *)
Lemma step_low t c st l s : low_dim c = true -> is_init st = true ->
  step t c st = (Ok (VArray l), s) -> s = setgen st (snd (genrand_uint32 rec (gen st))) 1.
Proof.
  intros Hl Hi. rewrite step_sim by (apply low_dim_sim; auto).
  destruct (sim_args_cases c (low_dim_sim c Hl)) as [[x Hx]|Hx]; rewrite Hx; [|discriminate].
  apply (low_dim_spec c x Hx) in Hl. rewrite ensure_init_init by auto.
  destruct (run_core x (gen st)) as [[[l' d'] k]| | |] eqn:E; simpl; intros H; inversion H; subst.
  destruct x as [[v [[[[[nx dx] ny] dy] nz] dz]] [[[[[px py] pz] sx] sy] sz]]. simpl in *.
  apply sim_core_low in E as [-> ->]; auto.
Qed.

Lemma step_low_depends t1 t2 c st1 st2 : low_dim c = true -> is_init st1 = true -> is_init st2 = true ->
  fst (genrand_uint32 rec (gen st1)) = fst (genrand_uint32 rec (gen st2)) ->
  fst (step t1 c st1) = fst (step t2 c st2).
Proof.
  intros Hl Hi1 Hi2 E. rewrite !step_sim by (apply low_dim_sim; auto).
  destruct (sim_args_cases c (low_dim_sim c Hl)) as [[x Hx]|Hx]; rewrite Hx; [|auto].
  apply (low_dim_spec c x Hx) in Hl. rewrite !ensure_init_init by auto.
  destruct x as [[v [[[[[nx dx] ny] dy] nz] dz]] [[[[[px py] pz] sx] sy] sz]]. simpl in *.
  pose proof (sim_core_low_seed v nx dx ny dy nz dz px py pz sx sy sz _ _ Hl E) as F.
  destruct (sim_core v nx dx ny dy nz dz px py pz sx sy sz (gen st1)) as [[[l1 d1] k1]| | |],
           (sim_core v nx dx ny dy nz dz px py pz sx sy sz (gen st2)) as [[[l2 d2] k2]| | |];
    simpl in *; congruence.
Qed.

(** a list of 1D/2D calls that all returned arrays: the generator has made one draw per call *)
Fixpoint draw_n (n : nat) (d : dsfmt) : dsfmt :=
  match n with O => d | S n => draw_n n (snd (genrand_uint32 rec d)) end.

Lemma run_low p st : is_init st = true ->
  Forall (fun x => low_dim (snd x) = true) p ->
  Forall is_array (fst (run p st)) ->
  snd (run p st) = setgen st (draw_n (length p) (gen st)) (length p).
Proof.
  revert st; induction p as [|[t c] p IH]; intros st Hi Hl Ha.
  - destruct st; reflexivity.
  - inversion Hl as [|? ? Hlc Hlp]; subst. simpl in Hlc. rewrite run_cons in *.
    destruct (step t c st) as [o s] eqn:E.
    assert (Ho : is_array o) by (destruct o; simpl in Ha; inversion Ha; auto).
    destruct Ho as [l ->]. simpl in Ha |- *. inversion Ha; subst.
    apply step_low in E; auto. subst s. rewrite IH by auto.
    unfold setgen. simpl. f_equal. lia.
Qed.

Lemma low_dim_independent st p1 p2 t1 t2 c : is_init st = true -> length p1 = length p2 ->
  Forall (fun x => low_dim (snd x) = true) p1 -> Forall (fun x => low_dim (snd x) = true) p2 ->
  Forall is_array (fst (run p1 st)) -> Forall is_array (fst (run p2 st)) ->
  fst (step t1 c (snd (run p1 st))) = fst (step t2 c (snd (run p2 st))) /\
  gen (snd (step t1 c (snd (run p1 st)))) = gen (snd (step t2 c (snd (run p2 st)))).
Proof.
  intros Hi Hlen H1 H2 A1 A2. rewrite !run_low by auto. rewrite Hlen.
  rewrite (step_clock t1 t2) by auto. auto.
Qed.

(** ** C46 *)
Lemma leak_count p st :
  leaked (snd (run p st)) = (low_dim_fields p (fst (run p st)) + leaked st)%nat.
Proof.
  revert st; induction p as [|[t c] p IH]; intros st; [reflexivity|].
  rewrite run_cons. 
  assert (Hs : leaked (snd (step t c st)) =
               ((match fst (step t c st) with Ok _ => if low_dim c then 1 else 0 | _ => 0 end) + leaked st)%nat).
  { destruct (is_simulate c) eqn:Hs.
    - rewrite step_sim by auto. destruct (sim_args_cases c Hs) as [[x Hx]|Hx]; rewrite Hx; [|auto].
      rewrite ensure_init_eq. set (st1 := if is_init st then st else _).
      assert (Hl : leaked st1 = leaked st) by (unfold st1; destruct (is_init st); auto).
      destruct (run_core x (gen st1)) as [[[l d'] k]| | |] eqn:E; simpl; auto.
      rewrite Hl. f_equal.
      pose proof (low_dim_spec c x Hx) as Hd.
      destruct x as [[v [[[[[nx dx] ny] dy] nz] dz]] [[[[[px py] pz] sx] sy] sz]]. simpl in *.
      destruct (low_dim c).
      + apply sim_core_low in E; [tauto|]. apply Hd; auto.
      + apply sim_core_3d in E; auto.
        destruct (Nat.eq_dec (dimension ny dy nz dz) 3) as [|H]; auto. apply Hd in H. discriminate.
    - assert (low_dim c = false) as -> by (destruct c; simpl in *; auto; discriminate).
      destruct (sim_args_not_sim c Hs) as [Hq|[z ->]].
      + rewrite step_query by auto. destruct (fst (step t c st)); auto.
      + simpl. destruct (as_size z); simpl; auto. }
  destruct (step t c st) as [o s]. simpl in Hs.
  destruct o; cbn [fst snd low_dim_fields]; rewrite ?IH, ?Hs; try lia;
    (destruct p as [|[? ?]]; reflexivity).
Qed.


(** ** C11 *)
Lemma threads_order sched now c : is_simulate c = true ->
  forall (threads : list (list (call L))) st, is_init st = true ->
  (forall tid c', In c' (nth tid threads []) -> c' = c) ->
  let n := length (thread_run rec fuel sched threads now st) in
  map snd (thread_run rec fuel sched threads now st) =
  map snd (thread_run rec fuel (repeat 0%nat n) [repeat c n] now st).
Proof.
  intros Hs. induction sched as [|tid sched IH]; intros threads st Hi Hc; [reflexivity|].
  cbv zeta. simpl. destruct (nth tid threads []) as [|c' cs] eqn:En.
  - apply IH; auto.
  - assert (c' = c) as -> by (apply (Hc tid); rewrite En; simpl; auto).
    pose proof (step_init now c st Hi) as Hi'.
    destruct (M_Api.step rec fuel now c st) as [o s] eqn:E. simpl in Hi'. simpl.
    rewrite E. simpl. f_equal. apply IH; auto.
    intros tid' c'' Hin. rewrite nth_upd in Hin.
    destruct ((tid =? tid')%nat && (tid' <? length threads)%nat) eqn:Eb.
    + apply (Hc tid). rewrite En. simpl; auto.
    + apply (Hc tid'); auto.
Qed.

End P.
