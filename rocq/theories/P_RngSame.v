(** The portable and the SSE2 build produce the same results, for every program. *)
From Coq Require Import ZArith List Bool Lia.
From Verif Require Import Base Arith M_Variogram M_Padding M_FftSize M_Grid M_CovGrid M_Fft M_Dsfmt M_DsfmtBulk M_Random M_Field M_Api
  S_Api S_Random P_Base P_Api P_Words P_Rng P_RngInit.
Import ListNotations.
Open Scope nat_scope.

Local Opaque new_generator genrand_uint32 init_gen_rand.

Lemma sse2_agree a b L : hi128 a -> hi128 b -> wf L -> do_recursion a b L = do_recursion_sse2 a b L.
Proof. intros _ _ HL. symmetry. apply sse2_eq; auto. Qed.

Lemma X_same seed n : X do_recursion (start seed) n = X do_recursion_sse2 (start seed) n.
Proof. apply (good_X _ _ hi128 wf sse2_agree rec_hi n _ (start_good seed)). Qed.
Lemma slides_same seed n : slides do_recursion n (start seed) = slides do_recursion_sse2 n (start seed).
Proof. apply (good_slides _ _ hi128 wf sse2_agree rec_hi n _ (start_good seed)). Qed.
Lemma X_hi seed n : hi128 (X do_recursion (start seed) n).
Proof. apply (good_X _ _ hi128 wf sse2_agree rec_hi n _ (start_good seed)). Qed.
Lemma Lg_wf seed n : wf (Lg do_recursion (start seed) n).
Proof. apply (good_L _ _ hi128 wf sse2_agree rec_hi n _ (start_good seed)). Qed.
Lemma Wd_same seed k : Wd do_recursion (start seed) k = Wd do_recursion_sse2 (start seed) k.
Proof. unfold Wd. rewrite X_same. reflexivity. Qed.
Lemma Lg_same seed n : Lg do_recursion (start seed) n = Lg do_recursion_sse2 (start seed) n.
Proof. unfold Lg. rewrite slides_same. reflexivity. Qed.

Lemma shows_same seed n st : shows do_recursion (start seed) n st <-> shows do_recursion_sse2 (start seed) n st.
Proof.
  unfold shows. rewrite Lg_same. split; intros (H1 & H2 & H3); repeat split; auto; intros j Hj.
  - rewrite <- X_same; auto.
  - rewrite X_same; auto.
Qed.
Lemma shows_unique rec s n st1 st2 : shows rec s n st1 -> shows rec s n st2 -> st1 = st2.
Proof.
  intros (H1 & H2 & H3) (K1 & K2 & K3). apply nth_ext with w128_0 w128_0; [congruence|].
  intros j Hj. rewrite H1 in Hj. destruct (Nat.eq_dec j DSFMT_N) as [->|]; [congruence|].
  rewrite H2, K2 by lia. reflexivity.
Qed.
Lemma pos_same seed k g : pos_ok do_recursion (start seed) k g <-> pos_ok do_recursion_sse2 (start seed) k g.
Proof. unfold pos_ok. split; intros (n & H & E); exists n; (split; [apply shows_same; auto|auto]). Qed.

Definition seeded (g : dsfmt) : Prop :=
  (exists seed k, pos_ok do_recursion (start seed) k g) /\ reachable do_recursion g.
Lemma seeded_init seed : seeded (init_gen_rand seed).
Proof. split; [exists seed, 0; apply init_pos|exists seed, []; reflexivity]. Qed.

Lemma refill_same g seed k : pos_ok do_recursion (start seed) k g ->
  gen_rand_all do_recursion (status g) = gen_rand_all do_recursion_sse2 (status g).
Proof.
  intros (n & H & _). apply (shows_unique do_recursion (start seed) (n + DSFMT_N)).
  - apply shows_refill; auto using start_length.
  - apply shows_same. apply shows_refill; auto using start_length. apply shows_same; auto.
Qed.

Lemma next_word_same g : seeded g ->
  next_word do_recursion g = next_word do_recursion_sse2 g /\ seeded (snd (next_word do_recursion g)).
Proof.
  intros ((seed & k & H) & (seed' & h & R)). split; [|split].
  - unfold next_word. rewrite (refill_same g seed k H). reflexivity.
  - exists seed, (S k). apply next_word_pos; [apply start_length|exact H].
  - exists seed', (h ++ [D12]). unfold after_draws. rewrite fold_left_app. fold (after_draws do_recursion h (init_gen_rand seed')).
    rewrite <- R. cbn [fold_left after_draw]. unfold genrand_close1_open2. destruct (next_word do_recursion g). reflexivity.
Qed.

(** ** Normal draws *)
Section Norm.
Context {A : Arith} {St : Type}.
Variables (u1 u2 : St -> num A * St) (I : St -> Prop).
Hypothesis same : forall s, I s -> u1 s = u2 s /\ I (snd (u1 s)).

Definition eqI {T} (o1 o2 : outcome (T * St)) : Prop :=
  o1 = o2 /\ forall x s, o1 = Ok (x, s) -> I s.

Ltac one s H :=
  let E := fresh "E" in let K := fresh "K" in
  destruct (same s H) as [E K]; rewrite <- E; clear E; destruct (u1 s); cbn [snd] in K.

Lemma wedge_same fuel s : I s -> eqI (wedge u1 fuel s) (wedge u2 fuel s).
Proof.
  revert s; induction fuel; intros s H; cbn [wedge]; [split; auto; discriminate|].
  one s H. one s0 K. destruct (fgt _ _); auto. split; auto. intros ? ? [= <- <-]; auto.
Qed.
Lemma disc_same fuel s : I s -> eqI (disc u1 fuel s) (disc u2 fuel s).
Proof.
  revert s; induction fuel; intros s H; cbn [disc]; [split; auto; discriminate|].
  one s H. one s0 K. destruct (fge _ _); auto. split; auto. intros ? ? [= <- <-]; auto.
Qed.
Lemma tail_same fuel s : I s -> eqI (tail u1 fuel s) (tail u2 fuel s).
Proof.
  revert s; induction fuel; intros s H; cbn [tail]; [split; auto; discriminate|].
  destruct (disc_same (S fuel) s H) as [E K]. rewrite <- E.
  destruct (disc u1 (S fuel) s) as [[[[v1 v2] w] s1]| | |]; cbn [bind]; try (split; auto; discriminate).
  specialize (K _ _ eq_refl). destruct (_ && _)%bool; auto. split; auto. intros ? ? [= <- <-]; auto.
Qed.
Lemma Norm01_same fuel s : I s -> eqI (Norm01 u1 fuel s) (Norm01 u2 fuel s).
Proof.
  intros H. unfold Norm01. one s H. destruct (flt _ _ _).
  - one s0 K. one s1 K0. one s2 K1. split; auto. intros ? ? [= <- <-]; auto.
  - destruct (flt _ _ _).
    + one s0 K. one s1 K0. split; auto. intros ? ? [= <- <-]; auto.
    + destruct (flt _ _ _); [apply wedge_same|apply tail_same]; auto.
Qed.
Lemma draws_same fuel n s : I s -> eqI (draws u1 fuel n s) (draws u2 fuel n s).
Proof.
  revert s; induction n; intros s H; cbn [draws].
  - split; auto. intros ? ? [= <- <-]; auto.
  - destruct (Norm01_same fuel s H) as [E K]. rewrite <- E.
    destruct (Norm01 u1 fuel s) as [[x s1]| | |]; cbn [bind]; try (split; auto; discriminate).
    specialize (K _ _ eq_refl). destruct (IHn s1 K) as [E' K']. rewrite <- E'.
    destruct (draws u1 fuel n s1) as [[xs s2]| | |]; cbn [bind]; try (split; auto; discriminate).
    split; auto. intros ? ? [= <- <-]. eapply K'; eauto.
Qed.
End Norm.

Lemma Unif01_same {A : Arith} g : seeded g ->
  Unif01 (A := A) do_recursion g = Unif01 do_recursion_sse2 g /\ seeded (snd (Unif01 (A := A) do_recursion g)).
Proof.
  intros H. destruct (next_word_same g H) as [E K]. unfold Unif01. rewrite <- E.
  destruct (next_word do_recursion g). auto.
Qed.
Local Transparent genrand_uint32.
Lemma uint32_same g : seeded g ->
  genrand_uint32 do_recursion g = genrand_uint32 do_recursion_sse2 g /\ seeded (snd (genrand_uint32 do_recursion g)).
Proof.
  intros H. destruct (next_word_same g H) as [E K]. unfold genrand_uint32. rewrite <- E.
  destruct (next_word do_recursion g). auto.
Qed.
Local Opaque genrand_uint32.

(** ** Whole programs *)
Ltac fails := try match goal with
  | |- Throw _ = _ /\ _ => split; [reflexivity|discriminate]
  | |- UB _ = _ /\ _ => split; [reflexivity|discriminate]
  | |- NoFuel = _ /\ _ => split; [reflexivity|discriminate]
  end.

Section Api.
Context {L : Lib}.
Variable fuel : nat.
Notation num := (num L).

Lemma draws_build n g : seeded g ->
  eqI seeded (draws (Unif01 (A := L) do_recursion) fuel n g) (draws (Unif01 (A := L) do_recursion_sse2) fuel n g).
Proof. apply draws_same. intros; apply Unif01_same; auto. Qed.

Lemma sim_core_same (v : variogram L) nx dx ny dy nz dz px py pz sx sy sz d : seeded d ->
  sim_core do_recursion fuel v nx dx ny dy nz dz px py pz sx sy sz d =
  sim_core do_recursion_sse2 fuel v nx dx ny dy nz dz px py pz sx sy sz d /\
  forall l d' k, sim_core do_recursion fuel v nx dx ny dy nz dz px py pz sx sy sz d = Ok (l, d', k) -> seeded d'.
Proof.
  intros Hd. unfold sim_core, SimulateAny. destruct (uint32_same d Hd) as [Eu Ku].
  assert (H3 : let f rec := let* (l, st') := Simulate3D rec fuel v nx dx ny dy nz dz px py pz sx sy sz (mkRstate true 0 d 0)
                 in Ok (l, gen st', leaked st') in
     f do_recursion = f do_recursion_sse2 /\ forall l d' k, f do_recursion = Ok (l, d', k) -> seeded d').
  { cbv zeta. unfold Simulate3D. cbn [gen].
    destruct (sizes3 v nx dx ny dy nz dz px py pz) as [[[a b] c]| | |]; cbn [bind]; fails.
    destruct (narrow a) as [a'| | |]; cbn [bind]; fails.
    destruct (narrow b) as [b'| | |]; cbn [bind]; fails.
    destruct (narrow c) as [c'| | |]; cbn [bind]; fails.
    destruct (draws_build (a' * b' * c') d Hd) as [E K]. rewrite <- E.
    destruct (draws (Unif01 do_recursion) fuel (a' * b' * c') d) as [[xs d1]| | |]; cbn [bind]; fails.
    specialize (K _ _ eq_refl).
    destruct (noise_grid3 a' b' c' xs) as [nz'| | |]; cbn [bind]; fails.
    destruct (field3d _ _ _ _ _ _ _ _ _ _ _ _ _ _) as [out| | |]; cbn [bind]; fails.
    split; [reflexivity|]. intros l d' k [= <- <- <-]. exact K. }
  destruct (dimension ny dy nz dz) as [|[|[|n]]]; [exact H3| | |exact H3]; clear H3.
  - unfold Simulate1D.
    destruct (sizes1 v nx dx px) as [a| | |]; cbn [bind]; fails.
    destruct (narrow a) as [a'| | |]; cbn [bind]; fails.
    rewrite !new_generator_eq. cbn [gen]. rewrite <- Eu.
    destruct (draws_build a' (init_gen_rand (fst (genrand_uint32 do_recursion d))) (seeded_init _)) as [E K]. rewrite <- E.
    destruct (draws (Unif01 do_recursion) fuel a' _) as [[xs d1]| | |]; cbn [bind]; fails.
    destruct (field1d _ _ _ _ _ _) as [out| | |]; cbn [bind]; fails.
    split; [reflexivity|]. intros l d' k [= <- <- <-]. exact Ku.
  - unfold Simulate2D.
    destruct (sizes2 v nx dx ny dy px py) as [[a b]| | |]; cbn [bind]; fails.
    destruct (narrow a) as [a'| | |]; cbn [bind]; fails.
    destruct (narrow b) as [b'| | |]; cbn [bind]; fails.
    rewrite !new_generator_eq. cbn [gen]. rewrite <- Eu.
    destruct (draws_build (a' * b') (init_gen_rand (fst (genrand_uint32 do_recursion d))) (seeded_init _)) as [E K]. rewrite <- E.
    destruct (draws (Unif01 do_recursion) fuel (a' * b') _) as [[xs d1]| | |]; cbn [bind]; fails.
    destruct (noise_grid2 a' b' xs) as [nz'| | |]; cbn [bind]; fails.
    destruct (field2d _ _ _ _ _ _ _ _ _ _) as [out| | |]; cbn [bind]; fails.
    split; [reflexivity|]. intros l d' k [= <- <- <-]. exact Ku.
Qed.

Definition st_ok (st : rstate) : Prop := is_init st = true -> seeded (gen st).

Lemma ensure_same now st : st_ok st ->
  ensure_init do_recursion now st = ensure_init do_recursion_sse2 now st /\
  seeded (gen (ensure_init do_recursion now st)) /\ is_init (ensure_init do_recursion now st) = true.
Proof.
  intros H. unfold ensure_init, GetStartSeed. destruct (is_init st) eqn:E; [auto|].
  unfold InitializeTime. destruct (uint32_same _ (seeded_init (u64 now))) as [Eu _]. rewrite <- Eu.
  destruct (genrand_uint32 do_recursion _) as [s d]. cbn [gen is_init]. auto using seeded_init.
Qed.

Lemma step_build now (c : call L) st : st_ok st ->
  step do_recursion fuel now c st = step do_recursion_sse2 fuel now c st /\
  st_ok (snd (step do_recursion fuel now c st)).
Proof.
  intros H. destruct (is_simulate c) eqn:Hs.
  - rewrite !step_sim by auto. destruct (ensure_same now st H) as (E & K & Ki). rewrite <- E.
    destruct (sim_args c) as [x| | |]; [|split; [reflexivity|exact H]..].
    destruct x as [[v [[[[[nx dx] ny] dy] nz] dz]] [[[[[px py] pz] sx] sy] sz]]. cbn [run_core].
    destruct (sim_core_same v nx dx ny dy nz dz px py pz sx sy sz _ K) as [Es Ks]. rewrite <- Es.
    destruct (sim_core do_recursion fuel v nx dx ny dy nz dz px py pz sx sy sz _) as [[[l d'] k]| | |];
      cbn [after_core snd]; (split; [reflexivity|]); intros _; try exact K.
    cbn [setgen gen]. exact (Ks _ _ _ eq_refl).
  - destruct (sim_args_not_sim c Hs) as [Hq|[z ->]].
    + rewrite step_query by auto. split; [|exact H]. destruct c; try discriminate Hq; reflexivity.
    + cbn [step]. destruct (as_size z); cbn [snd]; (split; [reflexivity|]); try exact H; intros _; apply seeded_init.
Qed.

Lemma run_build (p : list (Z * call L)) st : st_ok st ->
  run do_recursion fuel p st = run do_recursion_sse2 fuel p st /\ st_ok (snd (run do_recursion fuel p st)).
Proof.
  revert st; induction p as [|[t c] p]; intros st H; [split; auto|].
  rewrite !run_cons. destruct (step_build t c st H) as [E K]. rewrite <- E.
  destruct (step do_recursion fuel t c st) as [o st1]. cbn [snd] in K.
  destruct (IHp st1 K) as [E' K']. rewrite <- E'. destruct o; cbn [snd]; auto.
Qed.

Lemma rstate0_ok : st_ok rstate0.
Proof. intros H. discriminate. Qed.
End Api.
