(** Collisions of seeds: 1D and 2D fields depend on one 32-bit draw only. *)
From Coq Require Import ZArith List Bool Lia.
From Verif Require Import Base Arith M_Variogram M_Dsfmt M_Random M_Field M_Api S_Api S_Random P_Base P_Api P_ApiMain.
Import ListNotations.
Open Scope Z_scope.

(** The evaluations, one per build *)
Definition first_draw (rec : recursion) (s : Z) : Z := fst (genrand_uint32 rec (init_gen_rand s)).
Lemma seed_a : first_draw do_recursion 41243 = 3387243834. Proof. vm_compute. reflexivity. Qed.
Lemma seed_b : first_draw do_recursion 69349 = 3387243834. Proof. vm_compute. reflexivity. Qed.
Lemma seed_a' : first_draw do_recursion_sse2 41243 = 3387243834. Proof. vm_compute. reflexivity. Qed.
Lemma seed_b' : first_draw do_recursion_sse2 69349 = 3387243834. Proof. vm_compute. reflexivity. Qed.
Lemma time_a : first_draw do_recursion 1790015194 = 2124511989. Proof. vm_compute. reflexivity. Qed.
Lemma time_b : first_draw do_recursion 1790024187 = 2124511989. Proof. vm_compute. reflexivity. Qed.
Lemma time_a' : first_draw do_recursion_sse2 1790015194 = 2124511989. Proof. vm_compute. reflexivity. Qed.
Lemma time_b' : first_draw do_recursion_sse2 1790024187 = 2124511989. Proof. vm_compute. reflexivity. Qed.
Lemma draw_five : fst (genrand_uint32 do_recursion (draw_n do_recursion 5 (init_gen_rand 140136564))) = 2992868619. Proof. vm_compute. reflexivity. Qed.
Lemma draw_six : fst (genrand_uint32 do_recursion (draw_n do_recursion 6 (init_gen_rand 140136564))) = 2992868619. Proof. vm_compute. reflexivity. Qed.
Lemma draw_five' : fst (genrand_uint32 do_recursion_sse2 (draw_n do_recursion_sse2 5 (init_gen_rand 140136564))) = 2992868619. Proof. vm_compute. reflexivity. Qed.
Lemma draw_six' : fst (genrand_uint32 do_recursion_sse2 (draw_n do_recursion_sse2 6 (init_gen_rand 140136564))) = 2992868619. Proof. vm_compute. reflexivity. Qed.

Lemma any_word rec d : 0 <= d < 2 ^ 32 -> fst (genrand_uint32 rec {| status := [(d, 0)]; idx := 0 |}) = d.
Proof.
  intros H. unfold genrand_uint32, next_word. cbn [idx status]. change (DSFMT_N64 <=? 0)%nat with false. cbn [idx status fst]. change (word64 [(d, 0)] 0) with d.
  change 0xffffffff with (Z.ones 32). rewrite Z.land_ones by lia. apply Z.mod_small. lia.
Qed.

Local Opaque new_generator genrand_uint32 init_gen_rand.
Section P.
Context {L : Lib}.
Variable rec : recursion.
Variable fuel : nat.
Implicit Types c : call L.
Notation run := (@run L rec fuel).
Notation step := (@step L rec fuel).

Lemma step_reinit t c st : is_simulate c = true -> fst (step t c (ensure_init rec t st)) = fst (step t c st).
Proof.
  intros Hs. rewrite !step_sim by auto. rewrite ensure_init_init; [destruct (sim_args c); reflexivity|]. rewrite ensure_init_eq. destruct (is_init st) eqn:E; auto.
Qed.

Lemma c78_few c : low_dim c = true -> exists F : Z -> outcome (value L), forall (h : list (Z * call L)) t,
  exists k, 0 <= k < 2 ^ 32 /\ fst (step t c (after rec fuel h)) = F k.
Proof.
  intros Hl. exists (fun d => fst (step 0 c (mkRstate true 0 {| status := [(d, 0)]; idx := 0 |} 0))). intros h t.
  rewrite <- step_reinit by (apply low_dim_sim; auto). set (st := ensure_init rec t (after rec fuel h)).
  exists (fst (genrand_uint32 rec (gen st))). pose proof (genrand_uint32_range rec (gen st)) as R. split; [exact R|].
  apply step_low_depends; auto.
  - unfold st. rewrite ensure_init_eq. destruct (is_init (after rec fuel h)) eqn:E; auto.
  - symmetry. now apply any_word.
Qed.

Lemma same_first c (h1 h2 : list (Z * call L)) s1 s2 t1 t2 u1 u2 : low_dim c = true -> size_ok s1 -> size_ok s2 -> first_draw rec s1 = first_draw rec s2 ->
  fst (run [(t1, CSeed s1); (u1, c)] (after rec fuel h1)) = fst (run [(t2, CSeed s2); (u2, c)] (after rec fuel h2)).
Proof.
  intros Hl H1 H2 E. rewrite !run_cons, !seed_step by auto. cbn [fst].
  pose proof (step_low_depends rec fuel u1 u2 c (InitializeSeed s1 (after rec fuel h1)) (InitializeSeed s2 (after rec fuel h2)) Hl eq_refl eq_refl E) as D.
  rewrite !run_cons. destruct (step u1 c _) as [o1 q1], (step u2 c _) as [o2 q2]. cbn [fst] in D. subst o2. destruct o1; reflexivity.
Qed.

Lemma c78_seeds c (h1 h2 : list (Z * call L)) t1 t2 u1 u2 : is_build rec -> low_dim c = true ->
  fst (run [(t1, CSeed 41243); (u1, c)] (after rec fuel h1)) = fst (run [(t2, CSeed 69349); (u2, c)] (after rec fuel h2)).
Proof.
  intros B Hl. apply same_first; [exact Hl|unfold size_ok; lia|unfold size_ok; lia|].
  destruct B as [B|B]; rewrite B; [rewrite seed_a, seed_b|rewrite seed_a', seed_b']; reflexivity.
Qed.

Lemma run_repeat n t c st : is_init st = true -> low_dim c = true -> Forall is_array (fst (run (repeat (t, c) n) st)) ->
  forall k, (k < n)%nat -> nth k (fst (run (repeat (t, c) n) st)) NoFuel = fst (step t c (setgen st (draw_n rec k (gen st)) k)).
Proof.
  revert st. induction n as [|n IH]; intros st Hi Hl Ha k Hk; [lia|]. cbn [repeat] in *. rewrite run_cons in *.
  destruct (step t c st) as [o s] eqn:E.
  assert (Ho : is_array o) by (destruct o; simpl in Ha; inversion Ha; auto).
  destruct Ho as [l Eo]. subst o. cbn [fst] in *. inversion Ha as [|? ? _ Ha']; subst. destruct k as [|k].
  - cbn [nth draw_n]. replace (setgen st (gen st) 0) with st by (destruct st; reflexivity). rewrite E. reflexivity.
  - cbn [nth]. apply step_low in E; auto. rewrite E in *. rewrite IH by (auto; lia). cbn [draw_n gen setgen]. f_equal. f_equal. unfold setgen. cbn. f_equal. lia.
Qed.
Lemma c79_repeat c (h : list (Z * call L)) t u : is_build rec -> low_dim c = true ->
  let r := fst (run ((t, CSeed 140136564) :: repeat (u, c) 7) (after rec fuel h)) in
  Forall is_array (tl r) -> nth 6 r NoFuel = nth 7 r NoFuel.
Proof.
  intros B Hl. cbv zeta. rewrite run_cons, seed_step by (unfold size_ok; lia). cbn [fst tl]. intros Ha. set (st := InitializeSeed 140136564 (after rec fuel h)) in *.
  change (nth 6 (Ok VNone :: fst (run (repeat (u, c) 7) st)) NoFuel) with (nth 5 (fst (run (repeat (u, c) 7) st)) NoFuel).
  change (nth 7 (Ok VNone :: fst (run (repeat (u, c) 7) st)) NoFuel) with (nth 6 (fst (run (repeat (u, c) 7) st)) NoFuel).
  rewrite !run_repeat by (auto; lia). apply step_low_depends; auto.
  cbn [gen setgen st InitializeSeed]. destruct B as [B|B]; rewrite B; [rewrite draw_five, draw_six|rewrite draw_five', draw_six']; reflexivity.
Qed.

(** automatic seeds *)
Lemma queries_only (h : list (Z * call L)) : (forall t c, In (t, c) h -> accepted c -> is_query c = true) -> after rec fuel h = rstate0.
Proof.
  unfold after. generalize rstate0. induction h as [|[t c] h IH]; intros st H; [reflexivity|]. rewrite run_cons.
  assert (E : snd (step t c st) = st).
  { destruct (is_query c) eqn:Q; [now apply step_query|]. assert (NA : ~ accepted c) by (intros A; specialize (H t c (or_introl eq_refl) A); congruence).
    destruct (is_simulate c) eqn:Hs.
    - rewrite step_sim, not_accepted by auto. reflexivity.
    - destruct c; try discriminate Q; try discriminate Hs. cbn [step]. cbn [accepted] in NA. rewrite as_size_bad by auto. reflexivity. }
  destruct (step t c st) as [o s]. cbn [snd] in E. subst s. pose proof (IH st (fun t c I => H t c (or_intror I))) as X.
  destruct o; cbn [snd]; auto.
Qed.
Lemma auto_same (h1 h2 : list (Z * call L)) t1 t2 c ts1 ts2 cs : auto_seed rec t1 = auto_seed rec t2 ->
  (forall t c, In (t, c) h1 -> accepted c -> is_query c = true) -> (forall t c, In (t, c) h2 -> accepted c -> is_query c = true) ->
  is_simulate c = true -> accepted c -> length ts1 = length cs -> length ts2 = length cs ->
  run ((t1, c) :: at_times ts1 cs) (after rec fuel h1) = run ((t2, c) :: at_times ts2 cs) (after rec fuel h2).
Proof.
  intros E H1 H2 Hs Ha L1 L2. rewrite !queries_only by auto. rewrite !run_cons.
  assert (X : step t1 c rstate0 = step t2 c rstate0) by (rewrite !step_sim, !ensure_init_eq by auto; cbn [is_init rstate0]; rewrite E; reflexivity).
  rewrite X. assert (I : is_init (snd (step t2 c rstate0)) = true).
  { rewrite step_sim, ensure_init_eq by auto. cbn [is_init rstate0]. destruct (proj1 (sim_args_ok c Hs) Ha) as [x Hx]. rewrite Hx. destruct run_core as [[[? ?] ?]| | |]; reflexivity. }
  destruct (step t2 c rstate0) as [o s]. cbn [snd] in I. unfold at_times. destruct o; auto; rewrite (run_clock rec fuel cs ts1 ts2 s I L1 L2); reflexivity.
Qed.
Lemma u64_mod32 t1 t2 : t1 mod 2 ^ 32 = t2 mod 2 ^ 32 -> u64 t1 mod 2 ^ 32 = u64 t2 mod 2 ^ 32.
Proof. intros E. unfold u64. change (2 ^ 64) with (2 ^ 32 * 2 ^ 32).
  rewrite !Z.rem_mul_r by lia. rewrite !(Z.mul_comm (2 ^ 32) (_ mod _)), !Z.mod_add, !Z.mod_mod by lia. exact E.
Qed.
Lemma auto_mod t1 t2 : t1 mod 2 ^ 32 = t2 mod 2 ^ 32 -> auto_seed rec t1 = auto_seed rec t2.
Proof. intros E. unfold auto_seed. now rewrite (init_gen_rand_u32 _ _ (u64_mod32 _ _ E)). Qed.
Lemma c80_same (h1 h2 : list (Z * call L)) t1 t2 c ts1 ts2 cs : t1 mod 2 ^ 32 = t2 mod 2 ^ 32 ->
  (forall t c, In (t, c) h1 -> accepted c -> is_query c = true) -> (forall t c, In (t, c) h2 -> accepted c -> is_query c = true) ->
  is_simulate c = true -> accepted c -> length ts1 = length cs -> length ts2 = length cs ->
  run ((t1, c) :: at_times ts1 cs) (after rec fuel h1) = run ((t2, c) :: at_times ts2 cs) (after rec fuel h2).
Proof. intros E. apply auto_same, auto_mod, E. Qed.
Lemma times_auto : is_build rec -> auto_seed rec 1790015194 = 2124511989 /\ auto_seed rec 1790024187 = 2124511989.
Proof.
  intros [B|B]; rewrite B; unfold auto_seed; split.
  - exact time_a. - exact time_b. - exact time_a'. - exact time_b'.
Qed.
Lemma c80_times (h1 h2 : list (Z * call L)) c ts1 ts2 cs : is_build rec ->
  (forall t c, In (t, c) h1 -> accepted c -> is_query c = true) -> (forall t c, In (t, c) h2 -> accepted c -> is_query c = true) ->
  is_simulate c = true -> accepted c -> length ts1 = length cs -> length ts2 = length cs ->
  run ((1790015194, c) :: at_times ts1 cs) (after rec fuel h1) = run ((1790024187, c) :: at_times ts2 cs) (after rec fuel h2).
Proof. intros B. destruct (times_auto B) as [A1 A2]. apply auto_same. now rewrite A1, A2. Qed.
Lemma c80_not_time (h : list (Z * call L)) c t o s : is_build rec -> (forall t c, In (t, c) h -> accepted c -> is_query c = true) ->
  is_simulate c = true -> accepted c -> step 1790015194 c (after rec fuel h) = (o, s) -> fst (step t (@CGetSeed L) s) = Ok (VInt 2124511989).
Proof.
  intros B H Hs Ha. rewrite queries_only by auto. rewrite step_sim, ensure_init_eq by auto. cbn [is_init rstate0]. destruct (proj1 (sim_args_ok c Hs) Ha) as [x Hx]. rewrite Hx.
  destruct (times_auto B) as [A1 _]. rewrite A1. intros E. assert (X : start_seed s = 2124511989 /\ is_init s = true).
  { unfold after_core in E. destruct run_core as [[[? ?] ?]| | |]; injection E as _ E; rewrite <- E; split; reflexivity. }
  destruct X as [X1 X2]. unfold M_Api.step, GetStartSeed. rewrite X2, X1. reflexivity.
Qed.
End P.
