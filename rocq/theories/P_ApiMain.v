(** The final forms of the lemmas of P_Api. *)
From Coq Require Import ZArith List Bool Lia.
From Verif Require Import Base Arith M_Variogram M_Dsfmt M_Random M_Field M_Api S_Api P_Base P_Api.
Import ListNotations.
Open Scope Z_scope.
Local Opaque new_generator genrand_uint32 init_gen_rand.

Section P.
Context {L : Lib}.
Variable rec : recursion.
Variable fuel : nat.
Implicit Types c : call L.
Notation run := (@run L rec fuel).
Notation step := (@step L rec fuel).

Lemma c01 (h1 h2 : list (Z * call L)) t1 t2 s cs ts1 ts2 :
  size_ok s -> length ts1 = length cs -> length ts2 = length cs ->
  let p1 := (t1, CSeed s) :: at_times ts1 cs in
  let p2 := (t2, CSeed s) :: at_times ts2 cs in
  fst (run p1 (after rec fuel h1)) = fst (run p2 (after rec fuel h2)) /\
  gen (snd (run p1 (after rec fuel h1))) = gen (snd (run p2 (after rec fuel h2))).
Proof.
  intros H H1 H2. destruct (seed_reproducible rec fuel h1 h2 t1 t2 s cs ts1 ts2 H H1 H2) as (A & _ & _ & B). auto.
Qed.

Lemma c02 : exists auto, (forall t, 0 <= auto t < 2 ^ 32) /\
  forall (h : list (Z * call L)) t, all_back rec fuel h ->
  step t (@CGetSeed L) (after rec fuel h) = (seed_answer (seed_in_force auto None h), after rec fuel h).
Proof.
  exists (auto_seed rec). split; [apply auto_seed_range|]. intros h t H.
  pose proof (run_seed rec fuel h rstate0 H) as E. cbv zeta in E. simpl is_init in E at 2. cbv iota in E.
  fold (after rec fuel h) in E. unfold seed_answer. rewrite <- E.
  simpl. unfold GetStartSeed, omap. destruct (is_init (after rec fuel h)); reflexivity.
Qed.

(** seed() raises exactly when no seed was set and no simulate call was accepted *)
Lemma seed_in_force_some auto z (h : list (Z * call L)) : seed_in_force auto (Some z) h <> None.
Proof.
  revert z; induction h as [|[t c] h IH]; intros z; simpl; [discriminate|].
  destruct c; simpl; auto; match goal with |- context [if ?b then _ else _] => destruct b end; auto.
Qed.
Lemma seed_none auto (h : list (Z * call L)) :
  seed_in_force auto None h = None <->
  (forall t c, In (t, c) h -> accepted c -> is_query c = true).
Proof.
  induction h as [|[t c] h IH]; simpl; [split; [intros _ ? ? []|auto]|].
  destruct (is_query c) eqn:Q.
  - assert (seed_effect auto t c None = None) as -> by (destruct c; simpl in *; auto; discriminate).
    rewrite IH. split; intros H t' c'; [intros [[= <- <-]|Hin] Ha; auto; eapply H; eauto|intros Hin Ha; eapply H; eauto].
  - destruct (accepted_b c) eqn:A.
    + split.
      * intros H. exfalso. revert H.
        assert (exists z, seed_effect auto t c None = Some z) as [z ->]
          by (destruct c; simpl in Q; try discriminate; unfold seed_effect; rewrite A; eauto).
        apply seed_in_force_some.
      * intros H. apply accepted_b_spec in A. specialize (H t c (or_introl eq_refl) A). congruence.
    + assert (seed_effect auto t c None = None) as ->
        by (destruct c; simpl in Q; try discriminate; unfold seed_effect; rewrite A; reflexivity).
      rewrite IH. split; intros H t' c'.
      * intros [[= <- <-]|Hin] Ha; [|eapply H; eauto]. apply accepted_b_spec in Ha. congruence.
      * intros Hin Ha; eapply H; eauto.
Qed.

Lemma c02b : forall (h : list (Z * call L)) t, all_back rec fuel h ->
  (fst (step t (@CGetSeed L) (after rec fuel h)) = Throw NotInitialized <->
   (forall t c, In (t, c) h -> accepted c -> is_query c = true)).
Proof.
  intros h t H. destruct c02 as (auto & _ & E). rewrite (E h t H). simpl.
  rewrite <- (seed_none auto h). unfold seed_answer. destruct (seed_in_force auto None h); split; congruence.
Qed.

Lemma c03 (h : list (Z * call L)) t c ts cs :
  all_back rec fuel h -> (forall t c, In (t, c) h -> accepted c -> is_query c = true) ->
  is_simulate c = true -> accepted c -> length ts = length cs -> (forall z, ~ In (CSeed z) cs) ->
  let r1 := run ((t, c) :: at_times ts cs) (after rec fuel h) in
  Forall came_back (fst r1) ->
  exists S, 0 <= S < 2 ^ 32 /\
    (forall t', fst (step t' (@CGetSeed L) (snd r1)) = Ok (VInt S)) /\
    forall (h' : list (Z * call L)) t0 t0' ts', length ts' = length cs ->
    let r2 := run ((t0, CSeed S) :: (t0', c) :: at_times ts' cs) (after rec fuel h') in
    fst r2 = Ok VNone :: fst r1 /\ gen (snd r2) = gen (snd r1).
Proof.
  intros Hh Hq Hs Ha Hl Hn r1 Hb.
  assert (Hi : is_init (after rec fuel h) = false).
  { pose proof (proj2 (c02b h 0 Hh) Hq) as E. simpl in E. unfold GetStartSeed, omap in E.
    destruct (is_init (after rec fuel h)); auto. discriminate. }
  exists (auto_seed rec t). split; [apply auto_seed_range|]. split.
  - intros t'.
    destruct (replay rec fuel t c ts cs (after rec fuel h) 0 0 ts Hi Hs Ha Hl Hl (after rec fuel h)) as (_ & _ & I & S).
    simpl. unfold GetStartSeed, omap. fold r1 in I, S. rewrite I, S by auto. reflexivity.
  - intros h' t0 t0' ts' Hl'.
    destruct (replay rec fuel t c ts cs (after rec fuel h) t0 t0' ts' Hi Hs Ha Hl Hl' (after rec fuel h')) as (A & B & _).
    auto.
Qed.

Lemma c04 (h1 h2 : list (Z * call L)) s1 s2 t1 t2 cs ts1 ts2 :
  size_ok s1 -> size_ok s2 -> s1 mod 2 ^ 32 = s2 mod 2 ^ 32 ->
  length ts1 = length cs -> length ts2 = length cs ->
  (forall c, In c cs -> c <> CGetSeed) ->
  fst (run ((t1, CSeed s1) :: at_times ts1 cs) (after rec fuel h1)) =
  fst (run ((t2, CSeed s2) :: at_times ts2 cs) (after rec fuel h2)).
Proof. intros. apply seed_low32; auto. Qed.

Lemma c09 s t (p1 p2 : list (Z * call L)) t1 t2 c : size_ok s -> length p1 = length p2 ->
  (forall t c, In (t, c) p1 \/ In (t, c) p2 -> low_dim c = true) ->
  forall h1 h2 : list (Z * call L),
  let r1 := run ((t, CSeed s) :: p1) (after rec fuel h1) in
  let r2 := run ((t, CSeed s) :: p2) (after rec fuel h2) in
  Forall is_array (tl (fst r1)) -> Forall is_array (tl (fst r2)) ->
  fst (step t1 c (snd r1)) = fst (step t2 c (snd r2)) /\
  gen (snd (step t1 c (snd r1))) = gen (snd (step t2 c (snd r2))).
Proof.
  intros Hs Hl Hd h1 h2. cbv zeta. rewrite !run_cons, !seed_step by auto. cbn [fst snd tl].
  intros A1 A2.
  destruct (run_same rec fuel p2 (InitializeSeed s (after rec fuel h1)) (InitializeSeed s (after rec fuel h2)))
    as [F F']; [repeat split|].
  rewrite <- F in A2.
  destruct (low_dim_independent rec fuel (InitializeSeed s (after rec fuel h1)) p1 p2 t1 t2 c) as [X Y]; auto.
  - apply Forall_forall. intros [? ?] ?. eapply Hd; eauto.
  - apply Forall_forall. intros [? ?] ?. eapply Hd; eauto.
  - rewrite X, Y.
    destruct (step_same rec fuel t2 c _ _ F') as [G G']. rewrite G. split; auto. apply G'.
Qed.

Lemma c10 (h p : list (Z * call L)) : all_back rec fuel h -> Forall came_back (fst (run p (after rec fuel h))) ->
  run (filter (fun x => negb (is_query (snd x))) p) (after rec fuel h) =
  (map snd (filter (fun x => negb (is_query (snd (fst x)))) (combine p (fst (run p (after rec fuel h))))),
   snd (run p (after rec fuel h))).
Proof. intros _. apply run_erase. Qed.

(** ** C11 *)
Lemma c11_order sched now c (threads : list (list (call L))) (h : list (Z * call L)) : all_back rec fuel h ->
  is_simulate c = true -> (exists t c', In (t, c') h /\ accepted c' /\ is_query c' = false) ->
  (forall tid c', In c' (nth tid threads []) -> c' = c) ->
  let st := after rec fuel h in
  let n := length (thread_run rec fuel sched threads now st) in
  map snd (thread_run rec fuel sched threads now st) =
  map snd (thread_run rec fuel (repeat 0%nat n) [repeat c n] now st).
Proof.
  intros Hh Hs (t & c' & Hin & Ha & Hq) Hc. apply threads_order; auto.
  destruct (is_init (after rec fuel h)) eqn:E; auto.
  assert (X : fst (step 0 (@CGetSeed L) (after rec fuel h)) = Throw NotInitialized)
    by (simpl; unfold GetStartSeed, omap; rewrite E; reflexivity).
  apply (proj1 (c02b h 0 Hh)) with (t := t) (c := c') in X; auto. congruence.
Qed.

Lemma threads_low sched now : forall (threads : list (list (call L))) st k, is_init st = true ->
  (forall c, In c (thread_calls sched threads) -> low_dim c = true) ->
  Forall is_array (map snd (thread_run rec fuel sched threads now (setgen st (draw_n rec k (gen st)) k))) ->
  map snd (thread_run rec fuel sched threads now (setgen st (draw_n rec k (gen st)) k)) =
  map (fun '(k, c) => fst (step now c (setgen st (draw_n rec k (gen st)) k))) (number k (thread_calls sched threads)).
Proof.
  induction sched as [|tid sched IH]; intros threads st k Hi Hl Ha; [reflexivity|].
  simpl in *. destruct (nth tid threads []) as [|c cs] eqn:En; [apply IH; auto|].
  simpl in *. destruct (step now c (setgen st (draw_n rec k (gen st)) k)) as [o s] eqn:E. simpl in *.
  inversion Ha as [|? ? [l Ho] Ha']; subst.
  apply step_low in E; [|apply Hl; auto|simpl; auto]. subst s. f_equal.
  assert (setgen (setgen st (draw_n rec k (gen st)) k) (snd (genrand_uint32 rec (gen (setgen st (draw_n rec k (gen st)) k)))) 1 =
          setgen st (draw_n rec (S k) (gen st)) (S k)) as Es.
  { unfold setgen. simpl. f_equal.
    clear. generalize (gen st). induction k; intros d; simpl; auto. }
  rewrite Es in *. apply IH; auto.
Qed.

Lemma c11_mixed now (h : list (Z * call L)) : all_back rec fuel h -> (exists t c', In (t, c') h /\ accepted c' /\ is_query c' = false) ->
  exists field : nat -> call L -> outcome (value L), forall sched (threads : list (list (call L))),
  (forall c, In c (thread_calls sched threads) -> low_dim c = true) ->
  Forall is_array (map snd (thread_run rec fuel sched threads now (after rec fuel h))) ->
  map snd (thread_run rec fuel sched threads now (after rec fuel h)) =
  map (fun '(k, c) => field k c) (number 0 (thread_calls sched threads)).
Proof.
  intros Hh (t & c' & Hin & Hacc & Hq). set (st := after rec fuel h).
  assert (Hi : is_init st = true).
  { destruct (is_init st) eqn:E; auto.
    assert (X : fst (step 0 (@CGetSeed L) (after rec fuel h)) = Throw NotInitialized)
      by (simpl; unfold GetStartSeed, omap; fold st; rewrite E; reflexivity).
    apply (proj1 (c02b h 0 Hh)) with (t := t) (c := c') in X; auto. congruence. }
  exists (fun k c => fst (step now c (setgen st (draw_n rec k (gen st)) k))).
  intros sched threads Hl Ha.
  assert (E : st = setgen st (draw_n rec 0 (gen st)) 0) by (destruct st; reflexivity).
  rewrite E in Ha |- * at 1. apply threads_low; auto.
Qed.

(** ** C46 *)
Lemma c46 (h : list (Z * call L)) :
  leaked (after rec fuel h) = low_dim_fields h (fst (run h rstate0)).
Proof. unfold after. rewrite leak_count. simpl. lia. Qed.
End P.
