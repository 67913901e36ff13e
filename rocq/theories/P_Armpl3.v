(** The build of the Arm package: what an interruption leaves behind. *)
From Coq Require Import String List Bool Arith Lia.
From Verif Require Import M_Armpl S_Armpl P_Armpl P_Armpl2.
Import ListNotations.

(** an installation that is killed after [k] files *)
Lemma install_killed p v m k : forall i d, library d p v = Files i ->
  exists d', install_from p v i (k + S m) (Some (k, Kill)) d = (Killed, None, d') /\ library d' p v = Files (i + k) /\
    state d' = state d /\ target d' = target d /\ archive d' = archive d /\ script d' = script d /\ package d' = package d /\ platform_txt d' = platform_txt d.
Proof.
  induction k as [|k IH]; intros i d L; cbn [Nat.add install_from].
  - exists d. rewrite Nat.add_0_r. repeat split; auto.
  - unfold seq. cbn [step]. destruct (IH (S i) (with_library p v (Files (S i)) d)) as (d' & E & F & G); [cbn; apply put_eq|].
    exists d'. rewrite E. split; [reflexivity|]. split; [rewrite F; f_equal; lia | exact G].
Qed.
Lemma copy_all p v n : forall i d, copy_from p v i n None d = (Returned, None, with_package d (package d ++ map (fun j => (p, v, j, true)) (List.seq i n))).
Proof.
  induction n as [|n IH]; intros i d; cbn [copy_from List.seq map].
  - rewrite app_nil_r. destruct d; reflexivity.
  - unfold seq. cbn [step]. rewrite IH. cbn [package with_package]. rewrite removelast_last, <- app_assoc. reflexivity.
Qed.
(** a part that takes [c] steps and returns *)
Definition goes (c : nat) (a : prog) (d d' : disk) : Prop :=
  a None d = (Returned, None, d') /\ forall n x, a (Some (c + n, x)) d = (Returned, Some (n, x), d').
Lemma g_skip d : goes 0 skip d d.
Proof. split; reflexivity. Qed.
Lemma g_step f d : goes 1 (step f) d (f d).
Proof. split; [reflexivity|]. intros n []; reflexivity. Qed.
Lemma g_seq c1 c2 a b d d1 d2 : goes c1 a d d1 -> goes c2 b d1 d2 -> goes (c1 + c2) (seq a b) d d2.
Proof. intros [A A'] [B B']. unfold seq. split; [rewrite A; exact B|]. intros n x. rewrite <- Nat.add_assoc, A'. apply B'. Qed.
Lemma g_guard c a h d d' : goes c a d d' -> goes c (guard a h) d d'.
Proof. intros [A A']. unfold guard. split; [rewrite A; reflexivity|]. intros n x. rewrite A'. reflexivity. Qed.
Lemma g_look c f d d' : goes c (f d) d d' -> goes c (look f) d d'.
Proof. auto. Qed.
Lemma g_set_state x d : goes 2 (set_state (Some x)) d (with_state d (Some x)).
Proof. exact (g_seq 1 1 _ _ _ _ _ (g_step _ _) (g_step _ _)). Qed.
Lemma g_change c s f a d d' : existsb (stage_eqb s) (transitions (state d)) || match state d with Some x => stage_eqb x s | None => false end = true ->
  goes c a (with_state d (Some s)) d' -> goes (2 + (c + 2)) (state_change s f a) d (with_state d' (Some f)).
Proof.
  intros E A. unfold state_change. apply g_look. rewrite E. apply (g_seq _ _ _ _ _ (with_state d (Some s))); [apply g_set_state|].
  eapply g_seq; [apply g_guard, A | apply g_set_state].
Qed.
Lemma g_copy p v n : forall i d, goes (n * 2) (copy_from p v i n) d (with_package d (package d ++ map (fun j => (p, v, j, true)) (List.seq i n))).
Proof.
  induction n as [|n IH]; intros i d; cbn [copy_from List.seq map].
  - rewrite app_nil_r. destruct d; apply g_skip.
  - change (S n * 2) with (1 + (1 + n * 2)). eapply g_seq; [apply g_step|]. eapply g_seq; [apply g_step|].
    cbn [package with_package]. rewrite removelast_last. specialize (IH (S i) (with_package d (package d ++ [(p, v, i, true)]))).
    cbn [package with_package] in IH. rewrite <- app_assoc in IH. exact IH.
Qed.
Lemma g_target p d : target d = Some (Some p) -> goes 2 (set_target p) d d.
Proof.
  intros T. unfold set_target. apply (g_seq 0 2 _ _ _ d).
  - apply g_look. rewrite T. replace (platform_eqb p p) with true by (destruct p; reflexivity). apply g_skip.
  - replace d with (with_target (with_target d (Some None)) (Some (Some p))) at 2 by (destruct d; cbn in *; subst; reflexivity).
    exact (g_seq 1 1 _ _ _ _ _ (g_step _ _) (g_step _ _)).
Qed.
(** a build on what such an installation leaves *)
Lemma build_rest size broken p v k d : state d = Some Fetching -> target d = Some (Some p) -> archive d p v = Whole -> script d p v = Whole ->
  library d p v = Files k -> package d = [] ->
  exists d', build size broken p v None d = (Returned, None, d') /\ package d' = map (fun j => (p, v, j, true)) (List.seq 0 k).
Proof.
  intros S T A C L P.
  assert (F : goes 4 (fetch size broken p v) d (with_state (with_state d (Some Fetching)) (Some Fetched))).
  { apply (g_change 0); [rewrite S; reflexivity|]. apply (g_seq 0 0 _ _ _ (with_state d (Some Fetching))).
    - apply g_look. cbn [archive with_state]. rewrite A. apply g_skip.
    - apply (g_seq 0 0 _ _ _ (with_state d (Some Fetching))); apply g_look; cbn [script library with_state]; [rewrite C|rewrite L]; apply g_skip. }
  set (d1 := with_state _ (Some Fetched)) in F.
  assert (G : goes (2 + (1 + (0 + (0 + k * 2)) + 2)) (prepare size broken p v) d1 (with_state (with_package (with_state d1 (Some Preparing)) (map (fun j => (p, v, j, true)) (List.seq 0 k))) (Some Prepared))).
  { apply g_change; [reflexivity|]. unfold prepare_body. set (d2 := with_state d1 (Some Preparing)).
    apply (g_seq 1 _ _ _ _ d2); [apply (g_step (fun d => d))|]. apply (g_seq 0 _ _ _ _ d2); [apply g_look; change (package d2) with (package d); rewrite P; apply g_skip|].
    unfold copy_sources. apply (g_seq 0 _ _ _ _ d2); apply g_look; change (library d2) with (library d); rewrite L; [apply g_skip|].
    pose proof (g_copy p v k 0 d2) as H. change (package d2) with (package d) in H. rewrite P in H. exact H. }
  set (d3 := with_state _ (Some Prepared)) in G.
  assert (W : exists d4, goes 6 (write_platform_file p) d3 d4 /\ package d4 = package d3).
  { eexists. split; [apply (g_change 2); [reflexivity|]; exact (g_seq 1 1 _ _ _ _ _ (g_step _ _) (g_step _ _))|]. reflexivity. }
  destruct W as (d4 & W & E). exists d4. split; [|rewrite E; reflexivity].
  eapply (proj1 (g_seq _ _ _ _ _ _ _ (g_target p d T) (g_seq _ _ _ _ _ _ _ F (g_seq _ _ _ _ _ _ _ G W)))).
Qed.
(** ... and the build that leaves it *)
Lemma s_seq c n x a b d d1 : goes c a d d1 -> seq a b (Some (c + n, x)) d = b (Some (n, x)) d1.
Proof. intros [_ H]. unfold seq. rewrite H. reflexivity. Qed.
Lemma killed_install size p v k : k < size p v -> exists n d, build size None p v (Some (n, Kill)) fresh = (Killed, None, d) /\
  state d = Some Fetching /\ target d = Some (Some p) /\ archive d p v = Whole /\ script d p v = Whole /\ library d p v = Files k /\ package d = [].
Proof.
  intros K.
  set (d1 := with_target (with_state fresh None) (Some (Some p))).
  assert (T : goes 3 (set_target p) fresh d1) by exact (g_seq 1 2 _ _ _ _ _ (g_step _ _) (g_seq 1 1 _ _ _ _ _ (g_step _ _) (g_step _ _))).
  set (d2 := with_state d1 (Some Fetching)).
  set (d3 := with_archive p v Whole (with_archive p v Part d2)).
  assert (D : goes 3 (download p v) d2 d3) by exact (g_seq 1 2 _ _ _ _ _ (g_step (fun d => d) _) (g_seq 1 1 _ _ _ _ _ (g_step _ _) (g_step _ _))).
  set (d4 := with_script p v Whole (with_script p v Part d3)).
  assert (X : goes 2 (look (fun d => match script d p v with Missing => extract_archive p v | _ => skip end)) d3 d4).
  { apply g_look. cbn. apply g_look. cbn. rewrite put_eq. exact (g_seq 1 1 _ _ _ _ _ (g_step _ _) (g_step _ _)). }
  set (pre := match p with Linux => step (with_library p v Deb) | Macos => skip end).
  assert (Pre : exists c d5, goes c pre (with_library p v EmptyData d4) d5 /\ state d5 = Some Fetching /\ target d5 = Some (Some p) /\ archive d5 = archive d4 /\ script d5 = script d4 /\ package d5 = []).
  { unfold pre. destruct p; eexists _, _; (split; [first [apply g_skip | apply g_step]|]); repeat split. }
  destruct Pre as (c & d5 & Pre & A1 & A2 & A3 & A4 & A5).
  set (d6 := with_library p v (Files 0) d5).
  assert (Z : size p v = k + S (size p v - k - 1)) by lia.
  destruct (install_killed p v (size p v - k - 1) k 0 d6) as (d7 & E & L & B1 & B2 & B3 & B4 & B5 & _); [cbn; apply put_eq|].
  exists (3 + (2 + (3 + (2 + (1 + (1 + (c + (1 + k)))))))), d7. split.
  - unfold build. rewrite (s_seq _ _ _ _ _ _ _ T). unfold seq at 1, fetch, state_change, look at 1. change (state d1) with (@None stage). cbn [transitions existsb stage_eqb orb].
    rewrite (s_seq _ _ _ _ _ _ _ (g_set_state _ _)). fold d2. unfold seq at 1, guard.
    unfold fetch_body. rewrite (s_seq _ _ _ _ _ _ _ D), (s_seq _ _ _ _ _ _ _ X). unfold extract_library_files, look at 1. change (library d4 p v) with NoData. cbv iota.
    rewrite (s_seq _ _ _ _ _ _ _ (g_step _ _)), (s_seq _ _ _ _ _ _ _ (g_step (fun d => d) _)). unfold look. replace (script (with_library p v EmptyData d4) p v) with Whole by (cbn; rewrite put_eq; reflexivity).
    unfold install. fold pre. rewrite (s_seq _ _ _ _ _ _ _ Pre), (s_seq _ _ _ _ _ _ _ (g_step _ _)). fold d6. rewrite Z, E. reflexivity.
  - rewrite B1, B2, B3, B4, B5, L. cbn -[d4]. rewrite A1, A2, A3, A4, A5. repeat split; cbn; apply put_eq.
Qed.
Theorem c86_interrupted size p v k : k < size p v -> exists n broken d d',
  build size broken p v (Some (n, Kill)) fresh = (Killed, None, d) /\ build size broken p v None d = (Returned, None, d') /\ holds k p v d'.
Proof.
  intros K. destruct (killed_install size p v k K) as (n & d & E & A1 & A2 & A3 & A4 & A5 & A6). destruct (build_rest size None p v k d A1 A2 A3 A4 A5 A6) as (d' & F & H).
  exists n, None, d, d'. split; [exact E|]. split; [exact F|]. intros q w i b. rewrite H, in_map_iff. split.
  - intros (j & X & Y). apply in_seq in Y. injection X as <- <- <- <-. repeat split; lia.
  - intros (-> & -> & X & ->). exists i. split; [reflexivity|]. apply in_seq. lia.
Qed.
