(** Proofs about the build of the Arm package. *)
From Coq Require Import String List Bool Arith Lia.
From Verif Require Import M_Armpl S_Armpl.
Import ListNotations.

(** triples: from [P], a part that returns gives [Q]; one that ends otherwise leaves [R] *)
Definition hoare (P : disk -> Prop) (a : prog) (Q R : disk -> Prop) : Prop :=
  forall t d, P d -> match a t d with (Returned, _, d') => Q d' | (_, _, d') => R d' end.

Lemma h_weaken (P P' : disk -> Prop) a (Q Q' R R' : disk -> Prop) : hoare P' a Q' R' -> (forall d, P d -> P' d) -> (forall d, Q' d -> Q d) -> (forall d, R' d -> R d) -> hoare P a Q R.
Proof. intros H HP HQ HR t d Hd. specialize (H t d (HP d Hd)). destruct (a t d) as [[[] ?] ?]; auto. Qed.
Lemma h_skip (P R : disk -> Prop) : hoare P skip P R.
Proof. intros t d H. exact H. Qed.
Lemma h_raise (P Q : disk -> Prop) : hoare P raise Q P.
Proof. intros t d H. exact H. Qed.
Lemma h_step (P Q R : disk -> Prop) f : (forall d, P d -> Q (f d)) -> (forall d, P d -> R d) -> hoare P (step f) Q R.
Proof. intros A B t d H. destruct t as [[[|n] []]|]; cbn; auto. Qed.
Lemma h_seq (P : disk -> Prop) a b (Q S R : disk -> Prop) : hoare P a Q R -> hoare Q b S R -> hoare P (seq a b) S R.
Proof. intros A B t d H. specialize (A t d H). unfold seq. destruct (a t d) as [[[] t'] d']; auto. apply B, A. Qed.
Lemma h_look (P : disk -> Prop) f (Q R : disk -> Prop) : (forall d, P d -> hoare (fun x => x = d /\ P x) (f d) Q R) -> hoare P (look f) Q R.
Proof. intros A t d H. unfold look. apply (A d H t d). auto. Qed.
Lemma h_guard (P : disk -> Prop) a h (Q R R1 : disk -> Prop) : hoare P a Q R1 -> hoare R1 h R R -> (forall d, R1 d -> R d) -> hoare P (guard a h) Q R.
Proof.
  intros A B C t d H. specialize (A t d H). unfold guard. destruct (a t d) as [[[] t'] d']; auto.
  specialize (B t' d' A). destruct (h t' d') as [[[] t''] d'']; auto.
Qed.
Lemma put_eq {B} (f : platform -> version -> B) p v b : put f p v b p v = b.
Proof. unfold put. rewrite String.eqb_refl. destruct p; reflexivity. Qed.
Lemma put_ne {B} (f : platform -> version -> B) p v b q w : q <> p -> put f p v b q w = f q w.
Proof. unfold put. destruct p, q; cbn; congruence. Qed.

Section Safe.
Context (size : platform -> version -> nat) (broken : option nat) (v : version).

Definition all_files (p : platform) : list (platform * version * nat * bool) := map (fun i => (p, v, i, true)) (List.seq 0 (size p v)).
(** what a state promises, for the platform it was written for *)
Definition promise (p : platform) (d : disk) : Prop :=
  match state d with
  | Some Fetched | Some Preparing => library d p v = Files (size p v)
  | Some Prepared => package d = all_files p
  | Some Finished => package d = all_files p /\ platform_txt d = Some p
  | _ => True
  end.
Definition inv (d : disk) : Prop := forall p, target d = Some (Some p) -> promise p d.

Context (p : platform).
Definition at_p (d : disk) : Prop := target d = Some (Some p).
Definition safe (d : disk) : Prop := at_p d /\ promise p d.
Lemma safe_inv d : safe d -> inv d.
Proof. intros [A B] q Hq. unfold at_p in A. rewrite A in Hq. injection Hq as <-. exact B. Qed.
Definition in_stage (s : stage) (d : disk) : Prop := at_p d /\ state d = Some s.

Lemma set_state_ok (P Q : disk -> Prop) x : (forall d, P d -> at_p d /\ safe d) -> (forall d, P d -> Q (with_state d (Some x))) ->
  hoare P (set_state (Some x)) Q safe.
Proof.
  intros A B. cbn. eapply h_seq with (Q := fun d => exists d0, P d0 /\ d = with_state d0 None).
  - apply h_step; [intros d H; exists d; auto | intros d H; apply A, H].
  - apply h_step; [intros d (d0 & H & ->); apply (B d0 H) | intros d (d0 & H & ->); destruct (A d0 H) as [C _]; split; [exact C | exact I]].
Qed.

Lemma promise_stage s d : in_stage s d -> s = Fetching \/ s = Failed \/ ((s = Fetched \/ s = Preparing) /\ library d p v = Files (size p v)) -> safe d.
Proof. intros [A B] C. split; [exact A|]. unfold promise. rewrite B. destruct C as [->|[->|[[->| ->] C]]]; auto. Qed.

Lemma install_from_ok s n : forall k, hoare (fun d => in_stage s d /\ library d p v = Files k) (install_from p v k n) (fun d => in_stage s d /\ library d p v = Files (k + n)) (in_stage s).
Proof.
  induction n as [|n IH]; intros k; cbn [install_from].
  - rewrite Nat.add_0_r. apply h_skip.
  - eapply h_seq; [|rewrite <- Nat.add_succ_comm; apply IH]. apply h_step; [|tauto]. intros d [[A B] C]. split; [split; assumption|]. cbn. apply put_eq.
Qed.
Lemma install_ok s n : hoare (in_stage s) (install p v n) (fun d => in_stage s d /\ library d p v = Files n) (in_stage s).
Proof.
  unfold install. eapply h_seq with (Q := in_stage s).
  - destruct p; [apply h_skip | apply h_step; auto].
  - eapply h_seq; [|apply (install_from_ok s n 0)]. apply h_step; [|tauto]. intros d A. split; [exact A|]. cbn. apply put_eq.
Qed.

Definition lib_ok (d : disk) : Prop := library d p v = NoData \/ library d p v = EmptyData \/ library d p v = Files (size p v).
Lemma fetch_body_ok : hoare (fun d => in_stage Fetching d /\ script d p v <> Part /\ lib_ok d) (fetch_body size broken p v)
  (fun d => in_stage Fetching d /\ library d p v = Files (size p v)) (in_stage Fetching).
Proof.
  unfold fetch_body. eapply h_seq with (Q := fun d => in_stage Fetching d /\ script d p v <> Part /\ lib_ok d).
  - unfold download. apply h_look. intros d _. destruct (archive d p v).
    + eapply h_weaken with (R' := in_stage Fetching); [|intros x [_ H]; exact H | intros x H; exact H | auto].
      eapply h_seq with (Q := fun d => in_stage Fetching d /\ script d p v <> Part /\ lib_ok d); [apply h_step; [intros x H; exact H | tauto]|].
      eapply h_seq with (Q := fun d => in_stage Fetching d /\ script d p v <> Part /\ lib_ok d); (apply h_step; [intros x H; exact H | intros x H; destruct H as [H _]; exact H]).
    + eapply h_weaken; [apply h_skip|intros x [_ H]; exact H |intros ? HH; exact HH|intros ? HH; exact HH].
    + eapply h_weaken; [apply h_skip|intros x [_ H]; exact H |intros ? HH; exact HH|intros ? HH; exact HH].
  - eapply h_seq with (Q := fun d => in_stage Fetching d /\ script d p v = Whole /\ lib_ok d).
    + apply h_look. intros d (A & B & C). destruct (script d p v) eqn:E; [|congruence|].
      * unfold extract_archive. apply h_look. intros x _. destruct (archive x p v).
        1,2: eapply h_weaken; [apply (h_raise (in_stage Fetching))|intros y (? & ? & ?); tauto | intros y H; exact H | auto].
        eapply h_weaken with (P' := fun d => in_stage Fetching d /\ lib_ok d) (R' := in_stage Fetching); [|intros y (? & ? & ?); tauto | intros y H; exact H | auto].
        eapply h_seq with (Q := fun d => in_stage Fetching d /\ lib_ok d); (apply h_step; [|intros y [H _]; exact H]); [intros y H; exact H|].
        intros y [H1 H2]. split; [exact H1|]. split; [cbn; apply put_eq | exact H2].
      * eapply h_weaken; [apply (h_skip (fun d => in_stage Fetching d /\ script d p v = Whole /\ lib_ok d))|intros x [-> _]; exact (Logic.conj A (Logic.conj E C)) |intros ? HH; exact HH|intros ? HH; exact HH].
    + unfold extract_library_files. apply h_look. intros d (A & B & C).
      assert (G : hoare (fun d => in_stage Fetching d /\ script d p v = Whole)
        (step (with_library p v EmptyData) ;; step (fun d => d) ;; look (fun d => match script d p v with Whole => install p v (size p v) | _ => match broken with Some k => install p v k | None => raise end end))
        (fun d => in_stage Fetching d /\ library d p v = Files (size p v)) (in_stage Fetching)).
      { eapply h_seq with (Q := fun d => in_stage Fetching d /\ script d p v = Whole); [apply h_step; [intros x H; exact H | tauto]|].
        eapply h_seq with (Q := fun d => in_stage Fetching d /\ script d p v = Whole); [apply h_step; [intros x H; exact H | tauto]|].
        apply h_look. intros x [H1 H2]. rewrite H2. eapply h_weaken; [apply install_ok|intros y [-> _]; exact H1 |intros ? HH; exact HH|intros ? HH; exact HH]. }
      destruct C as [C|[C|C]]; rewrite C.
      1,2: eapply h_weaken; [exact G|intros x [-> _]; tauto|intros ? HH; exact HH|intros ? HH; exact HH].
      eapply h_weaken; [apply (h_skip (fun x => in_stage Fetching x /\ library x p v = Files (size p v)))|intros x [-> _]; tauto|auto|intros x H; exact H].
Qed.

Definition late (d : disk) : Prop := state d = Some Fetched \/ state d = Some Preparing \/ state d = Some Prepared \/ state d = Some Finished.
Lemma fetch_ok : hoare (fun d => safe d /\ neat size v d) (fetch size broken p v) (fun d => safe d /\ late d) safe.
Proof.
  unfold fetch, state_change. apply h_look. intros d [S N].
  assert (G : hoare (fun d => safe d /\ neat size v d) (set_state (Some Fetching) ;; guard (fetch_body size broken p v) (set_state (Some Failed)) ;; set_state (Some Fetched)) (fun d => safe d /\ late d) safe).
  { eapply h_seq; [apply (set_state_ok _ (fun d => in_stage Fetching d /\ script d p v <> Part /\ lib_ok d)); [intros x [[A B] _]; split; [exact A|split; assumption]|]|].
    { intros x [[A B] C]. split; [split; [exact A | reflexivity]|]. exact (C p). }
    eapply h_seq; [eapply h_guard; [apply fetch_body_ok| |]|].
    - eapply set_state_ok; intros x H; [split; [apply H|apply (promise_stage Fetching); auto] | apply (promise_stage Failed); [split; [apply H | reflexivity] | auto]].
    - intros x H. apply (promise_stage Fetching); auto.
    - apply set_state_ok; intros x [H L]; [split; [apply H|apply (promise_stage Fetching); auto]|].
      split; [apply (promise_stage Fetched); [split; [apply H | reflexivity]|right; right; split; [auto | exact L]]|left; reflexivity]. }
  assert (W : hoare (fun x => x = d /\ safe x /\ neat size v x) (set_state (Some Fetching) ;; guard (fetch_body size broken p v) (set_state (Some Failed)) ;; set_state (Some Fetched)) (fun d => safe d /\ late d) safe)
    by (eapply h_weaken; [exact G|intros x [_ H]; exact H|intros ? HH; exact HH|intros ? HH; exact HH]).
  assert (K : late d -> hoare (fun x => x = d /\ safe x /\ neat size v x) skip (fun d => safe d /\ late d) safe)
    by (intros L; eapply h_weaken; [apply (h_skip (fun x => safe x /\ late x))|intros x [-> [? ?]]; tauto|auto|intros x H; exact H]).
  unfold late in K. destruct (state d) as [[]|] eqn:E; cbn [transitions existsb stage_eqb orb]; auto.
Qed.


Definition preparing (d : disk) : Prop := in_stage Preparing d /\ library d p v = Files (size p v).
Lemma remove_ok n : hoare (fun d => preparing d /\ length (package d) = n) (remove n) (fun d => preparing d /\ package d = []) preparing.
Proof.
  induction n as [|n IH]; cbn [remove].
  - eapply h_weaken; [apply (h_skip (fun d => preparing d /\ package d = []))| |intros ? HH; exact HH|intros ? HH; exact HH]. intros d [A B]. split; [exact A|]. apply length_zero_iff_nil, B.
  - eapply h_seq; [apply h_step|exact IH]; [|intros d [H _]; exact H]. intros d [A B]. split; [exact A|]. cbn. destruct (package d); cbn in *; lia.
Qed.
Definition first_files (n : nat) : list (platform * version * nat * bool) := map (fun i => (p, v, i, true)) (List.seq 0 n).
Lemma first_S n : first_files (S n) = first_files n ++ [(p, v, n, true)].
Proof. unfold first_files. rewrite seq_S, map_app. reflexivity. Qed.
Lemma copy_ok n : forall i, hoare (fun d => preparing d /\ package d = first_files i) (copy_from p v i n) (fun d => preparing d /\ package d = first_files (i + n)) preparing.
Proof.
  induction n as [|n IH]; intros i; cbn [copy_from].
  - rewrite Nat.add_0_r. apply h_skip.
  - eapply h_seq with (Q := fun d => preparing d /\ package d = first_files i ++ [(p, v, i, false)]).
    + apply h_step; [|intros d [H _]; exact H]. intros d [A B]. split; [exact A|]. cbn. rewrite B. reflexivity.
    + eapply h_seq with (Q := fun d => preparing d /\ package d = first_files (S i)); [|rewrite <- Nat.add_succ_comm; apply IH].
      apply h_step; [|intros d [H _]; exact H]. intros d [A B]. split; [exact A|]. cbn [package with_package]. rewrite B, removelast_last, first_S. reflexivity.
Qed.
Lemma prepare_body_ok : hoare preparing (prepare_body size broken p v) (fun d => preparing d /\ package d = all_files p) preparing.
Proof.
  unfold prepare_body. eapply h_seq with (Q := preparing); [apply h_step; intros d H; exact H|].
  eapply h_seq with (Q := fun d => preparing d /\ package d = []).
  - apply h_look. intros d _. eapply h_weaken; [apply (remove_ok (length (package d)))|intros x [-> H]; split; [exact H | reflexivity]|intros ? HH; exact HH|intros ? HH; exact HH].
  - unfold copy_sources. eapply h_seq with (Q := fun d => preparing d /\ package d = []).
    + apply h_look. intros d [[_ L] _]. rewrite L. eapply h_weaken; [apply (h_skip (fun d => preparing d /\ package d = []))|intros x [_ H]; exact H|intros ? HH; exact HH|intros ? HH; exact HH].
    + apply h_look. intros d [[_ L] _]. rewrite L. eapply h_weaken; [apply (copy_ok (size p v) 0)|intros x [_ H]; exact H|intros ? HH; exact HH|intros ? HH; exact HH].
Qed.
Lemma preparing_safe d : preparing d -> safe d.
Proof. intros [A B]. apply (promise_stage Preparing); auto. Qed.
Lemma prepare_ok : hoare (fun d => safe d /\ late d) (prepare size broken p v) (fun d => safe d /\ (state d = Some Prepared \/ state d = Some Finished)) safe.
Proof.
  unfold prepare, state_change. apply h_look. intros d [S L].
  assert (G : library d p v = Files (size p v) -> hoare (fun x => x = d /\ safe x /\ late x) (set_state (Some Preparing) ;; guard (prepare_body size broken p v) (set_state (Some Failed)) ;; set_state (Some Prepared)) (fun d => safe d /\ (state d = Some Prepared \/ state d = Some Finished)) safe).
  { intros F. eapply h_seq; [apply (set_state_ok _ preparing); [intros x [-> [[A B] _]]; split; [exact A|split; assumption]|]|].
    { intros x [-> _]. destruct S as [A B]. split; [split; [exact A | reflexivity]|exact F]. }
    eapply h_seq; [eapply h_guard; [apply prepare_body_ok| |]|].
    - eapply set_state_ok; intros x H; [split; [apply H|apply preparing_safe, H] | apply (promise_stage Failed); [split; [apply H | reflexivity] | auto]].
    - exact preparing_safe.
    - apply set_state_ok; intros x [H K]; [split; [apply H|apply preparing_safe, H]|]. split; [|left; reflexivity]. split; [apply H|]. exact K. }
  assert (K : state d = Some Prepared \/ state d = Some Finished -> hoare (fun x => x = d /\ safe x /\ late x) skip (fun d => safe d /\ (state d = Some Prepared \/ state d = Some Finished)) safe)
    by (intros Hs; eapply h_weaken; [apply (h_skip (fun x => safe x /\ (state x = Some Prepared \/ state x = Some Finished)))|intros x [-> [? ?]]; tauto|intros ? HH; exact HH|intros x H; exact H]).
  destruct S as [A B]. unfold promise in B. destruct L as [E|[E|[E|E]]]; rewrite E in *; cbn [transitions existsb stage_eqb orb]; auto.
Qed.
Lemma write_ok : hoare (fun d => safe d /\ (state d = Some Prepared \/ state d = Some Finished)) (write_platform_file p) (fun d => safe d /\ state d = Some Finished) safe.
Proof.
  unfold write_platform_file, state_change. apply h_look. intros d [S [E|E]]; rewrite E; cbn [transitions existsb stage_eqb orb].
  - eapply h_seq; [apply (set_state_ok _ (fun d => in_stage Prepared d /\ package d = all_files p)); [intros x [-> _]; split; [apply S | exact S]|]|].
    { intros x [-> _]. destruct S as [A B]. unfold promise in B. rewrite E in B. split; [split; [exact A | reflexivity] | exact B]. }
    assert (SP : forall x, in_stage Prepared x /\ package x = all_files p -> safe x) by (intros x [[H1 H2] H3]; split; [exact H1|]; unfold promise; rewrite H2; exact H3).
    eapply h_seq; [eapply h_guard with (R1 := fun d => in_stage Prepared d /\ package d = all_files p)| ].
    + eapply h_seq with (Q := fun d => in_stage Prepared d /\ package d = all_files p); apply h_step; try (intros x H; exact H).
      instantiate (1 := fun d => in_stage Prepared d /\ package d = all_files p /\ platform_txt d = Some p). intros x [H1 H2]. split; [exact H1|]. split; [exact H2 | reflexivity].
    + eapply set_state_ok; intros x H; [split; [apply H|apply SP, H] | apply (promise_stage Failed); [split; [apply H | reflexivity] | auto]].
    + exact SP.
    + apply set_state_ok; intros x (H & K & T); [split; [apply H|apply SP; split; assumption]|]. split; [|reflexivity]. split; [apply H|]. cbn. split; assumption.
  - eapply h_weaken; [apply (h_skip (fun x => safe x /\ state x = Some Finished))|intros x [-> _]; split; assumption|intros ? HH; exact HH|intros x H; exact H].
Qed.

Lemma set_target_ok : hoare (fun d => inv d /\ neat size v d) (set_target p) (fun d => safe d /\ neat size v d) inv.
Proof.
  unfold set_target. eapply h_seq with (Q := fun d => promise p d /\ inv d /\ neat size v d).
  - apply h_look. intros d [I0 N].
    assert (G : hoare (fun x => x = d /\ inv x /\ neat size v x) (set_state None) (fun d => promise p d /\ inv d /\ neat size v d) inv).
    { cbn. apply h_step; [|intros x [_ [H _]]; exact H]. intros x [-> _]. split; [exact I|]. split; [intros q _; exact I | exact N]. }
    assert (K : target d = Some (Some p) -> hoare (fun x => x = d /\ inv x /\ neat size v x) skip (fun d => promise p d /\ inv d /\ neat size v d) inv).
    { intros E. eapply h_weaken; [apply (h_skip (fun x => promise p x /\ inv x /\ neat size v x))|intros x [-> [A B]]; split; [apply A, E | split; assumption]|intros ? HH; exact HH|intros x H; apply H]. }
    destruct (target d) as [[q|]|] eqn:E; auto. destruct (platform_eqb q p) eqn:Q; auto. apply K. f_equal. f_equal. destruct q, p; cbn in Q; congruence.
  - eapply h_seq with (Q := fun d => promise p d /\ inv d /\ neat size v d).
    + apply h_step; [|intros x H; apply H]. intros x (A & B & C). split; [exact A|]. split; [intros q Hq; discriminate Hq | exact C].
    + apply h_step; [|intros x H; apply H]. intros x (A & B & C). split; [split; [reflexivity | exact A] | exact C].
Qed.
Lemma build_ok : hoare (fun d => inv d /\ neat size v d) (build size broken p v) (fun d => safe d /\ state d = Some Finished) inv.
Proof.
  unfold build. eapply h_seq; [apply set_target_ok|].
  eapply h_weaken with (R' := safe); [|intros ? HH; exact HH|intros ? HH; exact HH|exact safe_inv].
  eapply h_seq; [apply fetch_ok|]. eapply h_seq; [apply prepare_ok | apply write_ok].
Qed.
End Safe.

Lemma files_hold size v p d : package d = all_files size v p -> holds (size p v) p v d.
Proof.
  intros E q w i b. rewrite E. unfold all_files. rewrite in_map_iff. split.
  - intros (j & H & K). apply in_seq in K. injection H as <- <- <- <-. repeat split; lia.
  - intros (-> & -> & H & ->). exists i. split; [reflexivity|]. apply in_seq. lia.
Qed.
Lemma builds_inv size v d : builds size v (neat size v) fresh d -> inv size v d /\ neat size v d.
Proof.
  induction 1 as [|d p broken t e t' d' H IH E N].
  - split; [intros p H; discriminate H|]. intros p. cbn. split; [discriminate | auto].
  - split; [|exact N]. pose proof (build_ok size broken v p t d IH) as K. rewrite E in K. destruct e; [apply (safe_inv size v p), K|exact K|exact K].
Qed.
Theorem c86_packaged size v d p broken t t' d' : builds size v (neat size v) fresh d -> build size broken p v t d = (Returned, t', d') -> packaged size p v d'.
Proof.
  intros H E. pose proof (build_ok size broken v p t d (builds_inv size v d H)) as K. rewrite E in K. destruct K as [[_ K] S]. unfold promise in K. rewrite S in K.
  split; [apply files_hold, K | apply K].
Qed.
