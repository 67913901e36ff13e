(** The build of the Arm package: builds that return, and the ways it goes wrong. *)
From Coq Require Import String List Bool Arith Lia.
From Verif Require Import M_Armpl S_Armpl P_Armpl.
Import ListNotations.

(** nothing happens in a finished build *)
Lemma finished_again size broken p v d : state d = Some Finished -> target d = Some (Some p) -> build size broken p v None d = (Returned, None, d).
Proof.
  intros S T. destruct d as [st tg ar sc li pk pt]. cbn in S, T. subst. unfold build, set_target, seq, look. cbn [target].
  replace (platform_eqb p p) with true by (destruct p; reflexivity). reflexivity.
Qed.
Lemma returned_finished size v d p broken t t' d' : builds size v (neat size v) fresh d -> build size broken p v t d = (Returned, t', d') ->
  state d' = Some Finished /\ target d' = Some (Some p).
Proof. intros H E. pose proof (build_ok size broken v p t d (builds_inv size v d H)) as K. rewrite E in K. destruct K as [[A _] B]. auto. Qed.
Theorem c87_again size v d p broken t t' d' broken' : builds size v (neat size v) fresh d -> build size broken p v t d = (Returned, t', d') ->
  build size broken' p v None d' = (Returned, None, d').
Proof. intros H E. destruct (returned_finished _ _ _ _ _ _ _ _ H E). apply finished_again; assumption. Qed.
Theorem c86_version size v d p broken t t' d' w broken' : builds size v (neat size v) fresh d -> build size broken p v t d = (Returned, t', d') ->
  build size broken' p w None d' = (Returned, None, d') /\ holds (size p v) p v d'.
Proof.
  intros H E. destruct (returned_finished _ _ _ _ _ _ _ _ H E). split; [apply finished_again; assumption|]. exact (proj1 (c86_packaged _ _ _ _ _ _ _ _ H E)).
Qed.

(** builds without trouble return *)
Definition live (P : disk -> Prop) (a : prog) (Q : disk -> Prop) : Prop := forall d, P d -> exists d', a None d = (Returned, None, d') /\ Q d'.
Lemma l_step (P Q : disk -> Prop) f : (forall d, P d -> Q (f d)) -> live P (step f) Q.
Proof. intros H d Hd. exists (f d). auto. Qed.
Lemma l_skip (P : disk -> Prop) : live P skip P.
Proof. intros d Hd. exists d. auto. Qed.
Lemma l_seq (P : disk -> Prop) a b (Q S : disk -> Prop) : live P a Q -> live Q b S -> live P (seq a b) S.
Proof. intros A B d Hd. destruct (A d Hd) as (d' & E & H). unfold seq. rewrite E. apply B, H. Qed.
Lemma l_look (P : disk -> Prop) f (Q : disk -> Prop) : (forall d, P d -> live (fun x => x = d) (f d) Q) -> live P (look f) Q.
Proof. intros A d Hd. exact (A d Hd d eq_refl). Qed.
Lemma l_guard (P : disk -> Prop) a h (Q : disk -> Prop) : live P a Q -> live P (guard a h) Q.
Proof. intros A d Hd. destruct (A d Hd) as (d' & E & H). unfold guard. rewrite E. exists d'. auto. Qed.
Lemma l_weaken (P P' : disk -> Prop) a (Q Q' : disk -> Prop) : live P' a Q' -> (forall d, P d -> P' d) -> (forall d, Q' d -> Q d) -> live P a Q.
Proof. intros A B C d Hd. destruct (A d (B d Hd)) as (d' & E & H). exists d'. auto. Qed.
Lemma l_hoare (P : disk -> Prop) a (Q Q' R : disk -> Prop) : live P a Q' -> hoare P a Q R -> live P a Q.
Proof. intros A B d Hd. destruct (A d Hd) as (d' & E & H). pose proof (B None d Hd) as K. rewrite E in K. exists d'. auto. Qed.
Definition any (d : disk) : Prop := True.
Lemma l_set_state s : live any (set_state s) any.
Proof. destruct s; cbn; [eapply l_seq with (Q := any)|]; apply l_step; intros; exact I. Qed.
Lemma l_any (P : disk -> Prop) a : live any a any -> live P a any.
Proof. intros H. eapply l_weaken; [exact H| |]; intros; exact I. Qed.

Section Live.
Context (size : platform -> version -> nat) (broken : option nat) (p : platform) (v : version).
Lemma l_install n : live any (install p v n) any.
Proof.
  assert (F : forall n k, live any (install_from p v k n) any).
  { clear n. induction n as [|n IH]; intros k; cbn [install_from]; [apply l_skip|]. eapply l_seq with (Q := any); [apply l_step; intros; exact I | apply IH]. }
  unfold install. eapply l_seq with (Q := any); [destruct p; [apply l_skip | apply l_step; intros; exact I]|]. eapply l_seq with (Q := any); [apply l_step; intros; exact I | apply F].
Qed.
Definition usable (d : disk) : Prop := script d p v = Whole \/ (script d p v = Missing /\ archive d p v <> Part).
Lemma l_fetch_body : live usable (fetch_body size broken p v) any.
Proof.
  unfold fetch_body. eapply l_seq with (Q := fun d => script d p v = Whole \/ (script d p v = Missing /\ archive d p v = Whole)).
  - unfold download. apply l_look. intros d Hd.
    assert (D : archive d p v <> Missing -> live (fun x => x = d) skip (fun d => script d p v = Whole \/ (script d p v = Missing /\ archive d p v = Whole))).
    { intros A x ->. exists d. split; [reflexivity|]. destruct Hd as [H|[H K]]; [auto|]. right. split; [exact H|]. destruct (archive d p v); congruence. }
    destruct (archive d p v) eqn:E; [|apply D; discriminate|apply D; discriminate].
    eapply l_seq with (Q := fun x => x = d); [apply l_step; intros x ->; reflexivity|].
    eapply l_seq with (Q := fun x => x = with_archive p v Part d); apply l_step; intros x ->; [reflexivity|].
    destruct Hd as [H|[H K]]; [left; exact H|right; split; [exact H | cbn; apply put_eq]].
  - eapply l_seq with (Q := fun d => script d p v = Whole).
    + apply l_look. intros d [H|[H K]]; rewrite H; [intros x ->; exists d; auto|]. unfold extract_archive. apply l_look. intros x ->. rewrite K.
      eapply l_seq with (Q := any); apply l_step; [intros; exact I | intros; cbn; apply put_eq].
    + unfold extract_library_files. apply l_look. intros d H. destruct (library d p v).
      3,4: intros x ->; exists d; split; [reflexivity | exact I].
      all: eapply l_seq with (Q := fun d => script d p v = Whole); [apply l_step; intros x ->; exact H|];
        eapply l_seq with (Q := fun d => script d p v = Whole); [apply l_step; auto|]; apply l_look; intros x Hx; rewrite Hx; apply l_any, l_install.
Qed.
Lemma l_change (P : disk -> Prop) s f a : (forall d, P d -> P (with_state d (Some s))) -> live P a any -> live P (state_change s f a) any.
Proof.
  intros A B. unfold state_change. apply l_look. intros d Hd. destruct (_ || _); [|intros x ->; exists d; split; [reflexivity | exact I]].
  eapply l_seq with (Q := P); [|eapply l_seq; [apply l_guard, B|apply l_set_state]].
  cbn. eapply l_seq with (Q := fun x => x = with_state d None); apply l_step; intros x ->; [reflexivity | exact (A d Hd)].
Qed.
Lemma l_fetch : live usable (fetch size broken p v) any.
Proof. apply l_change; [intros d H; exact H | apply l_fetch_body]. Qed.
Lemma l_prepare : live (fun d => safe size v p d /\ late d) (prepare size broken p v) any.
Proof.
  unfold prepare, state_change. apply l_look. intros d [S L].
  destruct L as [E|[E|[E|E]]]; rewrite E; cbn [transitions existsb stage_eqb orb].
  3,4: intros x ->; exists d; split; [reflexivity | exact I].
  all: assert (F : library d p v = Files (size p v)) by (destruct S as [_ B]; unfold promise in B; rewrite E in B; exact B).
  all: (eapply l_seq with (Q := fun d => library d p v = Files (size p v));
    [cbn; eapply l_seq with (Q := fun d => library d p v = Files (size p v)); apply l_step; [intros x -> | intros x Hx]; assumption|]).
  all: eapply l_seq; [apply l_guard with (Q := any)|apply l_set_state].
  all: unfold prepare_body; (eapply l_seq with (Q := fun d => library d p v = Files (size p v)); [apply l_step; auto|]);
    (eapply l_seq with (Q := fun d => library d p v = Files (size p v));
     [apply l_look; intros x Hx; eapply l_weaken with (P' := fun d => library d p v = Files (size p v)); [|intros y ->; exact Hx|intros y H; exact H];
      induction (length (package x)) as [|n IH]; cbn [remove]; [apply l_skip|eapply l_seq; [apply l_step|exact IH]; auto]|]);
    unfold copy_sources; (eapply l_seq with (Q := fun d => library d p v = Files (size p v));
     [apply l_look; intros x Hx; rewrite Hx; intros y ->; exists x; auto|]);
    apply l_look; intros x Hx; rewrite Hx; apply l_any; clear Hx; try clear F; generalize 0; generalize (size p v) as m; induction m as [|n IH]; intros k; cbn [copy_from]; [apply l_skip|];
    (eapply l_seq with (Q := any); [apply l_step; intros; exact I|]); (eapply l_seq with (Q := any); [apply l_step; intros; exact I | apply IH]).
Qed.
Lemma l_write P : live P (write_platform_file p) any.
Proof. apply l_any, l_change; [intros; exact I|]. eapply l_seq with (Q := any); apply l_step; intros; exact I. Qed.
Lemma l_set_target : live usable (set_target p) usable.
Proof.
  unfold set_target. eapply l_seq with (Q := usable).
  - apply l_look. intros d Hd. destruct (target d) as [[q|]|]; [destruct (platform_eqb q p)|..]; cbn; [intros x ->; exists d; auto|..]; apply l_step; intros x ->; exact Hd.
  - eapply l_seq with (Q := usable); apply l_step; intros x Hx; exact Hx.
Qed.
Lemma l_and (P P' : disk -> Prop) a (Q Q' R : disk -> Prop) : live P a Q -> hoare P' a Q' R -> live (fun d => P d /\ P' d) a (fun d => Q d /\ Q' d).
Proof. intros A B d [H H']. destruct (A d H) as (d' & E & K). pose proof (B None d H') as L. rewrite E in L. exists d'. auto. Qed.
Lemma l_build : live (fun d => usable d /\ inv size v d /\ neat size v d) (build size broken p v) any.
Proof.
  unfold build. eapply l_seq; [apply (l_and _ _ _ _ _ _ l_set_target (set_target_ok size v p))|]. cbv beta.
  eapply l_seq; [apply (l_and _ _ _ _ _ _ l_fetch (fetch_ok size broken v p))|]. cbv beta.
  eapply l_seq; [eapply l_weaken; [apply l_prepare|intros d [_ H]; exact H|intros d H; exact H]|]. apply l_write.
Qed.
End Live.
Theorem c87_retry size v d p broken : builds size v (neat size v) fresh d -> archive d p v <> Part ->
  exists d', build size broken p v None d = (Returned, None, d') /\ packaged size p v d'.
Proof.
  intros H A. destruct (builds_inv size v d H) as [I0 N].
  destruct (l_build size broken p v d) as (d' & E & _).
  - split; [|auto]. unfold usable. destruct (N p) as [B _]. destruct (script d p v); tauto.
  - exists d'. split; [exact E|]. exact (c86_packaged _ _ _ _ _ _ _ _ H E).
Qed.
