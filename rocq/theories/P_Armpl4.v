(** The build of the Arm package: a download that failed is never repeated. *)
From Coq Require Import String List Bool Arith Lia.
From Verif Require Import M_Armpl S_Armpl P_Armpl P_Armpl2 P_Armpl3.
Import ListNotations.

Section Stuck.
Context (size : platform -> version -> nat) (p : platform) (v : version).
Definition early (d : disk) : Prop := state d = None \/ state d = Some Fetching \/ state d = Some Failed.
Definition half_loaded (d : disk) : Prop := archive d p v = Part /\ script d p v = Missing.
Definition stuck (d : disk) : Prop := half_loaded d /\ (target d = Some (Some p) -> early d).

(** builds for the other platform *)
Definition keeps (K : disk -> Prop) (a : prog) : Prop := hoare K a K K.
Lemma k_skip K : keeps K skip. Proof. apply h_skip. Qed.
Lemma k_raise K : keeps K raise. Proof. apply h_raise. Qed.
Lemma k_step (K : disk -> Prop) f : (forall d, K d -> K (f d)) -> keeps K (step f). Proof. intros H. apply h_step; auto. Qed.
Lemma k_seq K a b : keeps K a -> keeps K b -> keeps K (seq a b). Proof. intros A B. eapply h_seq; eassumption. Qed.
Lemma k_look K f : (forall d, keeps K (f d)) -> keeps K (look f).
Proof. intros A. apply h_look. intros d _. eapply h_weaken; [apply A| | |]; [intros x [_ H]; exact H|auto|auto]. Qed.
Lemma k_guard K a h : keeps K a -> keeps K h -> keeps K (guard a h). Proof. intros A B. eapply h_guard; [exact A|exact B|auto]. Qed.
Lemma k_set_state (K : disk -> Prop) s : (forall d x, K d -> K (with_state d x)) -> keeps K (set_state s).
Proof. intros H. destruct s; cbn; [apply k_seq|]; apply k_step; auto. Qed.
Lemma k_change (K : disk -> Prop) s f a : (forall d x, K d -> K (with_state d x)) -> keeps K a -> keeps K (state_change s f a).
Proof.
  intros H A. unfold state_change. apply k_look. intros d. destruct (_ || _); [|apply k_skip].
  apply k_seq; [apply k_set_state, H|]. apply k_seq; [apply k_guard; [exact A | apply k_set_state, H]|apply k_set_state, H].
Qed.
Definition elsewhere (d : disk) : Prop := half_loaded d /\ target d <> Some (Some p).
Lemma other_stuck q broken : q <> p -> hoare stuck (build size broken q v) stuck stuck.
Proof.
  intros N.
  assert (A : forall d f, elsewhere d -> elsewhere (with_archive q v f d)) by (intros d f [[A B] C]; repeat split; auto; cbn; rewrite put_ne by auto; exact A).
  assert (S : forall d f, elsewhere d -> elsewhere (with_script q v f d)) by (intros d f [[D B] C]; repeat split; auto; cbn; rewrite put_ne by auto; exact B).
  assert (L : forall d f, elsewhere d -> elsewhere (with_library q v f d)) by (intros d f [[D B] C]; repeat split; auto).
  assert (IF : forall n k, keeps elsewhere (install_from q v k n)) by (induction n; intros k; cbn [install_from]; [apply k_skip|apply k_seq; [apply k_step; auto | apply IHn]]).
  assert (IN : forall n, keeps elsewhere (install q v n)).
  { intros n. unfold install. apply k_seq; [destruct q; [apply k_skip | apply k_step; auto]|]. apply k_seq; [apply k_step; auto | apply IF]. }
  assert (FB : keeps elsewhere (fetch_body size broken q v)).
  { unfold fetch_body. apply k_seq; [apply k_look; intros d; destruct (archive d q v); try exact (k_skip _); apply k_seq; [apply k_step; auto|]; apply k_seq; apply k_step; auto|].
    apply k_seq; [apply k_look; intros d; destruct (script d q v); try exact (k_skip _); apply k_look; intros x; destruct (archive x q v); try exact (k_raise _); apply k_seq; apply k_step; auto|].
    apply k_look. intros d. destruct (library d q v); try exact (k_skip _); (apply k_seq; [apply k_step; auto|]; apply k_seq; [apply k_step; auto|]; apply k_look; intros x;
      destruct (script x q v); [destruct broken; [apply IN | apply k_raise]|destruct broken; [apply IN | apply k_raise]|apply IN]). }
  assert (FE : keeps elsewhere (fetch size broken q v)) by (apply k_change; [intros d x H; exact H | exact FB]).
  assert (RE : forall n, keeps elsewhere (remove n)) by (induction n; cbn [remove]; [apply k_skip|apply k_seq; [apply k_step; intros d H; exact H | assumption]]).
  assert (CF : forall n i, keeps elsewhere (copy_from q v i n)) by (induction n; intros i; cbn [copy_from]; [apply k_skip|apply k_seq; [apply k_step; intros d H; exact H|apply k_seq; [apply k_step; intros d H; exact H | apply IHn]]]).
  assert (PR : keeps elsewhere (prepare size broken q v)).
  { apply k_change; [intros d x H; exact H|]. unfold prepare_body. apply k_seq; [apply k_step; auto|]. apply k_seq; [apply k_look; intros d; apply RE|].
    unfold copy_sources. apply k_seq; apply k_look; intros d; destruct (library d q v); try exact (k_skip _); try (destruct q; [apply k_raise | exact FE]). apply CF. }
  assert (WR : keeps elsewhere (write_platform_file q)) by (apply k_change; [intros d x H; exact H|apply k_seq; apply k_step; intros d H; exact H]).
  assert (EL : forall d, elsewhere d -> stuck d) by (intros d [H K]; split; [exact H|intros E; contradiction]).
  unfold build. eapply h_seq with (Q := elsewhere).
  - unfold set_target. eapply h_seq with (Q := stuck).
    + apply h_look. intros d H. assert (Z : hoare (fun x => x = d /\ stuck x) (set_state None) stuck stuck) by (cbn; apply h_step; intros x [-> [K1 K2]]; split; auto; intros _; left; reflexivity).
      destruct (target d) as [[r|]|]; auto. destruct (platform_eqb r q); auto. eapply h_weaken; [apply (h_skip stuck stuck)|intros x [_ K]; exact K|auto|auto].
    + eapply h_seq with (Q := elsewhere); apply h_step; auto.
      * intros d [H _]. split; [exact H | discriminate].
      * intros d [H _]. split; [exact H|]. cbn. congruence.
  - eapply h_weaken with (Q' := elsewhere) (R' := elsewhere); [|intros d H; exact H|exact EL|exact EL]. repeat apply k_seq; assumption.
Qed.

(** builds for this platform *)
Lemma same_stuck broken : hoare stuck (build size broken p v) (fun _ => False) stuck.
Proof.
  set (ready := fun d => half_loaded d /\ target d = Some (Some p) /\ early d).
  assert (RS : forall d, ready d -> stuck d) by (intros d (A & B & C); split; auto).
  unfold build. eapply h_seq with (Q := ready).
  - unfold set_target. eapply h_seq with (Q := fun d => stuck d /\ early d).
    + apply h_look. intros d H. assert (Z : hoare (fun x => x = d /\ stuck x) (set_state None) (fun d => stuck d /\ early d) stuck)
        by (cbn; apply h_step; intros x [-> [K1 K2]]; [split; [split; auto; intros _|]; left; reflexivity | split; auto]).
      destruct (target d) as [[r|]|] eqn:E; auto. destruct (platform_eqb r p) eqn:Q; auto.
      eapply h_weaken; [apply (h_skip (fun d => stuck d /\ early d) stuck)| |auto|auto]. intros x [-> K]. split; [exact K|]. apply K. rewrite E. repeat f_equal. destruct r, p; cbn in Q; congruence.
    + eapply h_seq with (Q := fun d => half_loaded d /\ early d /\ target d = Some None); apply h_step.
      * intros d [[H _] K]. repeat split; try apply H; exact K.
      * intros d H. apply H.
      * intros d (H & K & _). repeat split; try apply H; exact K.
      * intros d (H & K & E). split; [exact H | auto].
  - eapply h_seq with (Q := fun _ => False); [|intros t d []].
    unfold fetch, state_change. apply h_look. intros d (H & T & E).
    assert (G : hoare (fun x => x = d) (set_state (Some Fetching) ;; guard (fetch_body size broken p v) (set_state (Some Failed)) ;; set_state (Some Fetched)) (fun _ => False) stuck).
    { eapply h_seq with (Q := fun x => half_loaded x /\ target x = Some (Some p) /\ state x = Some Fetching).
      - cbn. eapply h_seq with (Q := ready); apply h_step.
        + intros x ->. split; [exact H|]. split; [exact T | left; reflexivity].
        + intros x ->. apply RS. split; auto.
        + intros x (A & B & _). repeat split; try apply A; exact B.
        + exact RS.
      - eapply h_seq with (Q := fun _ => False); [|intros t x []].
        eapply h_guard with (R1 := fun x => half_loaded x /\ target x = Some (Some p) /\ state x = Some Fetching).
        + unfold fetch_body. eapply h_seq with (Q := fun x => half_loaded x /\ target x = Some (Some p) /\ state x = Some Fetching).
          * apply h_look. intros x [[A B] C]. rewrite A. eapply h_weaken; [apply h_skip|intros y [_ K]; exact K|intros ? HH; exact HH|intros ? HH; exact HH].
          * eapply h_seq with (Q := fun _ => False); [|intros t x []]. apply h_look. intros x [[A B] C]. rewrite B. apply h_look. intros y [-> K]. rewrite A.
            eapply h_weaken; [apply (h_raise (fun y => y = x) (fun _ => False))|intros z [_ [K' _]]; exact K'|auto|]. intros z ->. repeat split; auto; apply C.
        + cbn. eapply h_seq with (Q := ready); apply h_step.
          * intros x (A & B & _). split; [exact A|]. split; [exact B | left; reflexivity].
          * intros x (A & B & C). apply RS. split; [exact A|]. split; [exact B | right; left; exact C].
          * intros x (A & B & _). apply RS. split; [exact A|]. split; [exact B | right; right; reflexivity].
          * exact RS.
        + intros x (A & B & C). apply RS. split; [exact A|]. split; [exact B | right; left; exact C]. }
    assert (W : hoare (fun x => x = d /\ ready x) (set_state (Some Fetching) ;; guard (fetch_body size broken p v) (set_state (Some Failed)) ;; set_state (Some Fetched)) (fun _ => False) stuck)
      by (eapply h_weaken; [exact G|intros x [K _]; exact K|auto|auto]).
    destruct E as [E|[E|E]]; rewrite E; cbn [transitions existsb stage_eqb orb]; exact W.
Qed.
Lemma builds_stuck d0 d : stuck d0 -> builds size v (fun _ => True) d0 d -> stuck d.
Proof.
  intros H0. induction 1 as [|d q broken t e t' d' H IH E _]; [exact H0|].
  destruct (platform_eqb q p) eqn:Q.
  - replace q with p in E by (destruct q, p; cbn in Q; congruence). pose proof (same_stuck broken t d IH) as K. rewrite E in K. destruct e; [contradiction|exact K|exact K].
  - assert (N : q <> p) by (destruct q, p; cbn in Q; congruence). pose proof (other_stuck q broken N t d IH) as K. rewrite E in K. destruct e; exact K.
Qed.
End Stuck.

Lemma failed_download size broken p v : exists d, build size broken p v (Some (7, Exception)) fresh = (Raised, None, d) /\ stuck p v d.
Proof.
  eexists. split; [destruct p; reflexivity|]. split; [split; [destruct p; apply put_eq | destruct p; reflexivity]|]. intros _. right. right. destruct p; reflexivity.
Qed.
Theorem c87_download size broken p v : exists n d0, build size broken p v (Some (n, Exception)) fresh = (Raised, None, d0) /\
  forall d broken' t t' d', builds size v (fun _ => True) d0 d -> build size broken' p v t d <> (Returned, t', d').
Proof.
  destruct (failed_download size broken p v) as (d0 & E & S). exists 7, d0. split; [exact E|]. intros d b t t' d' H F.
  pose proof (same_stuck size p v b t d (builds_stuck size p v d0 d S H)) as K. rewrite F in K. exact K.
Qed.
