(** The package with the Arm Performance Libraries (build-packages/arm-performance-libraries). *)
From Coq Require Import String List Arith Lia.
From Verif Require Import M_Armpl S_Armpl P_Armpl P_Armpl2 P_Armpl3 P_Armpl4.
Import ListNotations.

(** C86. A build that returns has packaged the library of the platform and version asked for, whatever happened before. *)
Definition C86_claim : Prop :=
  forall size broken (before : list (platform * version * trouble)) p v t t' d',
    build size broken p v t (fold_left (fun d '(q, w, u) => snd (build size broken q w u d)) before fresh) = (Returned, t', d') -> packaged size p v d'.

(** It holds when all builds are of one version and no interruption left a script or a library in part: builds may fail or be killed at any
    step of the download, of the packaging and of the writing of the state files. *)
Theorem C86_packaged_partial : forall size v d p broken t t' d',
  builds size v (neat size v) fresh d -> build size broken p v t d = (Returned, t', d') -> packaged size p v d'.
Proof. exact c86_packaged. Qed.
Print Assumptions C86_packaged_partial.

(** False when the version changes: the build returns at once and leaves the old library in the package. *)
Theorem C86_version_refuted : ~ C86_claim /\
  forall size v d p broken t t' d' w broken', builds size v (neat size v) fresh d -> build size broken p v t d = (Returned, t', d') ->
    build size broken' p w None d' = (Returned, None, d') /\ holds (size p v) p v d'.
Proof.
  split; [|exact c86_version]. intros H.
  set (d1 := snd (build (fun _ _ => 1) None Linux "26.01"%string None fresh)).
  assert (A : build (fun _ _ => 1) None Linux "26.01"%string None fresh = (Returned, None, d1)) by (vm_compute; reflexivity).
  assert (B : build (fun _ _ => 1) None Linux "26.05"%string None d1 = (Returned, None, d1)) by (vm_compute; reflexivity).
  specialize (H (fun _ _ => 1) None [(Linux, "26.01"%string, None)] Linux "26.05"%string None None d1 B).
  assert (C : In (Linux, "26.01"%string, 0, true) (package d1)) by (vm_compute; left; reflexivity).
  destruct H as [H _]. apply H in C. destruct C as (_ & E & _). discriminate E.
Qed.
Print Assumptions C86_version_refuted.

(** False after an interruption: killed when [k] files were installed, the next build packages these [k] files only, and returns. *)
Theorem C86_interrupted_refuted : ~ C86_claim /\
  forall size p v k, k < size p v -> exists n broken d d',
    build size broken p v (Some (n, Kill)) fresh = (Killed, None, d) /\ build size broken p v None d = (Returned, None, d') /\ holds k p v d'.
Proof.
  split; [|exact c86_interrupted]. intros H.
  destruct (c86_interrupted (fun _ _ => 2) Linux "26.01"%string 1 (Nat.lt_succ_diag_r 1)) as (n & b & d & d' & E & F & G).
  specialize (H (fun _ _ => 2) b [(Linux, "26.01"%string, Some (n, Kill))] Linux "26.01"%string None None d').
  cbn [fold_left] in H. rewrite E in H. destruct (H F) as [K _].
  assert (X : In (Linux, "26.01"%string, 1, true) (package d')) by (apply K; auto). apply G in X. lia.
Qed.
Print Assumptions C86_interrupted_refuted.

(** A history the partial theorem is about: a build for macOS killed while packaging, a failing connection, then a build for Linux. *)
Example C86_case : exists d d', builds (fun _ _ => 3) "26.01"%string (neat (fun _ _ => 3) "26.01"%string) fresh d /\ state d = Some Failed /\
  build (fun _ _ => 3) None Linux "26.01"%string None d = (Returned, None, d').
Proof.
  set (z := fun (_ : platform) (_ : version) => 3).
  set (d1 := snd (build z None Macos "26.01"%string (Some (24, Kill)) fresh)).
  set (d2 := snd (build z None Linux "26.01"%string (Some (5, Exception)) d1)).
  exists d2, (snd (build z None Linux "26.01"%string None d2)). split; [|split; [vm_compute; reflexivity|vm_compute; reflexivity]].
  apply (one_more _ _ _ _ d1 Linux None (Some (5, Exception)) Raised None); [|vm_compute; reflexivity|].
  - apply (one_more _ _ _ _ fresh Macos None (Some (24, Kill)) Killed None); [constructor|vm_compute; reflexivity|].
    intros []; vm_compute; split; try discriminate; auto.
  - intros []; vm_compute; split; try discriminate; auto.
Qed.

(** C87. After a failed or killed build, a build without trouble returns with the library packaged; after a finished one it changes
    nothing. *)
Definition C87_claim : Prop :=
  forall size v d p broken, builds size v (fun _ => True) fresh d -> exists d', build size broken p v None d = (Returned, None, d') /\ packaged size p v d'.

Theorem C87_retry_partial : forall size v d p broken, builds size v (neat size v) fresh d -> archive d p v <> Part ->
  exists d', build size broken p v None d = (Returned, None, d') /\ packaged size p v d'.
Proof. exact c87_retry. Qed.
Print Assumptions C87_retry_partial.

Theorem C87_again : forall size v d p broken t t' d' broken', builds size v (neat size v) fresh d -> build size broken p v t d = (Returned, t', d') ->
  build size broken' p v None d' = (Returned, None, d').
Proof. exact c87_again. Qed.
Print Assumptions C87_again.

(** False after a connection that breaks during the download: the empty file stays, and no later build of that version for that platform
    ever returns, whatever happens. *)
Theorem C87_download_refuted : ~ C87_claim /\
  forall size broken p v, exists n d0, build size broken p v (Some (n, Exception)) fresh = (Raised, None, d0) /\
    forall d broken' t t' d', builds size v (fun _ => True) d0 d -> build size broken' p v t d <> (Returned, t', d').
Proof.
  split; [|exact c87_download]. intros H.
  destruct (c87_download (fun _ _ => 1) None Linux "26.01"%string) as (n & d0 & E & N).
  destruct (H (fun _ _ => 1) "26.01"%string d0 Linux None) as (d' & F & _).
  - eapply one_more; [constructor|exact E|exact I].
  - exact (N d0 None None None d' (none_yet _ _ _ _) F).
Qed.
Print Assumptions C87_download_refuted.
