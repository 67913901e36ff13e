(** Proofs for calls that run out of memory. *)
From Coq Require Import ZArith Bool Lia List.
From Verif Require Import Base Arith M_Variogram M_Padding M_FftSize M_Grid M_CovGrid M_Fft M_Dsfmt M_Random M_Field M_Api M_Alloc
  S_Api S_Alloc P_Field3.
Import ListNotations.
Open Scope nat_scope.
#[local] Opaque init_gen_rand gen_rand_all genrand_uint32.

Definition short {T} (e : ending T) : Prop := e = NullWrite \/ exists lost, e = NoMemory lost /\ lost <= 2.
Definition runs {T} (m : mem T) (st : rstate) (x : T) (st1 : rstate) (n : nat) : Prop :=
  (forall k, n <= k -> m k st = (Ended (Ok x), k - n, st1)) /\
  (forall k, k < n -> exists e st', m k st = (e, 0, st') /\ short e /\ (stream st' = stream st \/ stream st' = stream st1)).
(** a point where fftw_malloc fails, and one where an exception comes after the draws *)
Definition crashes {T} (m : mem T) (st : rstate) : Prop := exists k st', m k st = (NullWrite, 0, st').

Lemma runs_bind {T U} (m : mem T) (f : T -> mem U) st x st1 n y st2 n2 : runs m st x st1 n -> runs (f x) st1 y st2 n2 ->
  (stream st = stream st1 \/ stream st1 = stream st2) -> runs (andthen m f) st y st2 (n + n2).
Proof.
  intros [A1 A2] [B1 B2] S. split; intros k Hk; unfold andthen.
  - rewrite A1 by lia. rewrite B1 by lia. f_equal. f_equal. lia.
  - destruct (Nat.le_gt_cases n k) as [Q|Q].
    + rewrite A1 by exact Q. destruct (B2 (k - n) ltac:(lia)) as (e & st' & E & H1 & H2). exists e, st'. rewrite E. repeat split; auto.
      destruct S as [S|S], H2 as [H2|H2]; rewrite H2; auto; rewrite S; auto.
    + destruct (A2 k Q) as (e & st' & E & H1 & H2). rewrite E.
      assert (HS : stream st' = stream st \/ stream st' = stream st2) by (destruct S as [S|S], H2 as [H2|H2]; rewrite H2; auto; rewrite S; auto).
      destruct H1 as [->|(lost & -> & H1)]; (eexists; exists st'; split; [reflexivity|]; split; [|exact HS]); [left; reflexivity|right; eauto].
Qed.
Lemma runs_pure {T} (x : T) st : runs (pure (Ok x)) st x st 0.
Proof. split; intros k Hk; [unfold pure; rewrite Nat.sub_0_r; reflexivity|lia]. Qed.
Lemma runs_pure' {T} (o : outcome T) x st : o = Ok x -> runs (pure o) st x st 0.
Proof. intros ->. apply runs_pure. Qed.
Lemma runs_new held st : held <= 2 -> runs (new held) st tt st 1.
Proof.
  intros H. split; intros k Hk; destruct k as [|k]; try lia; cbn [new].
  - rewrite Nat.sub_succ, Nat.sub_0_r. reflexivity.
  - eexists; eexists; split; [reflexivity|]. split; [right; eauto|auto].
Qed.
Lemma runs_fftw st : runs fftw_malloc st tt st 1.
Proof.
  split; intros k Hk; destruct k as [|k]; try lia; cbn [fftw_malloc].
  - rewrite Nat.sub_succ, Nat.sub_0_r. reflexivity.
  - eexists; eexists; split; [reflexivity|]. split; [left; reflexivity|auto].
Qed.
Lemma runs_news n st : runs (news n) st tt st n.
Proof.
  induction n; cbn [news]; [apply runs_pure|]. change (S n) with (1 + n). eapply runs_bind; [apply runs_new; lia|exact IHn|auto].
Qed.
Lemma runs_cov {T} (o : outcome T) c st : o = Ok c -> runs (cov_mem o) st c st 8.
Proof.
  intros ->. unfold cov_mem. change 8 with (1 + (6 + (0 + (1 + 0)))).
  eapply runs_bind; [apply runs_new; lia| |auto]. eapply runs_bind; [apply runs_news| |auto]. eapply runs_bind; [apply runs_pure| |auto].
  eapply runs_bind; [apply runs_new; lia| |auto]. apply runs_pure.
Qed.
Lemma runs_grid st : runs FFTGrid_mem st tt st 2.
Proof. unfold FFTGrid_mem. change 2 with (1 + 1). eapply runs_bind; [apply runs_fftw|apply runs_fftw|auto]. Qed.

Lemma crash_bind {T U} (m : mem T) (f : T -> mem U) st x st1 n : runs m st x st1 n -> crashes (f x) st1 -> crashes (andthen m f) st.
Proof. intros [A _] (k & st' & E). exists (n + k), st'. unfold andthen. rewrite A by lia. replace (n + k - n) with k by lia. exact E. Qed.
Lemma crash_first {T U} (m : mem T) (f : T -> mem U) st : crashes m st -> crashes (andthen m f) st.
Proof. intros (k & st' & E). exists k, st'. unfold andthen. rewrite E. reflexivity. Qed.
Lemma crash_fftw st : crashes fftw_malloc st.
Proof. exists 0, st. reflexivity. Qed.
Lemma crash_grid st : crashes FFTGrid_mem st.
Proof. apply crash_first, crash_fftw. Qed.

Section C.
Context {L : Lib}.
Variable rec : recursion.
Variable fuel : nat.
Lemma runs_generator st : runs (generator_mem rec) st (fst (new_generator rec st)) (snd (new_generator rec st)) 1.
Proof.
  unfold generator_mem. change 1 with (1 + 0). eapply runs_bind; [apply runs_new; lia| |auto].
  split; intros k Hk; [|lia]. rewrite Nat.sub_0_r. destruct (new_generator rec st); reflexivity.
Qed.
Lemma runs_fft1 v b z (l : list (cplx L)) st : ComputeFFT1D v b z = Ok l -> exists n, runs (ComputeFFT1D_mem v b z) st l st n.
Proof.
  intros E. unfold ComputeFFT1D_mem. destruct v as [|x v]; [exists 0; apply runs_pure'; exact E|]. exists (1 + (1 + (1 + 0))).
  eapply runs_bind; [apply runs_fftw| |auto]. eapply runs_bind; [apply runs_fftw| |auto]. eapply runs_bind; [apply runs_new; lia| |auto].
  apply runs_pure'. exact E.
Qed.
Lemma runs_inv1 v o b (l : list (num L)) st : ComputeFFTInv1D v o b = Ok l -> exists n, runs (ComputeFFTInv1D_mem v o b) st l st n.
Proof.
  intros E. unfold ComputeFFTInv1D_mem. destruct v as [|x v]; [exists 0; apply runs_pure'; exact E|]. exists (1 + (1 + 0)).
  eapply runs_bind; [apply runs_fftw| |auto]. eapply runs_bind; [apply runs_fftw| |auto]. apply runs_pure'. exact E.
Qed.
Lemma runs_shared n st (xs : list (num L)) d : draws (Unif01 rec) fuel n (gen st) = Ok (xs, d) ->
  runs (shared_draws rec fuel n) st xs (mkRstate (is_init st) (start_seed st) d (leaked st)) 0.
Proof. intros E. split; intros k Hk; [|lia]. unfold shared_draws. rewrite E, Nat.sub_0_r. reflexivity. Qed.

Ltac inv H := match type of H with bind ?o _ = Ok _ => let x := fresh "x" in let E := fresh "E" in destruct o as [x| | |] eqn:E; cbn [bind] in H; try discriminate H end.
Ltac rb t := eapply runs_bind; [t| |solve [auto]]; cbv beta iota.
Ltac rbp E := rb ltac:(apply runs_pure'; exact E).
Ltac rbn := rb ltac:(first [apply runs_new; lia|apply runs_news|apply runs_grid|apply runs_fftw]).
Ltac cb t := eapply crash_bind; [t|]; cbv beta iota.
Ltac cbp E := cb ltac:(apply runs_pure'; exact E).
Ltac cbn' := cb ltac:(first [apply runs_new; lia|apply runs_news|apply runs_grid|apply runs_fftw]).
Lemma sim1_runs v nx dx padx sx st (l : list (num L)) st' : Simulate1D rec fuel v nx dx padx sx st = Ok (l, st') ->
  (exists n, runs (Simulate1D_mem rec fuel v nx dx padx sx) st l st' n) /\ (l <> [] -> crashes (Simulate1D_mem rec fuel v nx dx padx sx) st).
Proof.
  unfold Simulate1D. intros H. inv H. inv H. destruct (new_generator rec st) as [rg st1] eqn:EG. inv H. destruct x1 as [noise d]. cbn [bind] in H.
  unfold field1d in H. repeat inv H. injection H as -> ->. repeat inv E2.
  pose proof (runs_generator st) as RG. rewrite EG in RG. cbn [fst snd] in RG. unfold Simulate1D_mem.
  match goal with E : ComputeFFT1D ?c false 0 = Ok _ |- _ => destruct (runs_fft1 c false 0 _ st' E) as [n1 R1] end.
  destruct (runs_fft1 noise true 0 _ st' ltac:(eassumption)) as [n2 R2].
  match goal with E : ComputeFFTInv1D ?c ?o true = Ok _ |- _ => destruct (runs_inv1 c o true _ st' E) as [n3 R3] end.
  split.
  - eexists. rbn. rbn. rbp E. rbp E0. rb ltac:(apply runs_cov; eassumption). rb ltac:(exact RG). rbn. rbp E1. rb ltac:(exact R1). rb ltac:(exact R2).
    rbn. rb ltac:(apply runs_pure'; eassumption). rbn. rb ltac:(exact R3). apply runs_pure'. exact E2.
  - intros NE. cbn'. cbn'. cbp E. cbp E0. cb ltac:(apply runs_cov; eassumption). cb ltac:(exact RG). cbn'. cbp E1.
    match goal with |- crashes (andthen (ComputeFFT1D_mem ?c _ _) _) _ => destruct c as [|c0 cs] end.
    2:{ apply crash_first. cbn [ComputeFFT1D_mem]. apply crash_first, crash_fftw. }
    cb ltac:(exact R1). destruct noise as [|z zs].
    2:{ apply crash_first. cbn [ComputeFFT1D_mem]. apply crash_first, crash_fftw. }
    exfalso. apply NE. pose proof (draws_length _ _ _ _ _ _ E1) as LN. cbn [length] in LN. subst x0.
    match goal with E : ComputeFFT1D [] false 0 = Ok ?q |- _ => cbn [ComputeFFT1D] in E; injection E as <- end.
    match goal with E : mapM _ (seq 0 (length (map clip_sqrt []))) = Ok ?q |- _ => cbn [map length seq mapM] in E; injection E as <- end.
    match goal with E : ComputeFFTInv1D [] _ true = Ok ?q |- _ => cbn [ComputeFFTInv1D repeat] in E; injection E as <- end.
    destruct (Z.to_nat nx) as [|m]; cbn [seq mapM rd nth_error bind] in E2; [injection E2 as <-; reflexivity|discriminate E2].
Qed.
Lemma sim2_runs v nx dx ny dy padx pady sx sy st (l : list (num L)) st' : Simulate2D rec fuel v nx dx ny dy padx pady sx sy st = Ok (l, st') ->
  (exists n, runs (Simulate2D_mem rec fuel v nx dx ny dy padx pady sx sy) st l st' n) /\ crashes (Simulate2D_mem rec fuel v nx dx ny dy padx pady sx sy) st.
Proof.
  unfold Simulate2D. intros H. inv H. destruct x as [a b]. cbn [bind] in H. inv H. inv H. destruct (new_generator rec st) as [rg st1] eqn:EG. inv H.
  destruct x1 as [xs d]. cbn [bind] in H. inv H. unfold field2d in H. repeat inv H. injection H as -> ->. repeat inv E4.
  pose proof (runs_generator st) as RG. rewrite EG in RG. cbn [fst snd] in RG. unfold Simulate2D_mem. split.
  - eexists. rbn. rbp E. rbn. rbp E0. rbp E1. rb ltac:(apply runs_cov; eassumption). rbn. rb ltac:(apply runs_pure'; eassumption). rb ltac:(apply runs_pure'; eassumption).
    rbn. rb ltac:(exact RG). rbp E2. rbp E3. do 4 rb ltac:(apply runs_pure'; eassumption). rbn. rb ltac:(apply runs_pure'; eassumption). rbn. apply runs_pure.
  - cbn'. cbp E. apply crash_first, crash_grid.
Qed.
Lemma sim3_runs v nx dx ny dy nz dz padx pady padz sx sy sz st (l : list (num L)) st' :
  Simulate3D rec fuel v nx dx ny dy nz dz padx pady padz sx sy sz st = Ok (l, st') ->
  (exists n, runs (Simulate3D_mem rec fuel v nx dx ny dy nz dz padx pady padz sx sy sz) st l st' n) /\
  crashes (Simulate3D_mem rec fuel v nx dx ny dy nz dz padx pady padz sx sy sz) st.
Proof.
  unfold Simulate3D. intros H. inv H. destruct x as [[a b] c]. cbn [bind] in H. do 4 inv H.
  destruct x2 as [xs d]. cbn [bind] in H. inv H. unfold field3d in H. repeat inv H. injection H as -> <-. repeat inv E5.
  unfold Simulate3D_mem. split.
  - eexists. rbn. rbp E. rbn. rbp E0. rbp E1. rbp E2. rb ltac:(apply runs_cov; eassumption). rbn. rb ltac:(apply runs_pure'; eassumption). rb ltac:(apply runs_pure'; eassumption).
    rbn. rb ltac:(apply runs_shared; exact E3). rbp E4. do 4 rb ltac:(apply runs_pure'; eassumption). rbn. rb ltac:(apply runs_pure'; eassumption). rbn. apply runs_pure.
  - cbn'. cbp E. apply crash_first, crash_grid.
Qed.

Lemma late_bind {T U} (m : mem T) (f : T -> mem U) st x st1 n k r : runs m st x st1 n -> f x k st1 = r -> andthen m f (n + k) st = r.
Proof. intros [A _] E. unfold andthen. rewrite A by lia. replace (n + k - n) with k by lia. exact E. Qed.
Lemma any_runs v nx dx ny dy nz dz padx pady padz sx sy sz st (l : list (num L)) st' :
  SimulateAny rec fuel v nx dx ny dy nz dz padx pady padz sx sy sz st = Ok (l, st') ->
  let m := SimulateAny_mem rec fuel v nx dx ny dy nz dz padx pady padz sx sy sz in
  (exists n, runs m st (VArray l) st' (S n)) /\ (l <> [] -> crashes m st) /\ (exists k, m k st = (NoMemory 0, 0, st')).
Proof.
  intros H m. unfold SimulateAny in H.
  assert (X : exists p, m = (let! l := p in let! _ := new 0 in let! _ := news (length l) in let! _ := new 0 in pure (Ok (VArray l))) /\
    (exists n, runs p st l st' n) /\ (l <> [] -> crashes p st)).
  { unfold m, SimulateAny_mem. destruct (dimension ny dy nz dz) as [|[|[|q]]]; (eexists; split; [reflexivity|]).
    1,4: destruct (sim3_runs _ _ _ _ _ _ _ _ _ _ _ _ _ _ _ _ H) as [A B]; split; [exact A|intros _; exact B].
    - exact (sim1_runs _ _ _ _ _ _ _ _ H).
    - destruct (sim2_runs _ _ _ _ _ _ _ _ _ _ _ _ H) as [A B]; split; [exact A|intros _; exact B]. }
  clearbody m. destruct X as (p & -> & (n & R) & C). split; [|split].
  - exists (n + (length l + 1)). replace (S (n + (length l + 1))) with (n + (1 + (length l + (1 + 0)))) by lia. rb ltac:(exact R). rbn. rbn. rbn. apply runs_pure.
  - intros NE. apply crash_first. exact (C NE).
  - exists (n + 0). eapply late_bind; [exact R|]. reflexivity.
Qed.

Lemma do_sim_ok now v nx dx ny dy nz dz padx pady padz sx sy sz st (l : list (num L)) :
  fst (do_simulate rec fuel now v nx dx ny dy nz dz padx pady padz sx sy sz st) = Ok (VArray l) ->
  SimulateAny rec fuel v nx dx ny dy nz dz padx pady padz sx sy sz (ensure_init rec now st) =
    Ok (l, snd (do_simulate rec fuel now v nx dx ny dy nz dz padx pady padz sx sy sz st)).
Proof.
  unfold do_simulate. destruct (SimulateAny _ _ _ _ _ _ _ _ _ _ _ _ _ _ _ _) as [[l' st']| | |]; cbn [fst snd]; intros H; try discriminate H.
  injection H as ->. reflexivity.
Qed.
(** the call as a program *)
Lemma call_runs now (c : call L) st l : fst (step rec fuel now c st) = Ok (VArray l) ->
  exists m : mem (value L), (forall k, call_mem rec fuel now c k st = Some (m k (ensure_init rec now st))) /\
    (exists n, runs m (ensure_init rec now st) (VArray l) (snd (step rec fuel now c st)) (S n)) /\ (l <> [] -> crashes m (ensure_init rec now st)) /\
    (exists k, m k (ensure_init rec now st) = (NoMemory 0, 0, snd (step rec fuel now c st))).
Proof.
  destruct c; cbn [step call_mem fst]; try discriminate.
  - destruct (as_size z); discriminate.
  - unfold omap. destruct (GetStartSeed st); discriminate.
  - unfold omap. destruct (CreateVariogram _ _ _ _ _ _ _); discriminate.
  - unfold omap. destruct (args d) as [[[[[[nx dx] ny] dy] nz] dz]| | |]; cbn [bind]; try discriminate. match goal with |- context [bind ?x _] => destruct x; discriminate end.
  - destruct (args d) as [[[[[[nx dx] ny] dy] nz] dz]| | |]; try discriminate. intros H. eexists. split; [reflexivity|]. apply any_runs. apply do_sim_ok. exact H.
  - destruct (args d) as [[[[[[nx dx] ny] dy] nz] dz]| | |]; try discriminate. destruct (adv_args a) as [[[[[[px py] pz] sx] sy] sz]| | |]; try discriminate.
    intros H. eexists. split; [reflexivity|]. apply any_runs. apply do_sim_ok. exact H.
Qed.
Lemma ensure_eq now st : ensure_init rec now st = if is_init st then st else InitializeTime rec now st.
Proof. unfold ensure_init, GetStartSeed. destruct (is_init st); reflexivity. Qed.

Lemma c83_all now (c : call L) st : is_array (fst (step rec fuel now c st)) ->
  let before := if is_init st then st else InitializeTime rec now st in let after := snd (step rec fuel now c st) in
  exists n, 0 < n /\ forall k,
    (n <= k -> call_mem rec fuel now c k st = Some (Ended (fst (step rec fuel now c st)), k - n, after)) /\
    (k < n -> exists e st', call_mem rec fuel now c k st = Some (e, 0, st') /\
       (e = NullWrite \/ exists lost, e = NoMemory lost /\ lost <= 2) /\ (stream st' = stream before \/ stream st' = stream after)).
Proof.
  intros [l H]. cbv zeta. rewrite <- ensure_eq. destruct (call_runs now c st l H) as (m & E & (n & R1 & R2) & _ & _). exists (S n). split; [lia|].
  intros k. rewrite E, H. split; intros Hk; [rewrite R1 by exact Hk; reflexivity|]. destruct (R2 k Hk) as (e & st' & E' & S1 & S2). exists e, st'. rewrite E'. auto.
Qed.
Lemma c83_first now (c : call L) st : is_array (fst (step rec fuel now c st)) ->
  let before := if is_init st then st else InitializeTime rec now st in
  exists e, call_mem rec fuel now c 0 st = Some (e, 0, before) /\ e = NoMemory 0.
Proof.
  intros [l H]. cbv zeta. rewrite <- ensure_eq. revert H. destruct c; cbn [step call_mem fst]; try discriminate.
  - destruct (as_size z); discriminate.
  - unfold omap. destruct (GetStartSeed st); discriminate.
  - unfold omap. destruct (CreateVariogram _ _ _ _ _ _ _); discriminate.
  - unfold omap. destruct (args d) as [[[[[[nx dx] ny] dy] nz] dz]| | |]; cbn [bind]; try discriminate. match goal with |- context [bind ?x _] => destruct x; discriminate end.
  - destruct (args d) as [[[[[[nx dx] ny] dy] nz] dz]| | |]; try discriminate. intros _. eexists. split; [|reflexivity]. unfold SimulateAny_mem.
    destruct (dimension ny dy nz dz) as [|[|[|q]]]; reflexivity.
  - destruct (args d) as [[[[[[nx dx] ny] dy] nz] dz]| | |]; try discriminate. destruct (adv_args a) as [[[[[[px py] pz] sx] sy] sz]| | |]; try discriminate.
    intros _. eexists. split; [|reflexivity]. unfold SimulateAny_mem. destruct (dimension ny dy nz dz) as [|[|[|q]]]; reflexivity.
Qed.
Lemma c83_crash now (c : call L) st l : fst (step rec fuel now c st) = Ok (VArray l) -> l <> [] ->
  exists k st', call_mem rec fuel now c k st = Some (NullWrite, 0, st').
Proof. intros H NE. destruct (call_runs now c st l H) as (m & E & _ & C & _). destruct (C NE) as (k & st' & K). exists k, st'. rewrite E, K. reflexivity. Qed.
Lemma c83_late now (c : call L) st : is_array (fst (step rec fuel now c st)) ->
  exists k, call_mem rec fuel now c k st = Some (NoMemory 0, 0, snd (step rec fuel now c st)).
Proof. intros [l H]. destruct (call_runs now c st l H) as (m & E & _ & _ & k & K). exists k. rewrite E, K. reflexivity. Qed.
End C.
