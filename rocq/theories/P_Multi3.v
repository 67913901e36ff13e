(** C55-C57 in the form of Properties_Multi. *)
From Coq Require Import ZArith List Bool Lia.
From Verif Require Import Base Arith FloatArith M_Variogram M_Padding M_FftSize M_Grid M_CovGrid M_Fft M_Dsfmt M_Random M_Field M_Multi
  S_CovGrid S_Multi P_Base P_Api P_Overrun P_Multi P_Multi2 ExampleLib.
Import ListNotations.
Open Scope nat_scope.

Definition signs (fs : list (list (num ELib))) : list bool := map (fun x => flt EA x (lit EA 0 0)) (concat fs).
Definition ex_one : num ELib := lit ELib 1 0.
Definition ex_st : rstate := InitializeSeed 4 rstate0.

Definition at_once := Fields2D do_recursion 100 ex_vario 2 ex_one 2 ex_one 2 None 0 0 ex_one ex_one ex_st.
Definition twice := repeatedly 2 (Simulate2D do_recursion 100 ex_vario 2 ex_one 2 ex_one 0 0 ex_one ex_one) ex_st.

Definition signs_in {T} (o : outcome (list (list (num ELib)) * T)) : list bool := match o with Ok (fs, _) => signs fs | _ => [] end.
Lemma signs_of {T} (o : outcome (list (list (num ELib)) * T)) b l : signs_in o = b :: l ->
  exists fs s, o = Ok (fs, s) /\ signs fs = b :: l.
Proof. destruct o as [[fs s]| | |]; intros H; try discriminate H. exists fs, s. split; [reflexivity|exact H]. Qed.
Lemma signs_at_once : signs_in at_once = [false; false; false; false; true; false; true; false].
Proof. vm_compute. reflexivity. Qed.
Lemma signs_twice : signs_in twice = [false; false; false; false; true; true; true; true].
Proof. vm_compute. reflexivity. Qed.
Lemma at_once_eq : Fields2D do_recursion 100 ex_vario 2 ex_one 2 ex_one 2 None 0 0 ex_one ex_one ex_st = at_once.
Proof. unfold at_once. reflexivity. Qed.
Lemma twice_eq : repeatedly (Z.to_nat 2) (Simulate2D do_recursion 100 ex_vario 2 ex_one 2 ex_one 0 0 ex_one ex_one) ex_st = twice.
Proof. unfold twice. change (Z.to_nat 2) with 2. reflexivity. Qed.
Opaque at_once twice.

Lemma two_fields : exists (L : Lib) rec fuel (v : variogram L) nx dx ny dy n padx pady sx sy st fs gs s s',
  fft_sizes L /\ (0 < n)%Z /\ Fields2D rec fuel v nx dx ny dy n None padx pady sx sy st = Ok (fs, s) /\
  repeatedly (Z.to_nat n) (Simulate2D rec fuel v nx dx ny dy padx pady sx sy) st = Ok (gs, s') /\
  fs <> gs.
Proof.
  destruct (signs_of at_once _ _ signs_at_once) as (fs & s & E1 & A). destruct (signs_of twice _ _ signs_twice) as (gs & s' & E2 & B).
  exists ELib, do_recursion, 100, ex_vario, 2%Z, ex_one, 2%Z, ex_one, 2%Z, 0%Z, 0%Z, ex_one, ex_one, ex_st, fs, gs, s, s'.
  split; [exact ELib_sizes|]. split; [reflexivity|]. rewrite <- E1, <- E2. split; [exact at_once_eq|]. split; [exact twice_eq|].
  intros E. rewrite E, B in A. discriminate A.
Qed.

Local Opaque new_generator genrand_uint32 init_gen_rand DrawUint32.

Section P.
Context {L : Lib}.
Variable rec : recursion.
Variable fuel : nat.
Hypothesis HL : fft_sizes L.

Lemma repeatedly_ext {S X} (c c' : S -> outcome (X * S)) : (forall s, c s = c' s) -> forall n s, repeatedly n c s = repeatedly n c' s.
Proof.
  intros H. induction n as [|n IH]; intros s; cbn [repeatedly]; [reflexivity|]. rewrite H. apply bind_ext. intros [x s1] _. now rewrite IH.
Qed.

Lemma fields2' (v : variogram L) nx dx ny dy n g padx pady sx sy st : (0 < n)%Z ->
  Fields2D rec fuel v nx dx ny dy n (Some g) padx pady sx sy st =
  repeatedly (Z.to_nat n) (one_field rec fuel v nx dx ny dy padx pady sx sy) (g, st).
Proof.
  intros Hn. rewrite (fields2 rec fuel HL) by auto.
  rewrite (repeatedly_ext _ (one_field rec fuel v nx dx ny dy padx pady sx sy)) by (intros [g0 s0]; reflexivity).
  destruct (repeatedly _ _ (g, st)) as [[fs s]| | |]; reflexivity.
Qed.

Lemma new_gen st : new_generator rec st =
  (init_gen_rand (fst (DrawUint32 rec st)),
   mkRstate (is_init (snd (DrawUint32 rec st))) (start_seed (snd (DrawUint32 rec st))) (gen (snd (DrawUint32 rec st)))
     (Datatypes.S (leaked (snd (DrawUint32 rec st))))).
Proof. Local Transparent new_generator. unfold new_generator. destruct (DrawUint32 rec st). reflexivity. Qed.
Local Opaque new_generator.
Lemma draw_leaked st : leaked (snd (DrawUint32 rec st)) = leaked st.
Proof. Local Transparent DrawUint32. unfold DrawUint32. destruct (genrand_uint32 rec (gen st)). reflexivity. Qed.
Local Opaque DrawUint32.

Lemma null2 (v : variogram L) nx dx ny dy n padx pady sx sy st fs g' st' : (0 < n)%Z ->
  Fields2D rec fuel v nx dx ny dy n None padx pady sx sy st = Ok (fs, (g', st')) ->
  length fs = Z.to_nat n /\
  (exists f, nth_error fs 0 = Some f /\ Simulate2D rec fuel v nx dx ny dy padx pady sx sy st = Ok (f, st')) /\
  let seed := fst (DrawUint32 rec st) in
  gen st' = gen (snd (DrawUint32 rec st)) /\ leaked st' = Datatypes.S (leaked st) /\
  Fields2D rec fuel v nx dx ny dy n (Some (init_gen_rand seed)) padx pady sx sy st = Ok (fs, (g', st)).
Proof.
  intros Hn H. rewrite (simulate2_fields rec fuel HL). rewrite (fields2_null rec fuel) in H. rewrite (fields2_null rec fuel).
  pose proof (own2_ok rec fuel v nx dx ny dy n _ padx pady sx sy st _ _ _ _ H) as [E1 E2].
  pose proof (fields2' v nx dx ny dy n _ padx pady sx sy _ Hn : _ = repeatedly _ _ (fst (new_generator rec st), snd (new_generator rec st))) as E3.
  rewrite H in E3. symmetry in E3. pose proof (repeatedly_length _ _ _ _ _ E3) as Hl.
  split; [exact Hl|]. split.
  - destruct (Z.to_nat n) as [|m] eqn:Em; [lia|]. cbn [repeatedly] in E3.
    apply bind_Ok in E3 as ([f [g1 s1]] & Ef & E3). unfold one_field in Ef. cbn [fst snd] in Ef.
    apply bind_Ok in Ef as ([fs1 [g2 s2]] & Ef1 & Ef). pose proof (own2_ok rec fuel v nx dx ny dy 1 _ padx pady sx sy st _ _ _ _ Ef1) as [E4 _].
    apply bind_Ok in Ef as (f' & Er & Ef). rewrite Ef1. cbn [bind]. rewrite Er. cbn [bind].
    apply bind_Ok in E3 as ([fs2 s3] & _ & E3).
    assert (X : Ok (f :: fs2, s3) = Ok (fs, (g', st')) -> fs = f :: fs2) by (intros X; now inversion X). rewrite (X E3).
    assert (Y : Ok (f', (g2, s2)) = Ok (f, (g1, s1)) -> f' = f) by (intros Y; now inversion Y). rewrite (Y Ef).
    exists f. split; [reflexivity|]. rewrite E4, E1. reflexivity.
  - cbv zeta. rewrite E1, new_gen. cbn [snd gen leaked]. rewrite draw_leaked. split; [reflexivity|]. split; [reflexivity|].
    rewrite new_gen in E2. exact E2.
Qed.

Lemma short_again (v : variogram L) nx dx ny dy st st2 f st' :
  is_init st = true -> is_init st2 = true -> start_seed st2 = start_seed st ->
  ShortField2D rec fuel v nx dx ny dy st = Ok (f, st') ->
  exists st2', ShortField2D rec fuel v nx dx ny dy st2 = Ok (f, st2') /\ gen st2' = gen st2 /\ start_seed st2' = start_seed st2.
Proof.
  clear HL. intros H1 H2 Hs H. destruct (short_same rec fuel v nx dx ny dy st st2 f st' H1 H2 Hs H) as [_ E].
  exists (plus_leak st2). split; [exact E|]. split; reflexivity.
Qed.

Lemma like_python (v : variogram L) nx dx ny dy padx pady sx sy st f st' :
  let g := init_gen_rand (fst (DrawUint32 rec st)) in
  (Simulate2D rec fuel v nx dx ny dy padx pady sx sy st = Ok (f, st') ->
   exists g', Fields2D rec fuel v nx dx ny dy 1 (Some g) padx pady sx sy st = Ok ([f], (g', st))) /\
  (Simulate1D rec fuel v nx dx padx sx st = Ok (f, st') ->
   exists g', Field1D rec fuel v nx dx (Z.to_nat nx) (Some g) padx sx st = Ok (f, (g', st))).
Proof.
  cbv zeta. split; intros H.
  - rewrite (simulate2_fields rec fuel HL) in H. apply bind_Ok in H as ([fs [g' s]] & E & H).
    destruct (null2 _ _ _ _ _ _ _ _ _ _ _ _ _ _ Z.lt_0_1 E) as (Hl & _ & _ & _ & E2).
    apply bind_Ok in H as (f' & Er & H).
    assert (X : Ok (f', s) = Ok (f, st') -> f' = f) by (intros X; now inversion X). rewrite (X H) in Er.
    destruct fs as [|f1 [|f2 fs]]; try discriminate. cbv in Er. injection Er as ->. exists g'. exact E2.
  - rewrite (simulate1_field rec fuel) in H. apply bind_Ok in H as ([f' [g' s]] & E & H).
    assert (X : Ok (f', s) = Ok (f, st') -> f' = f) by (intros X; now inversion X). rewrite (X H) in E.
    unfold Field1D in E |- *. apply bind_Ok in E as (m & Em & E). rewrite Em. cbn [bind].
    apply bind_Ok in E as (m' & Em' & E). rewrite Em'. cbn [bind generator] in *. rewrite new_gen in E.
    apply bind_Ok in E as ([xs g1] & Ex & E). rewrite Ex. cbn [bind]. apply bind_Ok in E as (o & Eo & E). rewrite Eo. cbn [bind].
    assert (Y : forall s1, Ok (o, (g1, s1)) = Ok (f, (g', s)) -> o = f) by (intros s1 Y; now inversion Y). rewrite (Y _ E). eauto.
Qed.
End P.
