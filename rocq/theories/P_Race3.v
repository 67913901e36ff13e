(** Concurrent calls of any dimension. *)
From Coq Require Import ZArith Bool Lia List.
From Verif Require Import Base Arith M_Variogram M_Dsfmt M_Random M_Field M_Api M_Race M_Race3 S_Api S_Random P_Base P_Api P_RngMain P_RngMore P_Race.
Import ListNotations.
Open Scope nat_scope.
Local Opaque init_gen_rand gen_rand_all.

(** ** normal draws from two sources that agree for a while *)
Section Abs.
Context {A : Arith} {S : Type}.
Variable u : S -> num A * S.
Variable P : S -> Prop.
Hypothesis HP : forall s, P s -> P (snd (u s)).
Definition keeps {T} (o : outcome (T * S)) : Prop := match o with Ok (_, s) => P s | _ => True end.
Ltac draw H := match type of H with P ?s => let E := fresh in pose proof (HP s H) as E; destruct (u s) as [? ?]; cbn [snd] in E; clear H; rename E into H end.
Lemma wedge_keeps f : forall s, P s -> keeps (wedge u f s).
Proof. induction f; intros s H; cbn [wedge]; [exact I|]. draw H. draw H. destruct (fgt _ _); [apply IHf; exact H|exact H]. Qed.
Lemma disc_keeps f : forall s, P s -> keeps (disc u f s).
Proof. induction f; intros s H; cbn [disc]; [exact I|]. draw H. draw H. destruct (fge _ _); [apply IHf; exact H|exact H]. Qed.
Lemma tail_keeps f : forall s, P s -> keeps (tail u f s).
Proof.
  induction f as [|f IH]; intros s H; [exact I|]. cbn [tail]. pose proof (disc_keeps (Datatypes.S f) s H) as D.
  destruct (disc u (Datatypes.S f) s) as [[[[v1 v2] w] s1]| | |]; cbn [bind]; try exact I. cbn [keeps] in D.
  destruct (_ && _)%bool; [apply IH; exact D|exact D].
Qed.
Lemma Norm01_keeps f s : P s -> keeps (Norm01 u f s).
Proof.
  intros H. unfold Norm01. draw H. destruct (flt A _ _); [draw H; draw H; draw H; exact H|].
  destruct (flt A _ _); [draw H; draw H; exact H|]. destruct (flt A _ _); [apply wedge_keeps; exact H|apply tail_keeps; exact H].
Qed.
Lemma draws_keeps f n : forall s, P s -> keeps (draws u f n s).
Proof.
  induction n as [|n IH]; intros s H; cbn [draws]; [exact H|]. pose proof (Norm01_keeps f s H) as K.
  destruct (Norm01 u f s) as [[x s1]| | |]; cbn [bind]; try exact I. cbn [keeps] in K. pose proof (IH s1 K) as K2.
  destruct (draws u f n s1) as [[xs s2]| | |]; cbn [bind]; exact K2 || exact I.
Qed.
End Abs.

Section Rel.
Context {A : Arith} {S1 S2 : Type}.
Variables (u1 : S1 -> num A * S1) (u2 : S2 -> num A * S2).
Variables (R : S1 -> S2 -> Prop) (B1 : S1 -> Prop) (B2 : S2 -> Prop).
Hypothesis HR : forall s1 s2, R s1 s2 -> (fst (u1 s1) = fst (u2 s2) /\ R (snd (u1 s1)) (snd (u2 s2))) \/ (B1 (snd (u1 s1)) /\ B2 (snd (u2 s2))).
Hypothesis H1 : forall s, B1 s -> B1 (snd (u1 s)).
Hypothesis H2 : forall s, B2 s -> B2 (snd (u2 s)).
Definition match_ {T} (o1 : outcome (T * S1)) (o2 : outcome (T * S2)) : Prop :=
  match o1, o2 with
  | Ok (x1, s1), Ok (x2, s2) => x1 = x2 /\ R s1 s2
  | NoFuel, NoFuel => True
  | _, _ => False
  end \/ (keeps B1 o1 /\ keeps B2 o2).
Ltac both H := match type of H with R ?s1 ?s2 =>
  let V := fresh "V" in let Q := fresh "Q" in
  destruct (HR s1 s2 H) as [[V Q]|Q]; destruct (u1 s1) as [? ?]; destruct (u2 s2) as [? ?]; cbn [fst snd] in *;
  [subst; clear H; rename Q into H| destruct Q as [?Qa ?Qb]] end.
Ltac esc := right; repeat match goal with
  | H : B1 ?s |- context[u1 ?s] => let E := fresh in pose proof (H1 s H) as E; destruct (u1 s) as [? ?]; cbn [snd] in E; clear H; rename E into H
  | H : B2 ?s |- context[u2 ?s] => let E := fresh in pose proof (H2 s H) as E; destruct (u2 s) as [? ?]; cbn [snd] in E; clear H; rename E into H
  end; split.
Ltac draw1 := match goal with H : B1 ?s |- context[u1 ?s] => let E := fresh in pose proof (H1 s H) as E; destruct (u1 s) as [? ?]; cbn [snd] in E; clear H; rename E into Qa end.
Ltac draw2 := match goal with H : B2 ?s |- context[u2 ?s] => let E := fresh in pose proof (H2 s H) as E; destruct (u2 s) as [? ?]; cbn [snd] in E; clear H; rename E into Qb end.
Lemma wedge_rel f : forall s1 s2, R s1 s2 -> match_ (wedge u1 f s1) (wedge u2 f s2).
Proof.
  induction f; intros s1 s2 H; cbn [wedge]; [left; exact I|]. both H.
  - both H.
    + destruct (fgt _ _); [apply IHf; exact H|left; split; [reflexivity|exact H]].
    + right. split; destruct (fgt _ _); try assumption; apply wedge_keeps; assumption.
  - esc; destruct (fgt _ _); try assumption; apply wedge_keeps; assumption.
Qed.
Lemma disc_rel f : forall s1 s2, R s1 s2 -> match_ (disc u1 f s1) (disc u2 f s2).
Proof.
  induction f; intros s1 s2 H; cbn [disc]; [left; exact I|]. both H.
  - both H.
    + destruct (fge _ _); [apply IHf; exact H|left; split; [reflexivity|exact H]].
    + right. split; destruct (fge _ _); try assumption; apply disc_keeps; assumption.
  - esc; destruct (fge _ _); try assumption; apply disc_keeps; assumption.
Qed.
Lemma tail_rel f : forall s1 s2, R s1 s2 -> match_ (tail u1 f s1) (tail u2 f s2).
Proof.
  induction f as [|f IH]; intros s1 s2 H; [left; exact I|]. cbn [tail].
  destruct (disc_rel (S f) s1 s2 H) as [D|[Da Db]].
  - destruct (disc u1 (S f) s1) as [[[[v1 v2] w] t1]| | |]; destruct (disc u2 (S f) s2) as [[[[v1' v2'] w'] t2]| | |]; try contradiction; cbn [bind]; [|left; exact I].
    destruct D as [E D]. injection E as <- <- <-. destruct (_ && _)%bool; [apply IH; exact D|left; split; [reflexivity|exact D]].
  - right. split.
    + destruct (disc u1 (S f) s1) as [[[[v1 v2] w] t1]| | |]; cbn [bind]; try exact I. destruct (_ && _)%bool; [apply tail_keeps; assumption|exact Da].
    + destruct (disc u2 (S f) s2) as [[[[v1 v2] w] t1]| | |]; cbn [bind]; try exact I. destruct (_ && _)%bool; [apply tail_keeps; assumption|exact Db].
Qed.
Lemma Norm01_rel f s1 s2 : R s1 s2 -> match_ (Norm01 u1 f s1) (Norm01 u2 f s2).
Proof.
  intros H. unfold Norm01. both H.
  - destruct (flt A _ _); [|destruct (flt A _ _); [|destruct (flt A _ _); [apply wedge_rel; exact H|apply tail_rel; exact H]]].
    + both H; [both H; [both H; [left; split; [reflexivity|exact H]|right; split; assumption]|esc; assumption]|esc; assumption].
    + both H; [both H; [left; split; [reflexivity|exact H]|right; split; assumption]|esc; assumption].
  - right. split; (destruct (flt A _ _); [|destruct (flt A _ _); [|destruct (flt A _ _); [apply wedge_keeps; assumption|apply tail_keeps; assumption]]]).
    + draw1. draw1. draw1. exact Qa.
    + draw1. draw1. exact Qa.
    + draw2. draw2. draw2. exact Qb.
    + draw2. draw2. exact Qb.
Qed.
Lemma draws_rel f n : forall s1 s2, R s1 s2 -> match_ (draws u1 f n s1) (draws u2 f n s2).
Proof.
  induction n as [|n IH]; intros s1 s2 H; cbn [draws]; [left; split; [reflexivity|exact H]|].
  destruct (Norm01_rel f s1 s2 H) as [D|[Da Db]].
  - destruct (Norm01 u1 f s1) as [[x t1]| | |]; destruct (Norm01 u2 f s2) as [[x' t2]| | |]; try contradiction; cbn [bind]; [|left; exact I].
    destruct D as [<- D]. destruct (IH t1 t2 D) as [K|[Ka Kb]].
    + destruct (draws u1 f n t1) as [[xs t3]| | |]; destruct (draws u2 f n t2) as [[xs' t4]| | |]; try contradiction; cbn [bind]; [|left; exact I].
      destruct K as [<- K]. left. split; [reflexivity|exact K].
    + right. split; [destruct (draws u1 f n t1) as [[xs t3]| | |]|destruct (draws u2 f n t2) as [[xs t3]| | |]]; cbn [bind]; try exact I; assumption.
  - right. split.
    + destruct (Norm01 u1 f s1) as [[x t1]| | |]; cbn [bind]; try exact I. pose proof (draws_keeps u1 B1 H1 f n t1 Da) as K.
      destruct (draws u1 f n t1) as [[xs t3]| | |]; cbn [bind]; try exact I; exact K.
    + destruct (Norm01 u2 f s2) as [[x t1]| | |]; cbn [bind]; try exact I. pose proof (draws_keeps u2 B2 H2 f n t1 Db) as K.
      destruct (draws u2 f n t1) as [[xs t3]| | |]; cbn [bind]; try exact I; exact K.
Qed.
End Rel.

(** ** the words of the shared generator *)
Section W.
Context {L : Lib}.
Variable rec : recursion.
Variable fuel : nat.
Fixpoint words (k : nat) (g : dsfmt) : list Z := match k with O => [] | S k => fst (next_word rec g) :: words k (snd (next_word rec g)) end.
Fixpoint later (k : nat) (g : dsfmt) : dsfmt := match k with O => g | S k => later k (snd (next_word rec g)) end.
Lemma later_S k : forall g, later (S k) g = snd (next_word rec (later k g)).
Proof. induction k; intros g; [reflexivity|]. change (later (S (S k)) g) with (later (S k) (snd (next_word rec g))). rewrite IHk. reflexivity. Qed.
Lemma words_S k : forall g, words (S k) g = words k g ++ [fst (next_word rec (later k g))].
Proof.
  induction k; intros g; [reflexivity|]. change (words (S (S k)) g) with (fst (next_word rec g) :: words (S k) (snd (next_word rec g))). rewrite IHk. reflexivity.
Qed.
Lemma unif_word g : Unif01 (A := L) rec g = ((ofbits L (fst (next_word rec g)) - lit L 1 0)%num, snd (next_word rec g)).
Proof. unfold Unif01. destruct (next_word rec g). reflexivity. Qed.

(** the generator, counting *)
Definition counted (s : dsfmt * nat) : num L * (dsfmt * nat) := (fst (Unif01 (A := L) rec (fst s)), (snd (Unif01 (A := L) rec (fst s)), S (snd s))).
Lemma counted_draws n d xs d' : draws (Unif01 (A := L) rec) fuel n d = Ok (xs, d') -> exists m, draws counted fuel n (d, 0) = Ok (xs, (d', m)).
Proof.
  intros E. pose proof (draws_rel (Unif01 (A := L) rec) counted (fun d s => fst s = d) (fun _ => False) (fun _ => False)) as K.
  specialize (K ltac:(intros s1 [s2 j] <-; left; split; reflexivity) ltac:(auto) ltac:(auto) fuel n d (d, 0) eq_refl). rewrite E in K.
  destruct K as [K|[K _]]; [|destruct K].
  destruct (draws counted fuel n (d, 0)) as [[xs' [d2 m]]| | |]; try contradiction. destruct K as [<- K]. cbn [fst] in K. subst. eauto.
Qed.
Definition related (K : nat) (s1 : dsfmt * nat) (s2 : list Z * bool) : Prop := snd s1 <= K /\ s2 = (words (K - snd s1) (fst s1), false).
Lemma related_step K s1 s2 : related K s1 s2 ->
  (fst (counted s1) = fst (from_words (L := L) s2) /\ related K (snd (counted s1)) (snd (from_words (L := L) s2))) \/
  (K < snd (snd (counted s1)) /\ snd (snd (from_words (L := L) s2)) = true).
Proof.
  destruct s1 as [d j]. intros [H E]. cbn [fst snd] in *. subst s2. unfold counted. cbn [fst snd]. rewrite unif_word. cbn [fst snd].
  destruct (K - j) as [|m] eqn:D; cbn [words from_words fst snd].
  - right. split; [lia|reflexivity].
  - left. split; [reflexivity|]. split; cbn [fst snd]; [lia|]. replace (K - S j) with m by lia. reflexivity.
Qed.
Lemma normals_words n d xs d' : draws (Unif01 (A := L) rec) fuel n d = Ok (xs, d') ->
  exists m, (forall k, m <= k -> normals (L := L) fuel n (words k d) = Some xs) /\ (forall k, k < m -> normals (L := L) fuel n (words k d) = None).
Proof.
  intros E. destruct (counted_draws n d xs d' E) as [m C]. exists m.
  assert (Q : forall k, match_ (related k) (fun s => k < snd s) (fun s => snd s = true) (draws counted fuel n (d, 0)) (draws (from_words (L := L)) fuel n (words k d, false))).
  { intros k. apply draws_rel.
    - intros s1 s2. apply related_step.
    - intros [s j] H. cbn [snd counted] in *. lia.
    - intros [[|w ws] b] H; cbn [snd from_words] in *; [reflexivity|exact H].
    - split; cbn [fst snd]; [lia|]. rewrite Nat.sub_0_r. reflexivity. }
  split; intros k Hk; specialize (Q k); rewrite C in Q; unfold normals; destruct Q as [Q|[Qa Qb]].
  - destruct (draws _ fuel n (words k d, false)) as [[xs' [ws b]]| | |]; try contradiction. destruct Q as [<- [_ Q]]. injection Q as _ ->. reflexivity.
  - cbn [keeps snd] in Qa. lia.
  - destruct (draws _ fuel n (words k d, false)) as [[xs' [ws b]]| | |]; try contradiction. destruct Q as [_ [Q _]]. cbn [snd] in Q. lia.
  - destruct (draws _ fuel n (words k d, false)) as [[xs' [ws b]]| | |]; try reflexivity. cbn [keeps snd] in Qb. subst b. reflexivity.
Qed.

Lemma answer_do now (v : variogram L) nx dx ny dy nz dz px py pz sx sy sz st l : is_init st = true ->
  fst (do_simulate rec fuel now v nx dx ny dy nz dz px py pz sx sy sz st) = Ok (VArray l) ->
  exists m, (forall k, m <= k -> answer_any rec fuel v nx dx ny dy nz dz px py pz sx sy sz (words k (gen st)) = Some (Ok (VArray l))) /\
            (forall k, k < m -> answer_any rec fuel v nx dx ny dy nz dz px py pz sx sy sz (words k (gen st)) = None).
Proof.
  intros Hi E. destruct (Nat.eq_dec (dimension (L := L) ny dy nz dz) 3) as [D|D].
  - unfold answer_any. rewrite D. revert E. unfold do_simulate. rewrite (ensure_init_init rec now st Hi). cbv zeta. unfold SimulateAny. rewrite D. cbv iota.
    unfold Simulate3D, grid3. destruct (sizes3 v nx dx ny dy nz dz px py pz) as [[[a b] c]| | |]; cbn [bind fst]; try discriminate.
    destruct (narrow a) as [na| | |]; cbn [bind fst]; try discriminate. destruct (narrow b) as [nb| | |]; cbn [bind fst]; try discriminate.
    destruct (narrow c) as [nc| | |]; cbn [bind fst]; try discriminate.
    destruct (draws _ fuel (na * nb * nc) (gen st)) as [[xs d]| | |] eqn:ED; cbn [bind fst]; try discriminate.
    destruct (normals_words _ _ _ _ ED) as (m & M1 & M2). intros E. exists m. split; intros k Hk; [rewrite M1 by exact Hk|rewrite M2 by exact Hk; reflexivity].
    destruct (noise_grid3 na nb nc xs) as [no| | |]; cbn [bind fst] in *; try discriminate E.
    destruct (field3d _ _ _ _ _ _ _ _ _ _ _ _ _ _) as [out| | |]; cbn [bind fst] in *; try discriminate E. injection E as <-. reflexivity.
  - rewrite do_low in E by assumption. exists 1. unfold answer_any.
    assert (X : dimension (L := L) ny dy nz dz = 1 \/ dimension (L := L) ny dy nz dz = 2) by (destruct (dimension_cases (L := L) ny dy nz dz) as [X|[X|X]]; auto; contradiction).
    split; intros k Hk.
    + destruct k as [|k]; [lia|]. cbn [words]. 
      replace (Z.land (fst (next_word rec (gen st))) 4294967295) with (fst (genrand_uint32 rec (gen st))) by (unfold genrand_uint32; destruct (next_word rec (gen st)); reflexivity).
      destruct X as [X|X]; rewrite X; f_equal; exact E.
    + destruct k as [|k]; [|lia]. cbn [words]. destruct X as [X|X]; rewrite X; reflexivity.
Qed.
Lemma answer_words now (c : call L) st l : is_init st = true -> fst (step rec fuel now c st) = Ok (VArray l) ->
  exists m, (forall k, m <= k -> answer rec fuel c (words k (gen st)) = Some (Ok (VArray l))) /\ (forall k, k < m -> answer rec fuel c (words k (gen st)) = None).
Proof.
  intros Hi. destruct c; cbn [step answer fst]; try discriminate.
  - destruct (as_size z); discriminate.
  - unfold omap. destruct (GetStartSeed st); discriminate.
  - unfold omap. destruct (CreateVariogram _ _ _ _ _ _ _); discriminate.
  - unfold omap. destruct (args d) as [[[[[[nx dx] ny] dy] nz] dz]| | |]; cbn [bind]; try discriminate. match goal with |- context [bind ?x _] => destruct x; discriminate end.
  - destruct (args d) as [[[[[[nx dx] ny] dy] nz] dz]| | |]; try discriminate. apply answer_do; exact Hi.
  - destruct (args d) as [[[[[[nx dx] ny] dy] nz] dz]| | |]; try discriminate. destruct (adv_args a) as [[[[[[px py] pz] sx] sy] sz]| | |]; try discriminate.
    apply answer_do; exact Hi.
Qed.

(** ** threads in step *)
Notation thread := (call L * list Z * pc3)%type.
Definition waits (t : thread) : bool := match t with (c, ws, _) => match answer rec fuel c ws with None => true | Some _ => false end end.
Definition advance (p : pc3) (got : option Z) (t : thread) : thread :=
  if waits t then match t with (c, ws, _) => (c, match got with Some w => ws ++ [w] | None => ws end, p) end else t.
Lemma upd_mid {T} (a : list T) x y b : upd (a ++ x :: b) (length a) y = a ++ y :: b.
Proof. induction a; cbn [upd app length]; [reflexivity|]. f_equal. exact IHa. Qed.
Lemma pass p g p' g' got : micro3 rec p g = Ok (p', g', got) -> micro3 rec p g' = Ok (p', g', got) ->
  forall todo done g0 sched, (forall c ws p0, In (c, ws, p0) todo -> waits (c, ws, p0) = true -> p0 = p) -> g0 = g \/ g0 = g' ->
  race3 rec fuel (seq (length done) (length todo) ++ sched) (done ++ todo) g0 =
  race3 rec fuel sched (done ++ map (advance p' got) todo) (if existsb waits todo then g' else g0).
Proof.
  intros M1 M2. induction todo as [|[[c ws] p0] todo IH]; intros done g0 sched HT Hg.
  - cbn [length seq map existsb app]. reflexivity.
  - cbn [length seq map existsb app]. cbn [race3]. rewrite nth_error_app2, Nat.sub_diag by lia. cbn [nth_error].
    change (advance p' got (c, ws, p0)) with (if waits (c, ws, p0) then (c, match got with Some w => ws ++ [w] | None => ws end, p') else (c, ws, p0)).
    assert (W : waits (c, ws, p0) = match answer rec fuel c ws with None => true | Some _ => false end) by reflexivity.
    assert (Q : forall (d : list thread) x, d ++ x :: todo = (d ++ [x]) ++ todo) by (intros; rewrite <- app_assoc; reflexivity).
    assert (LL : forall (d : list thread) x, S (length d) = length (d ++ [x])) by (intros; rewrite app_length; cbn; lia).
    assert (HT' : forall c ws p0, In (c, ws, p0) todo -> waits (c, ws, p0) = true -> p0 = p) by (intros; eapply HT; [right; eassumption|assumption]).
    destruct (answer rec fuel c ws) as [o|] eqn:EA.
    + rewrite W. cbn [orb]. rewrite Q, (LL done (c, ws, p0)). rewrite IH by assumption. rewrite <- app_assoc. reflexivity.
    + rewrite W. cbn [orb]. assert (p0 = p) as -> by (eapply HT; [left; reflexivity|exact W]).
      assert (M : micro3 rec p g0 = Ok (p', g', got)) by (destruct Hg as [->| ->]; assumption). rewrite M. cbn [bind]. rewrite upd_mid.
      rewrite Q, (LL done (c, match got with Some w => ws ++ [w] | None => ws end, p')). rewrite IH by auto. rewrite <- app_assoc.
      cbn [app]. destruct (existsb waits todo); reflexivity.
Qed.

Variable g : dsfmt.
Hypothesis Hg : sized g.
Lemma next_eq h : next_word rec h = (word64 (status (ready rec h)) (idx (ready rec h)), {| status := status (ready rec h); idx := S (idx (ready rec h)) |}).
Proof. reflexivity. Qed.
Lemma later_sized k : sized (later k g).
Proof. induction k; [exact Hg|]. rewrite later_S, next_eq. cbn [snd]. unfold sized. cbn [status]. exact (proj1 (ready_sized rec _ IHk)). Qed.

(** the threads after [r] rounds: [m] words are enough for the call of a thread *)
Definition place (p : pc3) (r : nat) (cm : call L * nat) : thread := let '(c, m) := cm in (c, words (min r m) g, if r <? m then p else At3Test).
Definition enough (cm : call L * nat) : Prop := let '(c, m) := cm in
  (exists o, answer rec fuel c (words m g) = Some o) /\ (forall k, k < m -> answer rec fuel c (words k g) = None).
Lemma place_waits p r c m : enough (c, m) -> waits (place p r (c, m)) = (r <? m).
Proof.
  intros [[o E] N]. cbn [place waits]. destruct (Nat.ltb_spec r m).
  - rewrite Nat.min_l by lia. rewrite N by assumption. reflexivity.
  - rewrite Nat.min_r by lia. rewrite E. reflexivity.
Qed.
Lemma pass_place p p' r r' cms ga gb got sched : Forall enough cms -> (exists c m, In (c, m) cms /\ r < m) ->
  micro3 rec p ga = Ok (p', gb, got) -> micro3 rec p gb = Ok (p', gb, got) ->
  (forall c m, In (c, m) cms -> advance p' got (place p r (c, m)) = place p' r' (c, m)) ->
  race3 rec fuel (seq 0 (length cms) ++ sched) (map (place p r) cms) ga = race3 rec fuel sched (map (place p' r') cms) gb.
Proof.
  intros F (c0 & m0 & I0 & L0) M1 M2 A. rewrite Forall_forall in F.
  pose proof (pass p ga p' gb got M1 M2 (map (place p r) cms) [] ga sched) as P. cbn [app length] in P. rewrite map_length in P. rewrite P.
  - rewrite map_map. assert (X : existsb waits (map (place p r) cms) = true).
    { apply existsb_exists. exists (place p r (c0, m0)). split; [apply in_map; exact I0|]. rewrite place_waits by (apply F; exact I0). apply Nat.ltb_lt. exact L0. }
    rewrite X. f_equal. apply map_ext_in. intros [c m] I. apply A. exact I.
  - intros c ws q I W. apply in_map_iff in I. destruct I as ([c1 m1] & E & I). rewrite <- E in W. rewrite place_waits in W by (apply F; exact I).
    cbn [place] in E. rewrite W in E. injection E as _ _ E. auto.
  - auto.
Qed.
Lemma adv_none p p' r c m : enough (c, m) -> advance p' None (place p r (c, m)) = place p' r (c, m).
Proof.
  intros E. unfold advance. rewrite place_waits by exact E. cbn [place]. destruct (r <? m); reflexivity.
Qed.
Lemma adv_word p r c m : enough (c, m) -> advance At3Test (Some (fst (next_word rec (later r g)))) (place p r (c, m)) = place At3Test (S r) (c, m).
Proof.
  intros E. unfold advance. rewrite place_waits by exact E. cbn [place]. destruct (Nat.ltb_spec r m).
  - rewrite Nat.min_l by lia. rewrite <- words_S. rewrite Nat.min_l by lia. destruct (S r <? m); reflexivity.
  - rewrite !Nat.min_r by lia. destruct (Nat.ltb_spec (S r) m); [lia|reflexivity].
Qed.
Definition round (n : nat) : list nat := seq 0 n ++ seq 0 n ++ seq 0 n ++ seq 0 n.
Lemma one_round r cms sched : Forall enough cms -> (exists c m, In (c, m) cms /\ r < m) ->
  race3 rec fuel (round (length cms) ++ sched) (map (place At3Test r) cms) (later r g) = race3 rec fuel sched (map (place At3Test (S r)) cms) (later (S r) g).
Proof.
  intros F X. pose proof (later_sized r) as Z. destruct (ready_sized rec _ Z) as [R1 R2]. unfold round. rewrite <- !app_assoc.
  assert (FF : forall c m, In (c, m) cms -> enough (c, m)) by (rewrite Forall_forall in F; intros; apply F; assumption).
  rewrite (pass_place At3Test At3Idx r r cms _ (ready rec (later r g)) None); auto using adv_none.
  2:{ cbn [micro3]. fold (ready rec (ready rec (later r g))). rewrite ready_ready by exact Z. reflexivity. }
  rewrite (pass_place At3Idx (At3Word (idx (ready rec (later r g)))) r r cms _ (ready rec (later r g)) None); auto using adv_none.
  assert (MW : micro3 rec (At3Word (idx (ready rec (later r g)))) (ready rec (later r g)) =
    Ok (At3Store (idx (ready rec (later r g))) (fst (next_word rec (later r g))), ready rec (later r g), None)).
  { cbn [micro3]. rewrite R1. destruct (Nat.ltb_spec (idx (ready rec (later r g))) (2 * S DSFMT_N)); [reflexivity|unfold DSFMT_N64, DSFMT_N in *; lia]. }
  rewrite (pass_place _ (At3Store (idx (ready rec (later r g))) (fst (next_word rec (later r g)))) r r cms _ (ready rec (later r g)) None); auto using adv_none.
  rewrite (pass_place _ At3Test r (S r) cms _ (later (S r) g) (Some (fst (next_word rec (later r g))))); auto using adv_word.
  - rewrite later_S, next_eq. reflexivity.
  - rewrite later_S, next_eq. reflexivity.
Qed.
Lemma rounds cms : Forall enough cms -> forall n r, (forall r', r' < r + n -> exists c m, In (c, m) cms /\ r' < m) ->
  race3 rec fuel (concat (repeat (round (length cms)) n)) (map (place At3Test r) cms) (later r g) = Ok (map (place At3Test (r + n)) cms, later (r + n) g).
Proof.
  intros F. induction n as [|n IH]; intros r X; cbn [repeat concat].
  - rewrite Nat.add_0_r. reflexivity.
  - rewrite one_round by (try exact F; apply X; lia). rewrite IH by (intros; apply X; lia). rewrite Nat.add_succ_r. reflexivity.
Qed.
End W.

Section C.
Context {L : Lib}.
Variable rec : recursion.
Variable fuel : nat.
Lemma choose_m now st (cs : list (call L)) : is_init st = true -> Forall (fun c => is_array (fst (step rec fuel now c st))) cs ->
  exists cms, map fst cms = cs /\ Forall (enough rec fuel (gen st)) cms /\
    forall c m, In (c, m) cms -> forall k, m <= k -> answer rec fuel c (words rec k (gen st)) = Some (fst (step rec fuel now c st)).
Proof.
  intros Hi F. induction F as [|c cs [l E] F (cms & E1 & E2 & E3)].
  - exists []. repeat split; [constructor|]. intros c m [].
  - destruct (answer_words rec fuel now c st l Hi E) as (m & M1 & M2). exists ((c, m) :: cms). cbn [map fst]. rewrite E1. split; [reflexivity|]. split.
    + constructor; [|exact E2]. split; [eexists; apply M1; lia|exact M2].
    + intros c' m' [I|I] k Hk; [injection I as <- <-; rewrite E; apply M1; exact Hk|eapply E3; eassumption].
Qed.
Lemma c11_race3 (h : list (Z * call L)) now (cs : list (call L)) : is_build rec -> let st := after rec fuel h in
  is_init st = true -> Forall (fun c => is_array (fst (step rec fuel now c st))) cs ->
  exists sched, concurrent3 rec fuel sched cs (gen st) = Ok (map (fun c => fst (step rec fuel now c st)) cs).
Proof.
  intros B st Hi F. assert (Z : sized (gen st)) by (apply module_sized; assumption).
  destruct (choose_m now st cs Hi F) as (cms & E1 & E2 & E3).
  set (n := list_max (map snd cms)). exists (concat (repeat (round (length cms)) n)). unfold concurrent3.
  assert (P0 : map (fun c : call L => (c, [], At3Test)) cs = map (place rec (gen st) At3Test 0) cms).
  { rewrite <- E1, map_map. apply map_ext. intros [c m]. cbn [fst place Nat.min words]. destruct (0 <? m); reflexivity. }
  rewrite P0. change (gen st) with (later rec 0 (gen st)) at 2.
  rewrite (rounds rec fuel (gen st) Z cms E2 n 0).
  - cbn [bind Nat.add]. f_equal. rewrite <- E1, !map_map. apply map_ext_in. intros [c m] I. cbn [place fst].
    assert (m <= n). { assert (Q : list_max (map snd cms) <= n) by (unfold n; lia). apply list_max_le in Q. rewrite Forall_forall in Q. apply Q. apply in_map_iff. exists (c, m). auto. }
    rewrite Nat.min_r by lia. rewrite (E3 c m I m) by lia. reflexivity.
  - intros r' Hr. destruct (existsb (fun cm => r' <? snd cm) cms) eqn:X.
    + apply existsb_exists in X. destruct X as ([c m] & I & X). apply Nat.ltb_lt in X. eauto.
    + exfalso. assert (Q : list_max (map snd cms) <= r').
      { apply list_max_le. rewrite Forall_forall. intros m I. apply in_map_iff in I. destruct I as ([c m'] & <- & I). cbn [snd].
        destruct (Nat.le_gt_cases m' r'); [assumption|]. assert (existsb (fun cm => r' <? snd cm) cms = true) by (apply existsb_exists; exists (c, m'); split; [exact I|apply Nat.ltb_lt; assumption]). congruence. }
      fold n in Q. cbn [Nat.add] in Hr. lia.
Qed.
End C.
