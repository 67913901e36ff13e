(** The generator as a sliding window over one endless sequence of 128-bit words. *)
From Coq Require Import ZArith List Bool Lia.
From Verif Require Import Base P_Base M_Dsfmt.
Import ListNotations.
Open Scope nat_scope.

Section Rec.
Variable rec : recursion.

Definition slide (s : list w128 * w128) : list w128 * w128 :=
  let r := rec (nth 0 (fst s) w128_0) (nth DSFMT_POS1 (fst s) w128_0) (snd s) in
  (tl (fst s) ++ [fst r], snd r).
Definition slides (n : nat) (s : list w128 * w128) : list w128 * w128 := Nat.iter n slide s.
(** the n-th word of the sequence and the lung before the n-th step *)
Definition X (s : list w128 * w128) (n : nat) : w128 := nth 0 (fst (slides n s)) w128_0.
Definition Lg (s : list w128 * w128) (n : nat) : w128 := snd (slides n s).

Lemma slides_S n s : slides (S n) s = slide (slides n s).
Proof. reflexivity. Qed.

Lemma slide_length s : length (fst s) = DSFMT_N -> length (fst (slide s)) = DSFMT_N.
Proof.
  intros H. unfold slide; cbn [fst]. rewrite app_length. destruct (fst s); cbn [length tl] in *; [discriminate|].
  lia.
Qed.
Lemma slides_length n s : length (fst s) = DSFMT_N -> length (fst (slides n s)) = DSFMT_N.
Proof. intros H; induction n; auto. rewrite slides_S. apply slide_length; auto. Qed.

Lemma nth_tl {A} (l : list A) j d : nth j (tl l) d = nth (S j) l d.
Proof. destruct l; destruct j; reflexivity. Qed.

Lemma slide_nth s j : length (fst s) = DSFMT_N -> S j < DSFMT_N ->
  nth j (fst (slide s)) w128_0 = nth (S j) (fst s) w128_0.
Proof.
  intros H Hj. unfold slide; cbn [fst]. rewrite app_nth1; [apply nth_tl|].
  destruct (fst s); cbn [length tl] in *; lia.
Qed.

Lemma slides_nth s n j : length (fst s) = DSFMT_N -> j < DSFMT_N ->
  nth j (fst (slides n s)) w128_0 = X s (n + j).
Proof.
  intros H. revert n. induction j; intros n Hj.
  - rewrite Nat.add_0_r. reflexivity.
  - rewrite <- slide_nth by (auto using slides_length).
    rewrite <- slides_S, IHj by lia. f_equal. lia.
Qed.

Lemma slides_list s n : length (fst s) = DSFMT_N -> fst (slides n s) = map (X s) (seq n DSFMT_N).
Proof.
  intros H. apply nth_ext with w128_0 w128_0.
  - rewrite map_length, seq_length. apply slides_length; auto.
  - intros j Hj. rewrite slides_length in Hj by auto. rewrite slides_nth by auto.
    rewrite (nth_indep _ _ (X s 0)) by (rewrite map_length, seq_length; auto).
    rewrite map_nth, seq_nth; auto.
Qed.

Lemma X_step s n : length (fst s) = DSFMT_N ->
  (X s (n + DSFMT_N), Lg s (S n)) = rec (X s n) (X s (n + DSFMT_POS1)) (Lg s n).
Proof.
  intros H.
  replace (n + DSFMT_N) with (S n + (DSFMT_N - 1)) by (unfold DSFMT_N; lia).
  rewrite <- slides_nth by (auto; unfold DSFMT_N; lia).
  unfold Lg. rewrite slides_S. unfold slide at 1 2. cbn [fst snd].
  pose proof (slides_length n s H) as Hl.
  rewrite app_nth2 by (destruct (fst (slides n s)); cbn [length tl] in *; unfold DSFMT_N in *; lia).
  replace (DSFMT_N - 1 - length (tl (fst (slides n s)))) with 0
    by (destruct (fst (slides n s)); cbn [length tl] in *; unfold DSFMT_N in *; lia).
  cbn [nth]. rewrite (slides_nth s n DSFMT_POS1) by (auto; unfold DSFMT_POS1, DSFMT_N; lia).
  unfold X at 3. rewrite <- surjective_pairing. reflexivity.
Qed.

(** ** The status array at position n of the sequence *)
Variable s0 : list w128 * w128.
Hypothesis Hs0 : length (fst s0) = DSFMT_N.

Definition shows (n : nat) (st : list w128) : Prop :=
  length st = S DSFMT_N /\ (forall j, j < DSFMT_N -> nth j st w128_0 = X s0 (n + j)) /\
  nth DSFMT_N st w128_0 = Lg s0 n.

Definition mid (n i : nat) (p : list w128 * w128) : Prop :=
  length (fst p) = S DSFMT_N /\ snd p = Lg s0 (n + i) /\
  forall j, j < DSFMT_N -> nth j (fst p) w128_0 = X s0 (n + if j <? i then j + DSFMT_N else j).

Lemma mid_step n i pos p : mid n i p -> i < DSFMT_N -> pos i < DSFMT_N ->
  (if pos i <? i then pos i + DSFMT_N else pos i) = i + DSFMT_POS1 ->
  mid n (S i) (rec_step rec pos p i).
Proof.
  intros (Hl & HL & HX) Hi Hp E. destruct p as [st lung]; cbn [fst snd] in *. unfold rec_step.
  rewrite (HX _ Hi), (HX _ Hp), E, HL. replace (i <? i) with false by (symmetry; apply Nat.ltb_irrefl).
  rewrite Nat.add_assoc, <- X_step by auto.
  repeat split; cbn [fst snd].
  - rewrite upd_length; auto.
  - f_equal. lia.
  - intros j Hj. destruct (Nat.eq_dec j i) as [->|Hne].
    + rewrite nth_upd_eq by lia. replace (i <? S i) with true by (symmetry; apply Nat.ltb_lt; lia).
      f_equal. lia.
    + rewrite nth_upd_ne by auto. rewrite HX by auto. f_equal. f_equal.
      destruct (Nat.ltb_spec j i), (Nat.ltb_spec j (S i)); auto; lia.
Qed.

Lemma mid_fold n pos k i p : mid n i p ->
  (forall i', i <= i' < i + k -> i' < DSFMT_N /\ pos i' < DSFMT_N /\
     (if pos i' <? i' then pos i' + DSFMT_N else pos i') = i' + DSFMT_POS1) ->
  mid n (i + k) (fold_left (rec_step rec pos) (seq i k) p).
Proof.
  revert i p; induction k; intros i p Hm H; cbn [seq fold_left].
  - rewrite Nat.add_0_r; auto.
  - replace (i + S k) with (S i + k) by lia. apply IHk.
    + destruct (H i) as (? & ? & ?); [lia|]. apply mid_step; auto.
    + intros i' Hi'. apply H. lia.
Qed.

Lemma shows_refill n st : shows n st -> shows (n + DSFMT_N) (gen_rand_all rec st).
Proof.
  intros (Hl & HX & HL). unfold gen_rand_all, range.
  assert (M0 : mid n 0 (st, nth DSFMT_N st w128_0)).
  { repeat split; cbn [fst snd]; auto. rewrite Nat.add_0_r; auto. }
  assert (M1 : mid n 1 (rec_step rec (fun _ => DSFMT_POS1) (st, nth DSFMT_N st w128_0) 0)).
  { apply mid_step; auto; unfold DSFMT_N, DSFMT_POS1; try lia. }
  apply mid_fold with (pos := fun i => i + DSFMT_POS1) (k := DSFMT_N - DSFMT_POS1 - 1) in M1.
  2:{ intros i Hi. unfold DSFMT_N, DSFMT_POS1 in *. destruct (Nat.ltb_spec (i + 117) i); lia. }
  replace (1 + (DSFMT_N - DSFMT_POS1 - 1)) with (DSFMT_N - DSFMT_POS1) in M1 by reflexivity.
  apply mid_fold with (pos := fun i => i + DSFMT_POS1 - DSFMT_N)
    (k := DSFMT_N - (DSFMT_N - DSFMT_POS1)) in M1.
  2:{ intros i Hi. unfold DSFMT_N, DSFMT_POS1 in *. destruct (Nat.ltb_spec (i + 117 - 191) i); lia. }
  replace (DSFMT_N - DSFMT_POS1 + (DSFMT_N - (DSFMT_N - DSFMT_POS1))) with DSFMT_N in M1 by reflexivity.
  match goal with M : mid n DSFMT_N ?p |- _ => destruct p as [st' lung] end.
  destruct M1 as (Hl' & HL' & HX'); cbn [fst snd] in *. subst lung.
  repeat split.
  - rewrite upd_length; auto.
  - intros j Hj. rewrite nth_upd_ne by lia. rewrite HX' by auto.
    replace (j <? DSFMT_N) with true by (symmetry; apply Nat.ltb_lt; auto). f_equal. lia.
  - rewrite nth_upd_eq by lia. reflexivity.
Qed.

(** ** The stream of 64-bit words *)
Definition lane (k : nat) (w : w128) : Z := if Nat.even k then fst w else snd w.
Definition Wd (k : nat) : Z := lane k (X s0 (DSFMT_N + k / 2)).

Definition pos_ok (k : nat) (g : dsfmt) : Prop :=
  exists n, shows n (status g) /\ idx g <= DSFMT_N64 /\ k + DSFMT_N64 = 2 * n + idx g.

Lemma half_add n k : (2 * n + k) / 2 = n + k / 2.
Proof. rewrite Nat.mul_comm, Nat.div_add_l; auto. Qed.
Lemma even_add n k : Nat.even (2 * n + k) = Nat.even k.
Proof. rewrite Nat.even_add, Nat.even_mul. cbn. destruct (Nat.even k); reflexivity. Qed.

Lemma next_word_pos k g : pos_ok k g ->
  fst (next_word rec g) = Wd k /\ pos_ok (S k) (snd (next_word rec g)).
Proof.
  intros (n & Hs & Hi & E).
  assert (G : exists g' n', g' = (if DSFMT_N64 <=? idx g then {| status := gen_rand_all rec (status g); idx := 0 |} else g)
      /\ shows n' (status g') /\ idx g' < DSFMT_N64 /\ k + DSFMT_N64 = 2 * n' + idx g').
  { destruct (Nat.leb_spec DSFMT_N64 (idx g)).
    - eexists _, (n + DSFMT_N). split; [reflexivity|]. cbn [status idx]. split; [apply shows_refill; auto|].
      unfold DSFMT_N64, DSFMT_N in *. lia.
    - exists g, n. auto. }
  destruct G as (g' & n' & Eg & Hs' & Hi' & E'). unfold next_word. rewrite <- Eg. clear Eg Hs Hi E n g.
  cbn [fst snd]. split.
  - unfold word64, Wd, lane. destruct Hs' as (_ & HX & _).
    assert (Hd : idx g' / 2 < DSFMT_N).
    { apply Nat.div_lt_upper_bound; [lia|]. unfold DSFMT_N64, DSFMT_N in *. lia. }
    rewrite HX by auto.
    assert (E1 : 2 * DSFMT_N + k = 2 * n' + idx g') by (unfold DSFMT_N64, DSFMT_N in *; lia).
    rewrite <- (half_add DSFMT_N), E1, half_add.
    rewrite <- (even_add DSFMT_N k), E1, even_add. reflexivity.
  - exists n'. cbn [status idx]. repeat split; try apply Hs'; lia.
Qed.
End Rec.

(** the window and lung of a status array *)
Definition split_status (st : list w128) : list w128 * w128 := (firstn DSFMT_N st, nth DSFMT_N st w128_0).
Lemma shows_start rec st : length st = S DSFMT_N -> shows rec (split_status st) 0 st.
Proof.
  intros H. repeat split; auto.
  intros j Hj.
  rewrite <- (slides_nth rec (split_status st) 0 j); auto.
  - unfold slides, split_status; cbn [Nat.iter nat_rect fst].
    rewrite <- (firstn_skipn DSFMT_N st) at 1. rewrite app_nth1; auto.
    rewrite firstn_length. lia.
  - unfold split_status; cbn [fst]. rewrite firstn_length. lia.
Qed.
Lemma split_length st : length st = S DSFMT_N -> length (fst (split_status st)) = DSFMT_N.
Proof. intros H. cbn [split_status fst]. rewrite firstn_length. lia. Qed.

Lemma pos_start rec st : length st = S DSFMT_N ->
  pos_ok rec (split_status st) 0 {| status := st; idx := DSFMT_N64 |}.
Proof. intros H. exists 0. cbn [status idx]. split; [apply shows_start; auto|lia]. Qed.

(** ** Two recursions that agree on good words give the same sequence *)
Section Two.
Variables (r1 r2 : recursion) (P Q : w128 -> Prop).
Hypothesis agree : forall a b L, P a -> P b -> Q L -> r1 a b L = r2 a b L.
Hypothesis keep : forall a b L, P a -> P b -> Q L -> P (fst (r1 a b L)) /\ Q (snd (r1 a b L)).

Definition good (s : list w128 * w128) : Prop :=
  length (fst s) = DSFMT_N /\ Forall P (fst s) /\ Q (snd s).

Lemma good_nth s j : good s -> j < DSFMT_N -> P (nth j (fst s) w128_0).
Proof. intros (Hl & HP & _) Hj. rewrite Forall_forall in HP. apply HP. apply nth_In. rewrite Hl; auto. Qed.

Lemma good_slide s : good s -> good (slide r1 s) /\ slide r1 s = slide r2 s.
Proof.
  intros G. pose proof G as (Hl & HP & HQ).
  assert (H0 : P (nth 0 (fst s) w128_0)) by (apply good_nth; auto; unfold DSFMT_N; lia).
  assert (H1 : P (nth DSFMT_POS1 (fst s) w128_0)) by (apply good_nth; auto; unfold DSFMT_N, DSFMT_POS1; lia).
  split.
  - repeat split.
    + apply slide_length; auto.
    + unfold slide; cbn [fst]. apply Forall_app. split; [|constructor; auto; apply keep; auto].
      destruct (fst s); auto. inversion HP; auto.
    + apply keep; auto.
  - unfold slide. rewrite agree; auto.
Qed.
Lemma good_slides n s : good s -> good (slides r1 n s) /\ slides r1 n s = slides r2 n s.
Proof.
  intros G. induction n as [|n [G' E]]; [split; auto|].
  rewrite !slides_S. rewrite <- E. apply good_slide; auto.
Qed.
Lemma good_X n s : good s -> P (X r1 s n) /\ X r1 s n = X r2 s n.
Proof.
  intros G. destruct (good_slides n s G) as [G' E]. unfold X. rewrite <- E. split; auto.
  apply good_nth; auto; unfold DSFMT_N; lia.
Qed.
Lemma good_L n s : good s -> Q (Lg r1 s n).
Proof. intros G. apply (good_slides n s G). Qed.
End Two.
