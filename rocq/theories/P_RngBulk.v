(** Filling an array takes the next words of the sequence and leaves the status where single draws would. *)
From Coq Require Import ZArith List Bool Lia.
From Verif Require Import Base P_Base M_Dsfmt M_DsfmtBulk P_Rng.
Import ListNotations.
Open Scope nat_scope.

Section Bulk.
Variable rec : recursion.
Variable conv : w128 -> w128.
Variable s0 : list w128 * w128.
Hypothesis Hs0 : length (fst s0) = DSFMT_N.
Notation x := (X rec s0).
Notation lg := (Lg rec s0).
Variables (n0 size : nat).

(** words 0..i-1 of the array are done, the first c of them converted *)
Definition filled (i c : nat) (p : list w128 * w128) : Prop :=
  length (fst p) = size /\ snd p = lg (n0 + i) /\
  forall k, k < i -> nth k (fst p) w128_0 = if k <? c then conv (x (n0 + DSFMT_N + k)) else x (n0 + DSFMT_N + k).

Lemma put_filled i c p a b : filled i c p -> i < size -> c <= i ->
  a = x (n0 + i) -> b = x (n0 + i + DSFMT_POS1) -> filled (S i) c (put rec p i a b).
Proof.
  intros (Hl & HL & HX) Hi Hc -> ->. destruct p as [arr lung]; cbn [fst snd] in *. subst lung. unfold put.
  rewrite <- X_step by auto. repeat split; cbn [fst snd].
  - rewrite upd_length; auto.
  - f_equal. lia.
  - intros k Hk. destruct (Nat.eq_dec k i) as [->|Hne].
    + rewrite nth_upd_eq by lia. destruct (Nat.ltb_spec i c); [lia|]. f_equal. lia.
    + rewrite nth_upd_ne by auto. apply HX. lia.
Qed.
Lemma conv_filled i c p : filled i c p -> c < i -> i <= size ->
  filled i (S c) (upd (fst p) c (conv (nth c (fst p) w128_0)), snd p).
Proof.
  intros (Hl & HL & HX) Hc Hi. repeat split; cbn [fst snd]; auto.
  - rewrite upd_length; auto.
  - intros k Hk. destruct (Nat.eq_dec k c) as [->|Hne].
    + rewrite nth_upd_eq by lia. rewrite HX by lia. rewrite Nat.ltb_irrefl.
      replace (c <? S c) with true by (symmetry; apply Nat.ltb_lt; lia). reflexivity.
    + rewrite nth_upd_ne by auto. rewrite HX by auto.
      destruct (Nat.ltb_spec k c), (Nat.ltb_spec k (S c)); auto; lia.
Qed.

Lemma fold_inv {A} (f : A -> nat -> A) (P : nat -> A -> Prop) k i a : P i a ->
  (forall j b, i <= j < i + k -> P j b -> P (S j) (f b j)) -> P (i + k) (fold_left f (seq i k) a).
Proof.
  revert i a; induction k; intros i a H0 H; cbn [seq fold_left].
  - rewrite Nat.add_0_r; auto.
  - replace (i + S k) with (S i + k) by lia. apply IHk.
    + apply H; auto; lia.
    + intros j b Hj. apply H. lia.
Qed.
Lemma fold_inv_range {A} (f : A -> nat -> A) (P : nat -> A -> Prop) i j a : i <= j -> P i a ->
  (forall k b, i <= k < j -> P k b -> P (S k) (f b k)) -> P j (fold_left f (range i j) a).
Proof.
  intros Hij H0 H. unfold range. replace j with (i + (j - i)) at 1 by lia. apply fold_inv; auto.
  intros k b Hk. apply H. lia.
Qed.

Lemma fill3_filled i p : filled i (i - DSFMT_N) p -> DSFMT_N <= i < size ->
  filled (S i) (S i - DSFMT_N) (fill3 rec conv p i).
Proof.
  intros F Hi. unfold fill3.
  assert (F1 : filled (S i) (i - DSFMT_N) (put rec p i (nth (i - DSFMT_N) (fst p) w128_0)
                              (nth (i + DSFMT_POS1 - DSFMT_N) (fst p) w128_0))).
  { pose proof F as (Hl & HL & HX). apply put_filled; auto; try lia.
    - rewrite HX by (unfold DSFMT_N in *; lia). rewrite Nat.ltb_irrefl. f_equal. lia.
    - rewrite HX by (unfold DSFMT_N, DSFMT_POS1 in *; lia).
      destruct (Nat.ltb_spec (i + DSFMT_POS1 - DSFMT_N) (i - DSFMT_N)); [unfold DSFMT_N, DSFMT_POS1 in *; lia|].
      f_equal. unfold DSFMT_N, DSFMT_POS1 in *; lia. }
  destruct (put _ _ _ _ _) as [arr lung] eqn:Ep. apply conv_filled in F1; try (unfold DSFMT_N in *; lia).
  cbn [fst snd] in F1. replace (S i - DSFMT_N) with (S (i - DSFMT_N)) by lia. exact F1.
Qed.

Variable g : dsfmt.
Variable array : list w128.
Hypothesis Hsize : length array = size.
Hypothesis Hge : DSFMT_N <= size.
Hypothesis Hg : shows rec s0 n0 (status g).

Lemma gen_rand_array_ok : exists g',
  gen_rand_array rec conv g array = Ok (map (fun k => conv (x (n0 + DSFMT_N + k))) (seq 0 size), g') /\
  shows rec s0 (n0 + size) (status g') /\ idx g' = idx g.
Proof.
  unfold gen_rand_array. rewrite Hsize. destruct (Nat.ltb_spec size DSFMT_N); [lia|]. cbv zeta.
  set (st := status g) in *. destruct Hg as (Hl & HX & HL).
  (* loops 1 and 2 *)
  assert (F0 : filled 0 0 (array, nth DSFMT_N st w128_0)).
  { repeat split; cbn [fst snd]; auto. rewrite Nat.add_0_r; auto. intros; lia. }
  assert (F1 : filled 1 0 (fill1 rec st (array, nth DSFMT_N st w128_0) 0)).
  { unfold fill1. apply put_filled; auto; try (unfold DSFMT_N in *; lia).
    - rewrite HX by (unfold DSFMT_N in *; lia). f_equal.
    - rewrite HX by (unfold DSFMT_N, DSFMT_POS1 in *; lia). f_equal. lia. }
  assert (F2 : filled (DSFMT_N - DSFMT_POS1) 0 (fold_left (fill1 rec st) (range 1 (DSFMT_N - DSFMT_POS1))
                 (fill1 rec st (array, nth DSFMT_N st w128_0) 0))).
  { apply fold_inv_range with (P := fun i => filled i 0); auto; [unfold DSFMT_N, DSFMT_POS1; lia|].
    intros k b Hk Fb. unfold fill1. apply put_filled; auto; try (unfold DSFMT_N, DSFMT_POS1 in *; lia).
    - apply HX. unfold DSFMT_N, DSFMT_POS1 in *; lia.
    - rewrite HX by (unfold DSFMT_N, DSFMT_POS1 in *; lia). f_equal; lia. }
  clear F0 F1. revert F2.
  generalize (fold_left (fill1 rec st) (range 1 (DSFMT_N - DSFMT_POS1))
                 (fill1 rec st (array, nth DSFMT_N st w128_0) 0)) as p1. intros p1 F1.
  assert (F2 : filled DSFMT_N 0 (fold_left (fill2 rec st) (range (DSFMT_N - DSFMT_POS1) DSFMT_N) p1)).
  { apply fold_inv_range with (P := fun i => filled i 0); auto; [unfold DSFMT_N, DSFMT_POS1; lia|].
    intros k b Hk Fb. unfold fill2. apply put_filled; auto; try (unfold DSFMT_N, DSFMT_POS1 in *; lia).
    - apply HX. unfold DSFMT_N, DSFMT_POS1 in *; lia.
    - destruct Fb as (_ & _ & Fb). rewrite Fb by (unfold DSFMT_N, DSFMT_POS1 in *; lia).
      cbn [Nat.ltb Nat.leb]. f_equal. unfold DSFMT_N, DSFMT_POS1 in *; lia. }
  revert F2. generalize (fold_left (fill2 rec st) (range (DSFMT_N - DSFMT_POS1) DSFMT_N) p1). clear p1 F1.
  intros p1 F1.
  (* loop 3 *)
  set (i0 := Nat.max DSFMT_N (size - DSFMT_N)).
  assert (F2 : filled i0 (i0 - DSFMT_N) (fold_left (fill3 rec conv) (range DSFMT_N (size - DSFMT_N)) p1)).
  { destruct (Nat.le_ge_cases DSFMT_N (size - DSFMT_N)) as [Hc|Hc].
    - replace i0 with (size - DSFMT_N) by lia.
      apply fold_inv_range with (P := fun i => filled i (i - DSFMT_N)); auto.
      intros k b Hk Fb. apply fill3_filled; auto. lia.
    - replace i0 with DSFMT_N by lia. unfold range. replace (size - DSFMT_N - DSFMT_N) with 0 by lia. exact F1. }
  revert F2. generalize (fold_left (fill3 rec conv) (range DSFMT_N (size - DSFMT_N)) p1). clear p1 F1.
  intros p1 F1.
  (* status copy *)
  set (j0 := 2 * DSFMT_N - size).
  set (stc := fold_left (fun st j => upd st j (nth (j + size - DSFMT_N) (fst p1) w128_0)) (range 0 j0) st).
  assert (C0 : length stc = S DSFMT_N /\ forall j, j < j0 -> nth j stc w128_0 = x (n0 + size + j)).
  { unfold stc. apply fold_inv_range with
      (P := fun i st => length st = S DSFMT_N /\ forall j, j < i -> nth j st w128_0 = x (n0 + size + j)); [lia| |].
    - split; auto. intros; lia.
    - intros k b Hk [Hb1 Hb2]. split; [rewrite upd_length; auto|].
      intros j Hj. destruct (Nat.eq_dec j k) as [->|Hne].
      + rewrite nth_upd_eq by lia. destruct F1 as (_ & _ & F1). rewrite F1 by lia.
        destruct (Nat.ltb_spec (k + size - DSFMT_N) (i0 - DSFMT_N)); [lia|]. f_equal. lia.
      + rewrite nth_upd_ne by auto. apply Hb2. lia. }
  revert C0. generalize stc. clear stc. intros stc C0.
  (* loop 4 *)
  assert (F4 : let q := fold_left (fill4 rec conv) (range i0 size) (p1, stc, j0) in
    let '(p, st', j) := q in filled size (size - DSFMT_N) p /\ j = DSFMT_N /\ length st' = S DSFMT_N /\
      forall j, j < DSFMT_N -> nth j st' w128_0 = x (n0 + size + j)).
  { cbv zeta.
    assert (E : forall i, i0 <= i -> j0 + (i - i0) + size = i + DSFMT_N) by (intros; lia).
    assert (F5 : let '(p, st', j) := fold_left (fill4 rec conv) (range i0 size) (p1, stc, j0) in
      filled size (size - DSFMT_N) p /\ j = j0 + (size - i0) /\ length st' = S DSFMT_N /\
      forall j', j' < j -> nth j' st' w128_0 = x (n0 + size + j')).
    { apply fold_inv_range with (P := fun i (q : list w128 * w128 * list w128 * nat) => let '(p, st', j) := q in
        filled i (i - DSFMT_N) p /\ j = j0 + (i - i0) /\ length st' = S DSFMT_N /\
        forall j', j' < j -> nth j' st' w128_0 = x (n0 + size + j')); [lia| |].
      - split; auto. split; [lia|]. exact C0.
      - intros i [[p st'] j] Hi (Fi & -> & Hl' & Hj).
        pose proof (fill3_filled i p Fi ltac:(lia)) as F3.
        unfold fill3 in F3. unfold fill4.
        assert (Hn : nth i (fst (put rec p i (nth (i - DSFMT_N) (fst p) w128_0)
                      (nth (i + DSFMT_POS1 - DSFMT_N) (fst p) w128_0))) w128_0 = x (n0 + DSFMT_N + i)).
        { destruct F3 as (_ & _ & F3). specialize (F3 i ltac:(lia)).
          destruct (put _ _ _ _ _) as [arr lung]. cbn [fst] in *.
          rewrite nth_upd_ne in F3 by (unfold DSFMT_N in *; lia). rewrite F3.
          destruct (Nat.ltb_spec i (S i - DSFMT_N)); [unfold DSFMT_N in *; lia|reflexivity]. }
        destruct (put _ _ _ _ _) as [arr lung]. cbn [fst] in Hn.
        split; auto. split; [lia|]. split; [rewrite upd_length; auto|].
        intros j' Hj'. destruct (Nat.eq_dec j' (j0 + (i - i0))) as [->|Hne].
        + rewrite nth_upd_eq by (specialize (E i); lia). rewrite Hn. f_equal. specialize (E i). lia.
        + rewrite nth_upd_ne by auto. apply Hj. lia. }
    destruct (fold_left _ _ _) as [[p st'] j]. destruct F5 as (F5 & -> & Hl' & Hj).
    pose proof (E size ltac:(lia)) as Es. split; auto. split; [lia|]. split; auto.
    intros j Hj'. apply Hj. lia. }
  cbv zeta in F4. destruct (fold_left (fill4 rec conv) _ _) as [[[arr lung] st'] j].
  destruct F4 as (F4 & -> & Hl' & Hj).
  (* final conversion *)
  assert (F6 : filled size size (fold_left (fun arr i => upd arr i (conv (nth i arr w128_0)))
                 (range (size - DSFMT_N) size) arr, lung)).
  { apply fold_inv_range with (P := fun i a => filled size i (a, lung)); [lia|exact F4|].
    intros k b Hk Fb. apply conv_filled in Fb; try lia. exact Fb. }
  revert F6. generalize (fold_left (fun arr i => upd arr i (conv (nth i arr w128_0)))
                 (range (size - DSFMT_N) size) arr). intros arr' (Fl & FL & FX). cbn [fst snd] in *.
  exists {| status := upd st' DSFMT_N lung; idx := idx g |}.
  split; [|split; [|reflexivity]].
  - do 2 f_equal. apply nth_ext with w128_0 (conv (x (n0 + DSFMT_N + 0))).
    + rewrite map_length, seq_length; auto.
    + intros k Hk. rewrite Fl in Hk. rewrite FX by auto.
      destruct (Nat.ltb_spec k size); [|lia].
      rewrite (map_nth (fun k => conv (x (n0 + DSFMT_N + k)))), seq_nth; auto.
  - subst lung. cbn [status]. repeat split.
    + rewrite upd_length; auto.
    + intros j Hj'. rewrite nth_upd_ne by lia. apply Hj; auto.
    + rewrite nth_upd_eq by lia. reflexivity.
Qed.
End Bulk.

(** ** In terms of 64-bit words *)
Lemma as64_nth l k d : k < 2 * length l -> nth k (as64 l) d = lane k (nth (k / 2) l w128_0).
Proof.
  revert k; induction l as [|[a b] l]; intros k Hk; cbn [length] in Hk; [lia|].
  destruct k as [|[|k]]; try reflexivity.
  cbn [as64 nth]. rewrite IHl by lia.
  replace (S (S k)) with (2 * 1 + k) by lia. rewrite half_add. unfold lane. rewrite even_add. reflexivity.
Qed.
Lemma as64_length l : length (as64 l) = 2 * length l.
Proof. induction l as [|[a b] l]; cbn [as64 length]; lia. Qed.
Lemma as128_length m : forall l, length l = 2 * m -> length (as128 l) = m.
Proof.
  induction m; intros l Hl.
  - destruct l; [reflexivity|discriminate].
  - destruct l as [|a [|b l]]; cbn [length] in Hl; try lia. cbn [as128 length]. rewrite IHm; lia.
Qed.
Lemma lane_lanes f k w : lane k (lanes f w) = f (lane k w).
Proof. unfold lane, lanes. destruct (Nat.even k); reflexivity. Qed.

Lemma fill_array_words rec convert kind s0 k g array : length (fst s0) = DSFMT_N ->
  pos_ok rec s0 k g -> idx g = DSFMT_N64 -> Nat.even (length array) = true -> DSFMT_N64 <= length array ->
  exists g', fill_array rec convert kind g array =
    Ok (map (fun j => convert kind (Wd rec s0 (k + j))) (seq 0 (length array)), g') /\ pos_ok rec s0 (k + length array) g' /\ idx g' = DSFMT_N64.
Proof.
  intros Hs (n & Hsh & _ & E) Hi He Hge. rewrite Hi in E.
  apply Nat.even_spec in He as [m Hm].
  assert (Hm' : length (as128 array) = m) by (apply as128_length; auto).
  destruct (gen_rand_array_ok rec (lanes (convert kind)) s0 Hs n m g (as128 array) Hm') as (g' & Eg & Hg & Hid).
  - unfold DSFMT_N64, DSFMT_N in *. lia.
  - exact Hsh.
  - exists g'. split; [|split].
    + unfold fill_array. rewrite Eg. cbn [bind].
      replace (length array / 2) with m by (rewrite Hm, Nat.mul_comm, Nat.div_mul; auto).
      rewrite skipn_all2 by lia. rewrite app_nil_r. do 2 f_equal.
      apply nth_ext with 0%Z (convert kind (Wd rec s0 (k + 0))).
      * rewrite as64_length, !map_length, !seq_length. lia.
      * intros j Hj. rewrite as64_length, map_length, seq_length in Hj.
        rewrite (map_nth (fun j => convert kind (Wd rec s0 (k + j)))), seq_nth by lia.
        rewrite as64_nth by (rewrite map_length, seq_length; auto).
        assert (Hj2 : j / 2 < m) by (apply Nat.div_lt_upper_bound; lia).
        rewrite (nth_indep _ w128_0 (lanes (convert kind) (X rec s0 (n + DSFMT_N + 0)))) by (rewrite map_length, seq_length; auto).
        rewrite (map_nth (fun k => lanes (convert kind) (X rec s0 (n + DSFMT_N + k)))), seq_nth by auto.
        rewrite lane_lanes. f_equal. unfold Wd.
        replace (k + (0 + j)) with (2 * n + j) by (unfold DSFMT_N64 in *; lia).
        rewrite half_add. unfold lane. rewrite even_add. cbn [Nat.add].
        replace (DSFMT_N + (n + j / 2)) with (n + DSFMT_N + j / 2) by lia. reflexivity.
    + exists (n + m). split; auto. rewrite Hid, Hi. lia.
    + rewrite Hid; auto.
Qed.
