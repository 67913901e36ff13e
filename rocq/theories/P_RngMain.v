(** Properties of the generator's streams. *)
From Coq Require Import ZArith List Bool Lia Reals Lra.
From Flocq Require Import Core IEEE754.BinarySingleNaN.
From Flocq Require IEEE754.Binary IEEE754.Bits.
From Verif Require Import Base P_Base Arith RealArith FloatArith M_Dsfmt M_DsfmtBulk M_Random S_Random
  P_Words P_Rng P_RngInit P_RngBulk P_RngFloat P_RngKer P_RngSame.
Import ListNotations.
Open Scope nat_scope.

Local Opaque init_gen_rand.

Lemma after_draw_next rec k g : after_draw rec k g = snd (next_word rec g).
Proof.
  destruct k; cbn [after_draw]; unfold Unif01, Unif01Open, genrand_open_close, genrand_close1_open2, genrand_uint32;
    destruct (next_word rec g); reflexivity.
Qed.

Section Hist.
Variable rec : recursion.
Variable seed : Z.

Lemma pos_draws h : forall k g, pos_ok rec (start seed) k g ->
  pos_ok rec (start seed) (k + length h) (after_draws rec h g).
Proof.
  induction h as [|d h]; intros k g H; cbn [after_draws fold_left length].
  - rewrite Nat.add_0_r; auto.
  - rewrite Nat.add_succ_r, <- Nat.add_succ_l. apply IHh. rewrite after_draw_next.
    apply next_word_pos; auto using start_length.
Qed.
Lemma pos_hist h : pos_ok rec (start seed) (length h) (after_draws rec h (init_gen_rand seed)).
Proof. apply (pos_draws h 0). apply init_pos. Qed.

Lemma word_hist h : fst (next_word rec (after_draws rec h (init_gen_rand seed))) = Wd rec (start seed) (length h).
Proof. apply next_word_pos; auto using start_length, pos_hist. Qed.
End Hist.

Lemma Wd_build rec seed k : is_build rec -> Wd rec (start seed) k = Wd do_recursion (start seed) k.
Proof. intros [-> | ->]; [reflexivity|]. symmetry. apply Wd_same. Qed.
Lemma X_build rec seed k : is_build rec -> X rec (start seed) k = X do_recursion (start seed) k.
Proof. intros [-> | ->]; [reflexivity|]. symmetry. apply X_same. Qed.
Lemma Lg_build rec seed k : is_build rec -> Lg rec (start seed) k = Lg do_recursion (start seed) k.
Proof. intros [-> | ->]; [reflexivity|]. symmetry. apply Lg_same. Qed.

Lemma Wd_hi rec seed k : is_build rec -> hi (Wd rec (start seed) k).
Proof.
  intros H. rewrite Wd_build by auto. unfold Wd, lane. destruct (X_hi seed (DSFMT_N + k / 2)).
  destruct (Nat.even k); auto.
Qed.

(** ** Uniform numbers *)
Section C06.
Variables (m : libm) (rec : recursion) (seed : Z) (h : list draw).
Hypothesis Hb : is_build rec.
Notation F := (Farith m).
Notation g := (after_draws rec h (init_gen_rand seed)).

Lemma word_k : exists k, (0 <= k < 2 ^ 52)%Z /\ fst (next_word rec g) = (DSFMT_HIGH_CONST + k)%Z.
Proof. rewrite word_hist. apply hi_split. apply Wd_hi; auto. Qed.

Lemma ulp_div k : (IZR k * ulp52 = IZR k / IZR (2 ^ 52))%R.
Proof. reflexivity. Qed.

Lemma unif01_k : exists k, (0 <= k < 2 ^ 52)%Z /\ exactly (fst (Unif01 (A := F) rec g)) (IZR k / IZR (2 ^ 52)).
Proof.
  destruct word_k as (k & Hk & E). exists k. split; auto. rewrite <- ulp_div.
  unfold Unif01. destruct (next_word rec g) as [w g']. cbn [fst] in *. subst w. apply close_open_F; auto.
Qed.
Lemma unif01R_k : exists k, (0 <= k < 2 ^ 52)%Z /\ fst (Unif01 (A := Rarith) rec g) = (IZR k / IZR (2 ^ 52))%R /\
  exactly (fst (Unif01 (A := F) rec g)) (fst (Unif01 (A := Rarith) rec g)).
Proof.
  destruct word_k as (k & Hk & E). exists k. split; auto. rewrite <- ulp_div.
  unfold Unif01. destruct (next_word rec g) as [w g']. cbn [fst] in *. subst w.
  assert (ER : sub Rarith (ofbits Rarith (DSFMT_HIGH_CONST + k)) (lit Rarith 1 0) = (IZR k * ulp52)%R).
  { rewrite ofbits_R by auto. cbn [sub lit Rarith]. change (IZR (10 ^ 0)) with 1%R. lra. }
  rewrite ER. split; auto. apply close_open_F; auto.
Qed.
Lemma unif01Open_k : exists k, (0 < k < 2 ^ 52)%Z /\ exactly (fst (Unif01Open (A := F) rec g)) (IZR k / IZR (2 ^ 52)).
Proof.
  destruct word_k as (k & Hk & E). destruct (hi_or1 k Hk) as (k' & Hk' & E' & _). exists k'. split; auto. rewrite <- ulp_div.
  unfold Unif01Open. destruct (next_word rec g) as [w g']. cbn [fst] in *. subst w. rewrite E'. apply close_open_F. lia.
Qed.
Lemma openclose_k : exists k, (0 < k <= 2 ^ 52)%Z /\
  exactly (fst (genrand_open_close (A := F) rec g)) (IZR k / IZR (2 ^ 52)).
Proof.
  destruct word_k as (k & Hk & E). exists (2 ^ 52 - k)%Z. split; [lia|]. rewrite <- ulp_div.
  unfold genrand_open_close. destruct (next_word rec g) as [w g']. cbn [fst] in *. subst w. apply open_close_F; auto.
Qed.
Lemma close1open2_k : exists k, (0 <= k < 2 ^ 52)%Z /\
  exactly (fst (genrand_close1_open2 (A := F) rec g)) (1 + IZR k / IZR (2 ^ 52)).
Proof.
  destruct word_k as (k & Hk & E). exists k. split; auto. rewrite <- ulp_div.
  unfold genrand_close1_open2. destruct (next_word rec g) as [w g']. cbn [fst] in *. subst w. apply ofbits_F; auto.
Qed.
Lemma uint32_range : (0 <= fst (genrand_uint32 rec g) < 2 ^ 32)%Z.
Proof.
  unfold genrand_uint32. destruct (next_word rec g) as [w g']. cbn [fst].
  change 4294967295%Z with (Z.ones 32). rewrite Z.land_ones by lia. apply Z.mod_pos_bound. reflexivity.
Qed.
End C06.

(** ** Words and uniform numbers determine each other *)
Lemma unif_word rec seed1 seed2 h1 h2 : is_build rec ->
  fst (Unif01 (A := Rarith) rec (after_draws rec h1 (init_gen_rand seed1))) =
  fst (Unif01 (A := Rarith) rec (after_draws rec h2 (init_gen_rand seed2))) ->
  Wd rec (start seed1) (length h1) = Wd rec (start seed2) (length h2).
Proof.
  intros Hb E.
  assert (G : forall seed h, exists k, (0 <= k < 2 ^ 52)%Z /\ Wd rec (start seed) (length h) = (DSFMT_HIGH_CONST + k)%Z /\
     fst (Unif01 (A := Rarith) rec (after_draws rec h (init_gen_rand seed))) = (IZR k * ulp52)%R).
  { intros seed h. destruct (word_k rec seed h Hb) as (k & Hk & Ek). exists k. split; auto.
    rewrite <- word_hist. split; auto.
    unfold Unif01. destruct (next_word rec _) as [w g']. cbn [fst] in *. subst w.
    rewrite ofbits_R by auto. cbn [sub lit Rarith]. change (IZR (10 ^ 0)) with 1%R. lra. }
  destruct (G seed1 h1) as (k1 & _ & -> & E1). destruct (G seed2 h2) as (k2 & _ & -> & E2).
  rewrite E1, E2 in E. apply Rmult_eq_reg_r in E; [|pose proof ulp52_pos; lra].
  apply eq_IZR in E. congruence.
Qed.

(** ** Going back *)
Lemma slide_inj s1 s2 : good hi128 wf s1 -> good hi128 wf s2 ->
  slide do_recursion s1 = slide do_recursion s2 -> s1 = s2.
Proof.
  intros G1 G2 E.
  assert (H10 : hi128 (nth 0 (fst s1) w128_0)) by (eapply good_nth; eauto; unfold DSFMT_N; lia).
  assert (H20 : hi128 (nth 0 (fst s2) w128_0)) by (eapply good_nth; eauto; unfold DSFMT_N; lia).
  destruct G1 as (Hl1 & F1 & W1), G2 as (Hl2 & F2 & W2).
  pose proof (f_equal fst E) as E1. pose proof (f_equal snd E) as E2. clear E. unfold slide in E1, E2. cbn [fst snd] in E1, E2.
  apply app_inj_tail in E1 as [E0 E1].
  assert (Eb : nth DSFMT_POS1 (fst s1) w128_0 = nth DSFMT_POS1 (fst s2) w128_0).
  { change DSFMT_POS1 with (S 116). rewrite <- !nth_tl, E0. reflexivity. }
  rewrite Eb in E1, E2.
  destruct (rec_inj (nth 0 (fst s1) w128_0) (nth DSFMT_POS1 (fst s2) w128_0) (snd s1) (nth 0 (fst s2) w128_0) (snd s2))
    as [Ea EL]; auto using hi128_wf.
  { rewrite (surjective_pairing (do_recursion (nth 0 (fst s1) _) _ _)), E1, E2, <- surjective_pairing. reflexivity. }
  destruct s1 as [l1 L1], s2 as [l2 L2]; cbn [fst snd] in *. subst L2. f_equal.
  destruct l1, l2; cbn [length tl nth] in *; try discriminate. congruence.
Qed.

Lemma good_n n s : good hi128 wf s -> good hi128 wf (slides do_recursion n s).
Proof. intros G. apply (good_slides _ _ hi128 wf sse2_agree rec_hi n _ G). Qed.

Lemma slides_inj n s1 s2 : good hi128 wf s1 -> good hi128 wf s2 ->
  slides do_recursion n s1 = slides do_recursion n s2 -> s1 = s2.
Proof.
  intros G1 G2. induction n; auto. rewrite !slides_S. intros E. apply IHn. apply slide_inj; auto using good_n.
Qed.

(** ** Different seeds, different streams *)
Lemma start_seed_eq s1 s2 : start s1 = start s2 -> (s1 mod 2 ^ 32 = s2 mod 2 ^ 32)%Z.
Proof.
  intros E. pose proof (seed_back s1) as H1. pose proof (seed_back s2) as H2. unfold u32 in *.
  rewrite <- H1, <- H2. do 2 f_equal.
  assert (G : forall s, nth 0 (status (init_gen_rand s)) w128_0 = nth 0 (fst (start s)) w128_0).
  { intros s. unfold start, split_status. cbn [fst].
    rewrite <- (firstn_skipn DSFMT_N (status (init_gen_rand s))) at 1. apply app_nth1.
    rewrite firstn_length. destruct (init_spec s) as [Hl _]. rewrite Hl. unfold DSFMT_N; lia. }
  rewrite !G, E. reflexivity.
Qed.

Lemma kernel_pair a b : wf a -> wf b ->
  mix DSFMT_MSK1 (fst a) = mix DSFMT_MSK1 (fst b) -> mix DSFMT_MSK2 (snd a) = mix DSFMT_MSK2 (snd b) ->
  mix DSFMT_MSK1 (swap32 (snd a)) = mix DSFMT_MSK1 (swap32 (snd b)) ->
  mix DSFMT_MSK2 (swap32 (fst a)) = mix DSFMT_MSK2 (swap32 (fst b)) -> a = b.
Proof.
  intros [Ha0 Ha1] [Hb0 Hb1] E1 E2 E3 E4.
  assert (Z : forall x y, x = y -> Z.lxor x y = 0%Z) by (intros; subst; apply Z.lxor_nilpotent).
  apply Z in E1, E2, E3, E4. rewrite <- mix_lxor in E1, E2, E3, E4. rewrite <- swap32_lxor in E3, E4.
  assert (D0 : Z.lxor (fst a) (fst b) = 0%Z) by (apply kernel; auto; apply W_lxor; auto; lia).
  assert (D1 : swap32 (Z.lxor (snd a) (snd b)) = 0%Z).
  { apply kernel; auto. apply W64_swap. apply W_lxor; auto; lia.
    rewrite swap32_invol; auto. apply W_lxor; auto; lia. }
  apply (f_equal swap32) in D1. rewrite swap32_invol in D1 by (apply W_lxor; auto; lia).
  change (swap32 0) with 0%Z in D1. apply lxor_eq0 in D0, D1.
  destruct a, b; cbn [fst snd] in *; congruence.
Qed.

Local Strategy 100 [Lg].
Local Strategy 500 [X].
Local Strategy 1000 [slides start do_recursion nl mix swap32 DSFMT_N DSFMT_POS1].

Lemma words_X s1 s2 :
  (forall k, k < 386 -> Wd do_recursion (start s1) k = Wd do_recursion (start s2) k) ->
  forall j, j < 193 -> X do_recursion (start s1) (DSFMT_N + j) = X do_recursion (start s2) (DSFMT_N + j).
Proof.
  intros H j Hj. pose proof (H (2 * j + 0) ltac:(lia)) as A0. pose proof (H (2 * j + 1) ltac:(lia)) as A1.
  unfold Wd, lane in A0, A1. rewrite !even_add, !half_add in A0, A1.
  change (Nat.even 0) with true in A0. change (Nat.even 1) with false in A1.
  change (0 / 2) with 0 in A0. change (1 / 2) with 0 in A1. rewrite Nat.add_0_r in A0, A1.
  destruct (X do_recursion (start s1) (DSFMT_N + j)), (X do_recursion (start s2) (DSFMT_N + j)).
  cbn [fst snd] in *. congruence.
Qed.

(** two steps of the recursion with the same inputs and outputs have the same lungs *)
Lemma two_steps a b a' b' r r' L L' M M' N N' : wf L -> wf L' -> wf M -> wf M' ->
  (r, M) = do_recursion a b L -> (r, M') = do_recursion a b L' ->
  (r', N) = do_recursion a' b' M -> (r', N') = do_recursion a' b' M' -> L = L'.
Proof.
  intros WL WL' WM WM' S1 S2 T1 T2.
  rewrite do_recursion_eq in S1, S2, T1, T2. cbv zeta in S1, S2, T1, T2.
  apply pair_equal_spec in S1 as [A1 B1], S2 as [A2 B2], T1 as [C1 D1], T2 as [C2 D2].
  rewrite A1 in A2. rewrite C1 in C2.
  apply pair_equal_spec in A2 as [P1 P2], C2 as [Q1 Q2].
  apply lxor_cancel in P1, P2, Q1, Q2.
  assert (EM : M = M').
  { apply kernel_pair; [exact WM|exact WM'| | | |].
    - rewrite B1, B2. cbn [fst]. exact P1.
    - rewrite B1, B2. cbn [snd]. exact P2.
    - unfold nl in Q1. rewrite !mix_lxor in Q1. apply lxor_cancel in Q1. apply lxor_cancel_l in Q1. exact Q1.
    - unfold nl in Q2. rewrite !mix_lxor in Q2. apply lxor_cancel in Q2. apply lxor_cancel_l in Q2. exact Q2. }
  rewrite B1, B2 in EM. apply pair_equal_spec in EM as [P Q]. unfold nl in P, Q.
  apply lxor_cancel in P, Q. apply lxor_cancel_l in P, Q.
  destruct WL as [V0 V1], WL' as [U0 U1].
  apply swap32_inj in P; [|exact V1|exact U1]. apply swap32_inj in Q; [|exact V0|exact U0].
  destruct L, L'; cbn [fst snd] in *; congruence.
Qed.

Lemma streams_lung s1 s2 :
  (forall j, j < 193 -> X do_recursion (start s1) (DSFMT_N + j) = X do_recursion (start s2) (DSFMT_N + j)) ->
  Lg do_recursion (start s1) DSFMT_N = Lg do_recursion (start s2) DSFMT_N.
Proof.
  intros HX.
  pose proof (X_step do_recursion (start s1) DSFMT_N (start_length s1)) as S1.
  pose proof (X_step do_recursion (start s2) DSFMT_N (start_length s2)) as S2.
  pose proof (X_step do_recursion (start s1) (S DSFMT_N) (start_length s1)) as T1.
  pose proof (X_step do_recursion (start s2) (S DSFMT_N) (start_length s2)) as T2.
  pose proof (HX 0 ltac:(lia)) as X0. pose proof (HX 1 ltac:(lia)) as X1.
  pose proof (HX DSFMT_POS1 ltac:(unfold DSFMT_POS1; lia)) as X117.
  pose proof (HX (S DSFMT_POS1) ltac:(unfold DSFMT_POS1; lia)) as X118.
  pose proof (HX DSFMT_N ltac:(unfold DSFMT_N; lia)) as X191.
  pose proof (HX (S DSFMT_N) ltac:(unfold DSFMT_N; lia)) as X192.
  rewrite Nat.add_0_r in X0. rewrite Nat.add_1_r in X1.
  rewrite Nat.add_succ_r, <- Nat.add_succ_l in X118, X192.
  rewrite X0, X117, X191 in S1. rewrite X1, X118, X192 in T1.
  exact (two_steps _ _ _ _ _ _ _ _ _ _ _ _ (Lg_wf s1 _) (Lg_wf s2 _) (Lg_wf s1 _) (Lg_wf s2 _) S1 S2 T1 T2).
Qed.

Lemma streams_differ_words s1 s2 :
  (forall k, k < 386 -> Wd do_recursion (start s1) k = Wd do_recursion (start s2) k) -> start s1 = start s2.
Proof.
  intros H. pose proof (words_X s1 s2 H) as HX. pose proof (streams_lung s1 s2 HX) as E0.
  apply slides_inj with DSFMT_N; [apply start_good|apply start_good|].
  rewrite (surjective_pairing (slides do_recursion DSFMT_N (start s1))),
          (surjective_pairing (slides do_recursion DSFMT_N (start s2))).
  apply (proj2 (pair_equal_spec _ _ _ _)). split; [|unfold Lg in E0; exact E0].
  rewrite !slides_list by apply start_length. apply map_ext_in. intros j Hj. apply in_seq in Hj.
  destruct Hj as [Hj1 Hj2].
  pose proof (HX (j - DSFMT_N)) as G. rewrite Nat.add_comm, Nat.sub_add in G by exact Hj1. apply G. unfold DSFMT_N in *; lia.
Qed.

Lemma nth_unif_eq {A : Arith} rec seed n :
  nth_unif (A := A) rec seed n = fst (Unif01 (A := A) rec (after_draws rec (repeat D01 n) (init_gen_rand seed))).
Proof. reflexivity. Qed.

Lemma all_below (P : nat -> Prop) n : (forall k, {P k} + {~ P k}) -> (forall k, k < n -> P k) \/ exists k, k < n /\ ~ P k.
Proof.
  intros D. induction n as [|n [IH|(k & Hk & IH)]].
  - left; intros; lia.
  - destruct (D n); [left|right; eauto]. intros k Hk. destruct (Nat.eq_dec k n) as [->|]; auto. apply IH; lia.
  - right. exists k. split; auto.
Qed.

Lemma c05 rec s1 s2 : is_build rec -> (s1 mod 2 ^ 32 <> s2 mod 2 ^ 32)%Z ->
  exists n, n < 386 /\ nth_unif (A := Rarith) rec s1 n <> nth_unif (A := Rarith) rec s2 n.
Proof.
  intros Hb Hs.
  destruct (all_below (fun k => Wd do_recursion (start s1) k = Wd do_recursion (start s2) k) 386) as [H|(k & Hk & H)].
  - intros k. apply Z.eq_dec.
  - exfalso. apply Hs. apply start_seed_eq. apply streams_differ_words; auto.
  - exists k. split; [exact Hk|]. intros E. apply H. unfold nth_unif in E. apply unif_word in E; [|exact Hb].
    rewrite !repeat_length in E. rewrite (Wd_build rec s1), (Wd_build rec s2) in E by exact Hb. exact E.
Qed.
Lemma c05_f m rec s1 s2 : is_build rec -> (s1 mod 2 ^ 32 <> s2 mod 2 ^ 32)%Z ->
  exists n, n < 386 /\ B2R (nth_unif (A := Farith m) rec s1 n) <> B2R (nth_unif (A := Farith m) rec s2 n).
Proof.
  intros Hb Hs. destruct (c05 rec s1 s2 Hb Hs) as (n & Hn & H). exists n. split; [exact Hn|].
  unfold nth_unif in *.
  destruct (unif01R_k m rec s1 (repeat D01 n) Hb) as (k1 & _ & _ & _ & ->).
  destruct (unif01R_k m rec s2 (repeat D01 n) Hb) as (k2 & _ & _ & _ & ->). exact H.
Qed.

(** ** No merging *)
Lemma shows_slides rec seed n st : shows rec (start seed) n st ->
  slides rec n (start seed) = (firstn DSFMT_N st, nth DSFMT_N st w128_0).
Proof.
  intros (Hl & HX & HL). rewrite (surjective_pairing (slides rec n (start seed))). apply (proj2 (pair_equal_spec _ _ _ _)). split; [|unfold Lg in HL; symmetry; exact HL].
  rewrite slides_list by apply start_length. apply nth_ext with w128_0 w128_0.
  - rewrite map_length, seq_length, firstn_length. lia.
  - intros j Hj. rewrite map_length, seq_length in Hj.
    rewrite (nth_indep _ _ (X rec (start seed) 0)) by (rewrite map_length, seq_length; auto).
    rewrite map_nth, seq_nth by auto.
    rewrite <- (firstn_skipn DSFMT_N st) in HX. rewrite <- (HX j Hj). rewrite app_nth1; auto.
    rewrite firstn_length. lia.
Qed.

(** states after at least ... : idx between 1 and N64 *)
Definition live (g : dsfmt) : Prop :=
  length (status g) = S DSFMT_N /\ good hi128 wf (split_status (status g)) /\ 1 <= idx g <= DSFMT_N64.

Lemma split_inj st1 st2 : length st1 = S DSFMT_N -> length st2 = S DSFMT_N -> split_status st1 = split_status st2 -> st1 = st2.
Proof.
  intros H1 H2 E. unfold split_status in E. apply pair_equal_spec in E as [E1 E2]. apply nth_ext with w128_0 w128_0; [congruence|].
  intros j Hj. rewrite H1 in Hj. destruct (Nat.eq_dec j DSFMT_N) as [->|]; auto.
  assert (G : forall st, length st = S DSFMT_N -> nth j st w128_0 = nth j (firstn DSFMT_N st) w128_0).
  { intros st Hl. rewrite <- (firstn_skipn DSFMT_N st) at 1. apply app_nth1. rewrite firstn_length. lia. }
  rewrite (G st1 H1), (G st2 H2), E1. reflexivity.
Qed.

Lemma refill_split st : length st = S DSFMT_N -> good hi128 wf (split_status st) ->
  split_status (gen_rand_all do_recursion st) = slides do_recursion DSFMT_N (split_status st).
Proof.
  intros Hl G. pose proof (shows_refill do_recursion (split_status st) (split_length st Hl) 0 st (shows_start do_recursion st Hl)) as H.
  destruct H as (Hl' & HX & HL). rewrite (surjective_pairing (slides _ _ _)). unfold split_status at 1.
  apply (proj2 (pair_equal_spec _ _ _ _)). split; [|unfold Lg in HL; exact HL].
  rewrite slides_list by (apply split_length; auto). apply nth_ext with w128_0 w128_0.
  - rewrite map_length, seq_length, firstn_length. lia.
  - intros j Hj. rewrite firstn_length in Hj. assert (Hj' : j < DSFMT_N) by lia.
    rewrite (nth_indep (map _ _) _ (X do_recursion (split_status st) 0)) by (rewrite map_length, seq_length; auto).
    rewrite map_nth, seq_nth by auto. change (DSFMT_N + j) with (0 + DSFMT_N + j). rewrite <- (HX j Hj').
    rewrite <- (firstn_skipn DSFMT_N (gen_rand_all do_recursion st)) at 2. rewrite app_nth1; auto.
    rewrite firstn_length. lia.
Qed.

Lemma refill_inj st1 st2 : length st1 = S DSFMT_N -> length st2 = S DSFMT_N ->
  good hi128 wf (split_status st1) -> good hi128 wf (split_status st2) ->
  gen_rand_all do_recursion st1 = gen_rand_all do_recursion st2 -> st1 = st2.
Proof.
  intros H1 H2 G1 G2 E. apply split_inj; auto. apply (f_equal split_status) in E.
  rewrite !refill_split in E by auto. apply slides_inj in E; auto.
Qed.

Lemma live_next g1 g2 : live g1 -> live g2 -> snd (next_word do_recursion g1) = snd (next_word do_recursion g2) -> g1 = g2.
Proof.
  intros (L1 & G1 & I1) (L2 & G2 & I2) E. unfold next_word in E. cbn [snd] in E.
  destruct g1 as [st1 i1], g2 as [st2 i2]; cbn [status idx] in *.
  destruct (Nat.leb_spec DSFMT_N64 i1), (Nat.leb_spec DSFMT_N64 i2); cbn [status idx] in E;
    pose proof (f_equal status E) as E1; pose proof (f_equal idx E) as E2; clear E; cbn [status idx] in E1, E2.
  - f_equal; [|lia]. apply refill_inj; auto.
  - lia.
  - lia.
  - congruence.
Qed.

Lemma live_init seed : live (init_gen_rand seed).
Proof.
  destruct (init_spec seed) as (H1 & _ & _ & H4). split; auto. split; [apply start_good|]. rewrite H4. unfold DSFMT_N64; lia.
Qed.
Lemma live_step g : live g -> live (snd (next_word do_recursion g)).
Proof.
  intros (Hl & G & I). unfold next_word. cbn [snd]. destruct (Nat.leb_spec DSFMT_N64 (idx g)).
  - unfold live. cbn [status idx]. rewrite refill_split by auto.
    split; [|split; [apply good_n; auto|unfold DSFMT_N64; lia]].
    pose proof (shows_refill do_recursion (split_status (status g)) (split_length _ Hl) 0 _ (shows_start do_recursion _ Hl)) as H'.
    apply H'.
  - split; auto. split; auto. cbn [idx]. lia.
Qed.

Lemma after_draw_build rec k g : is_build rec -> seeded g -> after_draw rec k g = after_draw do_recursion k g.
Proof.
  intros [-> | ->] H; [reflexivity|]. rewrite !after_draw_next. destruct (next_word_same g H) as [E _]. rewrite E. reflexivity.
Qed.
Lemma after_draws_build rec h : is_build rec -> forall g, seeded g ->
  after_draws rec h g = after_draws do_recursion h g /\ seeded (after_draws do_recursion h g).
Proof.
  intros Hb. induction h as [|k h]; intros g H; cbn [after_draws fold_left]; auto.
  rewrite after_draw_build by auto. apply IHh. rewrite after_draw_next. apply next_word_same; auto.
Qed.
Lemma live_draws h : forall g, live g -> live (after_draws do_recursion h g).
Proof.
  induction h as [|k h]; intros g H; cbn [after_draws fold_left]; auto. apply IHh. rewrite after_draw_next. apply live_step; auto.
Qed.
Lemma reachable_live rec g : is_build rec -> reachable rec g -> live g /\ seeded g.
Proof.
  intros Hb (seed & h & ->). destruct (after_draws_build rec h Hb _ (seeded_init seed)) as [-> H].
  split; auto. apply live_draws, live_init.
Qed.

Lemma c08_inj rec k1 k2 g1 g2 : is_build rec -> reachable rec g1 -> reachable rec g2 ->
  after_draw rec k1 g1 = after_draw rec k2 g2 -> g1 = g2.
Proof.
  intros Hb H1 H2. destruct (reachable_live rec g1 Hb H1) as [L1 S1]. destruct (reachable_live rec g2 Hb H2) as [L2 S2].
  rewrite (after_draw_build rec k1 g1), (after_draw_build rec k2 g2) by assumption.
  rewrite !after_draw_next. apply live_next; assumption.
Qed.

Lemma reach_draw rec k g : reachable rec g -> reachable rec (after_draw rec k g).
Proof. intros (seed & h & ->). exists seed, (h ++ [k]). unfold after_draws. rewrite fold_left_app. reflexivity. Qed.
Lemma reach_draws rec h g : reachable rec g -> reachable rec (after_draws rec h g).
Proof. revert g; induction h; intros g H; cbn [after_draws fold_left]; auto. apply IHh. apply reach_draw; auto. Qed.

(** a stream that comes back to a state has been in that cycle from the start *)
Lemma c08_cycle rec h : is_build rec -> forall g1 g2, reachable rec g1 -> reachable rec g2 ->
  after_draws rec h g1 = after_draws rec h g2 -> g1 = g2.
Proof.
  intros Hb. induction h as [|k h]; intros g1 g2 H1 H2 E; cbn [after_draws fold_left] in E; auto.
  apply IHh in E; try apply reach_draw; auto. eapply c08_inj; eauto.
Qed.
