(** The state after seeding. *)
From Coq Require Import ZArith List Bool Lia.
From Verif Require Import Base P_Base M_Dsfmt P_Words P_Rng.
Import ListNotations.
Open Scope Z_scope.

Lemma init_next_range p i : 0 <= init_next p i < 2 ^ 32.
Proof. unfold init_next, u32. apply Z.mod_pos_bound. reflexivity. Qed.

Lemma init_words_length n i p : length (init_words n i p) = n.
Proof. revert i p; induction n; intros; cbn [init_words length]; auto. Qed.
Lemma init_words_range n i p : W 32 p -> Forall (W 32) (init_words n i p).
Proof.
  revert i p; induction n; intros; cbn [init_words]; constructor; auto. apply IHn. apply init_next_range.
Qed.

Lemma pack_spec m : forall l, length l = (4 * m)%nat -> Forall (W 32) l ->
  length (pack128 l) = m /\ Forall wf (pack128 l).
Proof.
  induction m; intros l Hl HF.
  - destruct l; [|discriminate]. split; auto. constructor.
  - destruct l as [|a [|b [|c [|d l]]]]; cbn [length] in Hl; try lia.
    inversion_clear HF as [|? ? Ha H]. inversion_clear H as [|? ? Hb H']. inversion_clear H' as [|? ? Hc H].
    inversion_clear H as [|? ? Hd HF].
    cbn [pack128]. destruct (IHm l) as [IH1 IH2]; auto; [lia|]. cbn [length]. split; [lia|].
    constructor; auto. unfold W in *. split; unfold W; cbn [fst snd]; lia.
Qed.

Lemma mask_hi w : 0 <= w -> hi (mask_word w).
Proof.
  intros Hw. unfold mask_word. rewrite <- Z.lxor_lor.
  - apply hi_lxor. unfold hi, DSFMT_HIGH_CONST; lia. apply W_land; auto; unfold W, DSFMT_LOW_MASK; lia.
  - rewrite <- Z.land_assoc. change (Z.land DSFMT_LOW_MASK DSFMT_HIGH_CONST) with 0. apply Z.land_0_r.
Qed.

Lemma skipn_nth0 {A} n (l : list A) d : nth 0 (skipn n l) d = nth n l d.
Proof. revert l; induction n; intros [|a l]; cbn; auto. Qed.

Lemma initial_mask_spec st : length st = S DSFMT_N -> Forall wf st ->
  length (initial_mask st) = S DSFMT_N /\ Forall hi128 (firstn DSFMT_N (initial_mask st)) /\
  nth DSFMT_N (initial_mask st) w128_0 = nth DSFMT_N st w128_0.
Proof.
  intros Hl HF. unfold initial_mask. split; [|split].
  - rewrite app_length, map_length, firstn_length, skipn_length. lia.
  - rewrite firstn_app, map_length, firstn_length. replace (DSFMT_N - Nat.min DSFMT_N (length st))%nat with 0%nat by lia.
    rewrite firstn_O, app_nil_r, firstn_all2 by (rewrite map_length, firstn_length; lia).
    rewrite Forall_map. assert (H : Forall wf (firstn DSFMT_N st)).
    { rewrite <- (firstn_skipn DSFMT_N st) in HF. apply Forall_app in HF. tauto. }
    eapply Forall_impl; [|exact H]. intros [a b] [[Ha _] [Hb _]]; cbn [fst snd] in *.
    split; cbn [fst snd]; apply mask_hi; auto.
  - rewrite app_nth2 by (rewrite map_length, firstn_length; lia).
    rewrite map_length, firstn_length. replace (DSFMT_N - Nat.min DSFMT_N (length st))%nat with 0%nat by lia.
    apply skipn_nth0.
Qed.

Lemma upd_last_firstn {A} (l : list A) n a : firstn n (upd l n a) = firstn n l.
Proof. revert n; induction l; intros [|n]; cbn; auto. f_equal. auto. Qed.

Lemma W64_1 : W64 1. Proof. unfold W; lia. Qed.

Lemma cert_spec st : length st = S DSFMT_N -> wf (nth DSFMT_N st w128_0) ->
  length (period_certification st) = S DSFMT_N /\
  firstn DSFMT_N (period_certification st) = firstn DSFMT_N st /\
  wf (nth DSFMT_N (period_certification st) w128_0).
Proof.
  intros Hl Hw. unfold period_certification. destruct (_ =? 1); [auto|].
  split; [rewrite upd_length; auto|]. split; [apply upd_last_firstn|].
  rewrite nth_upd_eq by (rewrite Hl; auto). destruct Hw. split; cbn [fst snd]; auto.
  apply W_lxor; auto using W64_1; lia.
Qed.

Definition raw (seed : Z) : list w128 := pack128 (init_words ((DSFMT_N + 1) * 4) 1 (u32 seed)).

Lemma raw_spec seed : length (raw seed) = S DSFMT_N /\ Forall wf (raw seed).
Proof.
  unfold raw. apply pack_spec. rewrite init_words_length. reflexivity.
  apply init_words_range. unfold u32. apply Z.mod_pos_bound. reflexivity.
Qed.

(** Seeded states are good. *)
Lemma init_spec seed : let st := status (init_gen_rand seed) in
  length st = S DSFMT_N /\ Forall hi128 (firstn DSFMT_N st) /\ wf (nth DSFMT_N st w128_0) /\
  idx (init_gen_rand seed) = DSFMT_N64.
Proof.
  cbv zeta. unfold init_gen_rand. cbn [status idx]. fold (raw seed).
  destruct (raw_spec seed) as [H1 H2]. destruct (initial_mask_spec _ H1 H2) as (H3 & H4 & H5).
  assert (H6 : wf (nth DSFMT_N (initial_mask (raw seed)) w128_0)).
  { rewrite H5. rewrite Forall_forall in H2. apply H2. apply nth_In. rewrite H1; auto. }
  destruct (cert_spec _ H3 H6) as (H7 & H8 & H9). rewrite H8. auto.
Qed.

Definition start (seed : Z) : list w128 * w128 := split_status (status (init_gen_rand seed)).

Lemma start_good seed : good hi128 wf (start seed).
Proof.
  destruct (init_spec seed) as (H1 & H2 & H3 & _). unfold start, split_status, good. cbn [fst snd].
  rewrite firstn_length. split; [lia|auto].
Qed.
Lemma start_length seed : length (fst (start seed)) = DSFMT_N.
Proof. apply (start_good seed). Qed.

Lemma init_pos rec seed : pos_ok rec (start seed) 0 (init_gen_rand seed).
Proof.
  destruct (init_spec seed) as (H1 & _ & _ & H4).
  pose proof (pos_start rec _ H1) as H. unfold start.
  destruct (init_gen_rand seed) as [st i]; cbn [status idx] in *. subst i. exact H.
Qed.

(** ** The seed can be read off the state *)
Lemma mask_low32 a b : W 32 a -> W 32 b -> u32 (mask_word (a + 2 ^ 32 * b)) = a.
Proof.
  intros Ha Hb. apply Z.bits_inj'. intros n Hn. unfold u32, mask_word.
  destruct (Z_lt_le_dec n 32).
  - rewrite Z.mod_pow2_bits_low by lia. rewrite Z.lor_spec, Z.land_spec.
    change DSFMT_HIGH_CONST with (Z.shiftl 1023 52). rewrite Z.shiftl_spec by lia.
    rewrite (Z.testbit_neg_r 1023), orb_false_r by lia.
    change DSFMT_LOW_MASK with (Z.ones 52). rewrite Z.ones_spec_low, andb_true_r by lia.
    rewrite <- (Z.mod_pow2_bits_low (a + 2 ^ 32 * b) 32) by lia.
    replace ((a + 2 ^ 32 * b) mod 2 ^ 32) with a; auto.
    rewrite Z.mul_comm, Z_mod_plus_full. symmetry. apply Z.mod_small. exact Ha.
  - rewrite Z.mod_pow2_bits_high by lia. symmetry. apply (W_high 32); auto; lia.
Qed.

Lemma head_init seed : exists b c d l, W 32 b /\ raw seed = (u32 seed + 2 ^ 32 * b, c + 2 ^ 32 * d) :: l.
Proof.
  unfold raw. change ((DSFMT_N + 1) * 4)%nat with (S (S (S (S (4 * DSFMT_N))))).
  cbn [init_words pack128]. do 4 eexists. split; [|reflexivity]. apply init_next_range.
Qed.

Lemma seed_back seed : u32 (fst (nth 0 (status (init_gen_rand seed)) w128_0)) = u32 seed.
Proof.
  assert (E : nth 0 (status (init_gen_rand seed)) w128_0 = nth 0 (initial_mask (raw seed)) w128_0).
  { unfold init_gen_rand. cbn [status]. fold (raw seed). unfold period_certification.
    destruct (_ =? 1); [reflexivity|]. apply nth_upd_ne. discriminate. }
  rewrite E. destruct (head_init seed) as (b & c & d & l & Hb & Er).
  unfold initial_mask. rewrite Er. change DSFMT_N with (S 190). cbn [firstn map app nth fst].
  apply mask_low32; auto. unfold u32. apply Z.mod_pos_bound. reflexivity.
Qed.

(** ** Parity *)
Definition foldi (i x : Z) : Z := Z.lxor x (Z.shiftr x i).
Definition fold6 (x : Z) : Z := foldi 1 (foldi 2 (foldi 4 (foldi 8 (foldi 16 (foldi 32 x))))).
Lemma foldi_lxor i x y : foldi i (Z.lxor x y) = Z.lxor (foldi i x) (foldi i y).
Proof. unfold foldi. rewrite Z.shiftr_lxor; xorsolve. Qed.
Lemma fold6_lxor x y : fold6 (Z.lxor x y) = Z.lxor (fold6 x) (fold6 y).
Proof. unfold fold6. rewrite !foldi_lxor. reflexivity. Qed.
Lemma certification_parity_eq l : certification_parity l =
  Z.land (fold6 (Z.lxor (Z.land (Z.lxor (fst l) DSFMT_FIX1) DSFMT_PCV1)
                        (Z.land (Z.lxor (snd l) DSFMT_FIX2) DSFMT_PCV2))) 1.
Proof. reflexivity. Qed.

Lemma land_1 x : Z.land x 1 = 0 \/ Z.land x 1 = 1.
Proof.
  change 1 with (Z.ones 1) at 1 2. rewrite Z.land_ones by lia.
  pose proof (Z.mod_pos_bound x 2 eq_refl). change (2 ^ 1) with 2. lia.
Qed.
Lemma parity_01 l : certification_parity l = 0 \/ certification_parity l = 1.
Proof. rewrite certification_parity_eq. apply land_1. Qed.
Lemma parity_flip a b : certification_parity (a, Z.lxor b 1) = Z.lxor (certification_parity (a, b)) 1.
Proof.
  rewrite !certification_parity_eq. cbn [fst snd].
  replace (Z.land (Z.lxor (Z.lxor b 1) DSFMT_FIX2) DSFMT_PCV2)
    with (Z.lxor (Z.land (Z.lxor b DSFMT_FIX2) DSFMT_PCV2) (Z.land 1 DSFMT_PCV2))
    by (generalize DSFMT_FIX2, DSFMT_PCV2; intros; xorsolve).
  change (Z.land 1 DSFMT_PCV2) with 1.
  rewrite <- Z.lxor_assoc, fold6_lxor, land_lxor. reflexivity.
Qed.
Lemma parity_cert st : length st = S DSFMT_N ->
  certification_parity (nth DSFMT_N (period_certification st) w128_0) = 1.
Proof.
  intros Hl. unfold period_certification. destruct (Z.eqb_spec (certification_parity (nth DSFMT_N st w128_0)) 1) as [E|E]; auto.
  rewrite nth_upd_eq by lia. rewrite parity_flip. rewrite <- surjective_pairing.
  destruct (parity_01 (nth DSFMT_N st w128_0)) as [-> | E']; [reflexivity|contradiction].
Qed.
Lemma parity_init seed : certification_parity (nth DSFMT_N (status (init_gen_rand seed)) w128_0) = 1.
Proof.
  unfold init_gen_rand. cbn [status]. fold (raw seed). apply parity_cert.
  destruct (raw_spec seed). apply initial_mask_spec; auto.
Qed.
