(** 64-bit words: shifts, exclusive or, and one step of the generator's recursion. *)
From Coq Require Import ZArith List Bool Lia.
From Verif Require Import Base M_Dsfmt.
Import ListNotations.
Open Scope Z_scope.

Definition W (n x : Z) : Prop := 0 <= x < 2 ^ n.
Notation W64 := (W 64).
Definition wf (w : w128) : Prop := W64 (fst w) /\ W64 (snd w).

Lemma W_high n x k : 0 <= n -> W n x -> n <= k -> Z.testbit x k = false.
Proof.
  intros Hn [H0 H1] Hk. rewrite <- (Z.mod_small x (2 ^ n)) by lia.
  apply Z.mod_pow2_bits_high. lia.
Qed.

Lemma W_intro n x : 0 <= n -> 0 <= x -> (forall k, n <= k -> Z.testbit x k = false) -> W n x.
Proof.
  intros Hn H0 H. split; auto.
  destruct (Z_lt_le_dec x (2 ^ n)) as [|Hge]; auto. exfalso.
  assert (0 < x) by (pose proof (Z.pow_pos_nonneg 2 n); lia).
  assert (n <= Z.log2 x) by (apply Z.log2_le_pow2; auto).
  specialize (H (Z.log2 x)). rewrite Z.bit_log2 in H by auto. intuition discriminate.
Qed.

Lemma W_lxor n x y : 0 <= n -> W n x -> W n y -> W n (Z.lxor x y).
Proof.
  intros Hn Hx Hy. apply W_intro; auto.
  - apply Z.lxor_nonneg. unfold W in *; tauto.
  - intros k Hk. rewrite Z.lxor_spec, (W_high n x), (W_high n y); auto.
Qed.
Lemma W_lor n x y : 0 <= n -> W n x -> W n y -> W n (Z.lor x y).
Proof.
  intros Hn Hx Hy. apply W_intro; auto.
  - apply Z.lor_nonneg. unfold W in *; tauto.
  - intros k Hk. rewrite Z.lor_spec, (W_high n x), (W_high n y); auto.
Qed.
Lemma W_land n x y : 0 <= n -> 0 <= x -> W n y -> W n (Z.land x y).
Proof.
  intros Hn Hx Hy. apply W_intro; auto.
  - apply Z.land_nonneg. auto.
  - intros k Hk. rewrite Z.land_spec, (W_high n y); auto using andb_false_r.
Qed.
Lemma W_shr n x k : 0 <= k -> 0 <= n -> W (n + k) x -> W n (shr64 x k).
Proof.
  intros Hk Hn Hx. unfold shr64. apply W_intro; auto.
  - apply Z.shiftr_nonneg. unfold W in Hx; tauto.
  - intros j Hj. rewrite Z.shiftr_spec by lia. apply (W_high (n + k)); auto; lia.
Qed.
Lemma W_mono n m x : 0 <= n <= m -> W n x -> W m x.
Proof. intros H [H0 H1]. split; auto. apply Z.lt_le_trans with (2 ^ n); auto. apply Z.pow_le_mono_r; lia. Qed.
Lemma W64_shr x k : 0 <= k -> W64 x -> W64 (shr64 x k).
Proof.
  intros Hk Hx. apply W_shr; try lia. apply (W_mono 64); auto; lia.
Qed.
Lemma W64_shl x k : W64 (shl64 x k).
Proof. unfold shl64, u64, W. apply Z.mod_pos_bound. reflexivity. Qed.

Lemma shl64_bit x k n : 0 <= k -> 0 <= n ->
  Z.testbit (shl64 x k) n = (n <? 64) && (k <=? n) && Z.testbit x (n - k).
Proof.
  intros Hk Hn. unfold shl64, u64. destruct (Z.ltb_spec n 64).
  - rewrite Z.mod_pow2_bits_low by lia. rewrite Z.shiftl_spec by lia.
    destruct (Z.leb_spec k n); simpl; auto. apply Z.testbit_neg_r. lia.
  - rewrite Z.mod_pow2_bits_high by lia. reflexivity.
Qed.
Lemma shr64_bit x k n : 0 <= n -> Z.testbit (shr64 x k) n = Z.testbit x (n + k).
Proof. intros Hn. unfold shr64. apply Z.shiftr_spec; auto. Qed.

(** the two halves of a word exchanged *)
Definition swap32 (x : Z) : Z := Z.lxor (shr64 x 32) (shl64 x 32).

Lemma W64_swap x : W64 x -> W64 (swap32 x).
Proof. intros. apply W_lxor; try lia. apply W64_shr; auto; lia. apply W64_shl. Qed.

Lemma swap32_bit x n : W64 x -> 0 <= n ->
  Z.testbit (swap32 x) n = if n <? 32 then Z.testbit x (n + 32) else (n <? 64) && Z.testbit x (n - 32).
Proof.
  intros Hx Hn. unfold swap32. rewrite Z.lxor_spec, shr64_bit, shl64_bit by lia.
  destruct (Z.ltb_spec n 32).
  - destruct (Z.leb_spec 32 n); [lia|]. rewrite andb_false_r. simpl. apply xorb_false_r.
  - rewrite (W_high 64 x (n + 32)) by (auto; lia). destruct (Z.leb_spec 32 n); [|lia].
    rewrite andb_true_r. apply xorb_false_l.
Qed.

Lemma swap32_invol x : W64 x -> swap32 (swap32 x) = x.
Proof.
  intros Hx. apply Z.bits_inj'. intros n Hn. rewrite swap32_bit by (auto using W64_swap).
  destruct (Z.ltb_spec n 32).
  - rewrite swap32_bit by (auto; lia). destruct (Z.ltb_spec (n + 32) 32); [lia|].
    destruct (Z.ltb_spec (n + 32) 64); [|lia]. simpl. f_equal. lia.
  - destruct (Z.ltb_spec n 64); simpl.
    + rewrite swap32_bit by (auto; lia). destruct (Z.ltb_spec (n - 32) 32); [|lia]. f_equal. lia.
    + symmetry. apply (W_high 64); auto; lia.
Qed.
Lemma swap32_inj x y : W64 x -> W64 y -> swap32 x = swap32 y -> x = y.
Proof. intros Hx Hy H. rewrite <- (swap32_invol x), <- (swap32_invol y), H; auto. Qed.

Ltac xbits :=
  apply Z.bits_inj'; let n := fresh "n" in let H := fresh "Hn" in intros n H;
  repeat first [rewrite Z.lxor_spec | rewrite Z.land_spec | rewrite Z.lor_spec].
Ltac xorsolve :=
  xbits; repeat (match goal with |- context [Z.testbit ?a ?b] => destruct (Z.testbit a b) end);
  reflexivity.

Lemma shr64_lxor x y k : shr64 (Z.lxor x y) k = Z.lxor (shr64 x k) (shr64 y k).
Proof. apply Z.shiftr_lxor. Qed.
Lemma shl64_lxor x y k : 0 <= k -> shl64 (Z.lxor x y) k = Z.lxor (shl64 x k) (shl64 y k).
Proof.
  intros Hk. xbits. rewrite !shl64_bit, Z.lxor_spec by lia.
  destruct (n <? 64), (k <=? n), (Z.testbit x (n - k)), (Z.testbit y (n - k)); reflexivity.
Qed.
Lemma swap32_lxor x y : swap32 (Z.lxor x y) = Z.lxor (swap32 x) (swap32 y).
Proof.
  unfold swap32. rewrite shr64_lxor, shl64_lxor by lia. xorsolve.
Qed.
Lemma land_lxor x y m : Z.land (Z.lxor x y) m = Z.lxor (Z.land x m) (Z.land y m).
Proof. xorsolve. Qed.

Lemma lxor_cancel x y z : Z.lxor x z = Z.lxor y z -> x = y.
Proof.
  intros H. replace x with (Z.lxor (Z.lxor x z) z) by xorsolve.
  rewrite H. xorsolve.
Qed.
Lemma lxor_cancel_l x y z : Z.lxor z x = Z.lxor z y -> x = y.
Proof. rewrite !(Z.lxor_comm z). apply lxor_cancel. Qed.
Lemma lxor_eq0 x y : Z.lxor x y = 0 -> x = y.
Proof. apply Z.lxor_eq. Qed.

(** ** The recursion *)
(** the output is the old word exclusive-or'ed with this function of the new lung *)
Definition mix (m l : Z) : Z := Z.lxor (shr64 l DSFMT_SR) (Z.land l m).
Definition nl (t L b : Z) : Z := Z.lxor (Z.lxor (shl64 t DSFMT_SL1) (swap32 L)) b.

Lemma do_recursion_eq a b L :
  do_recursion a b L =
  let l0 := nl (fst a) (snd L) (fst b) in
  let l1 := nl (snd a) (fst L) (snd b) in
  ((Z.lxor (mix DSFMT_MSK1 l0) (fst a), Z.lxor (mix DSFMT_MSK2 l1) (snd a)), (l0, l1)).
Proof.
  unfold do_recursion, nl, mix, swap32. cbv zeta.
  rewrite !Z.lxor_assoc. reflexivity.
Qed.

Lemma mix_lxor m x y : mix m (Z.lxor x y) = Z.lxor (mix m x) (mix m y).
Proof. unfold mix. rewrite shr64_lxor, land_lxor. xorsolve. Qed.

Lemma shuffle_lane x : W64 x -> Z.lor (Z.shiftr x 32) (Z.shiftl (u32 x) 32) = swap32 x.
Proof.
  intros Hx. apply Z.bits_inj'. intros n Hn. rewrite swap32_bit by auto.
  rewrite Z.lor_spec, Z.shiftr_spec, Z.shiftl_spec by lia. unfold u32.
  destruct (Z.ltb_spec n 32).
  - rewrite (Z.testbit_neg_r _ (n - 32)) by lia. apply orb_false_r.
  - rewrite (W_high 64 x (n + 32)) by (auto; lia). rewrite orb_false_l.
    destruct (Z.ltb_spec n 64); cbn [andb].
    + apply Z.mod_pow2_bits_low. lia.
    + apply Z.mod_pow2_bits_high. lia.
Qed.

(** Both versions of do_recursion compute the same. *)
Lemma sse2_eq a b L : wf L -> do_recursion_sse2 a b L = do_recursion a b L.
Proof.
  intros [H0 H1]. rewrite do_recursion_eq.
  unfold do_recursion_sse2, mm_shuffle_epi32. cbv zeta.
  change (Z.land (Z.shiftr SSE2_SHUFF (2 * 0)) 3) with 3.
  change (Z.land (Z.shiftr SSE2_SHUFF (2 * 1)) 3) with 2.
  change (Z.land (Z.shiftr SSE2_SHUFF (2 * 2)) 3) with 1.
  change (Z.land (Z.shiftr SSE2_SHUFF (2 * 3)) 3) with 0.
  unfold lane32. rewrite !shuffle_lane by auto.
  unfold mm_xor, mm_and, mm_srli_epi64, mm_slli_epi64. cbn [fst snd].
  assert (E : forall t L' b', Z.lxor (swap32 L') (Z.lxor (shl64 t DSFMT_SL1) b') = nl t L' b')
    by (intros; unfold nl; xorsolve).
  rewrite !E. unfold mix.
  f_equal. f_equal; xorsolve.
Qed.

(** A word of the state holds a double in [1,2). *)
Definition hi (x : Z) : Prop := DSFMT_HIGH_CONST <= x < DSFMT_HIGH_CONST + 2 ^ 52.
Definition hi128 (w : w128) : Prop := hi (fst w) /\ hi (snd w).

Lemma hi_W x : hi x -> W64 x.
Proof. unfold hi, W, DSFMT_HIGH_CONST. lia. Qed.
Lemma hi128_wf w : hi128 w -> wf w.
Proof. intros []. split; auto using hi_W. Qed.

Lemma hi_lxor x y : hi x -> W 52 y -> hi (Z.lxor y x).
Proof.
  intros [H0 H1] Hy.
  set (k := x - DSFMT_HIGH_CONST).
  assert (Hk : W 52 k) by (unfold W, k; lia).
  assert (E : x = Z.lxor k DSFMT_HIGH_CONST).
  { change DSFMT_HIGH_CONST with (Z.shiftl 1023 52) in *. unfold k in *.
    rewrite <- Z.add_nocarry_lxor; [lia|].
    apply Z.bits_inj'. intros n Hn. rewrite Z.land_spec, Z.bits_0.
    destruct (Z_lt_le_dec n 52).
    - rewrite Z.shiftl_spec by lia. rewrite (Z.testbit_neg_r 1023) by lia. apply andb_false_r.
    - rewrite (W_high 52) by (auto; lia). reflexivity. }
  rewrite E, <- Z.lxor_assoc.
  assert (Hyk : W 52 (Z.lxor y k)) by (apply W_lxor; auto; lia).
  assert (E2 : Z.lxor (Z.lxor y k) DSFMT_HIGH_CONST = Z.lxor y k + DSFMT_HIGH_CONST).
  { change DSFMT_HIGH_CONST with (Z.shiftl 1023 52). symmetry. apply Z.add_nocarry_lxor.
    apply Z.bits_inj'. intros n Hn. rewrite Z.land_spec, Z.bits_0.
    destruct (Z_lt_le_dec n 52).
    - rewrite Z.shiftl_spec by lia. rewrite (Z.testbit_neg_r 1023) by lia. apply andb_false_r.
    - rewrite (W_high 52) by (auto; lia). reflexivity. }
  rewrite E2. unfold hi. unfold W in Hyk. lia.
Qed.

Lemma W52_mix1 l : W64 l -> W 52 (mix DSFMT_MSK1 l).
Proof.
  intros H. apply W_lxor; try lia. apply W_shr; auto; unfold DSFMT_SR; lia.
  apply W_land; try lia. apply H. unfold W, DSFMT_MSK1. lia.
Qed.
Lemma W52_mix2 l : W64 l -> W 52 (mix DSFMT_MSK2 l).
Proof.
  intros H. apply W_lxor; try lia. apply W_shr; auto; unfold DSFMT_SR; lia.
  apply W_land; try lia. apply H. unfold W, DSFMT_MSK2. lia.
Qed.
Lemma W64_nl t L b : W64 L -> W64 b -> W64 (nl t L b).
Proof.
  intros. unfold nl. apply W_lxor; try lia; auto. apply W_lxor; try lia. apply W64_shl. apply W64_swap; auto.
Qed.

Lemma rec_hi a b L : hi128 a -> hi128 b -> wf L ->
  hi128 (fst (do_recursion a b L)) /\ wf (snd (do_recursion a b L)).
Proof.
  intros [Ha0 Ha1] [Hb0 Hb1] [H0 H1]. rewrite do_recursion_eq. cbn [fst snd].
  assert (W64 (nl (fst a) (snd L) (fst b))) by (apply W64_nl; auto using hi_W).
  assert (W64 (nl (snd a) (fst L) (snd b))) by (apply W64_nl; auto using hi_W).
  split; split; cbn [fst snd]; auto; apply hi_lxor; auto using W52_mix1, W52_mix2.
Qed.

(** With b known, the recursion can be undone. *)
Lemma rec_inj a b L a' L' : wf a -> wf a' -> wf L -> wf L' ->
  do_recursion a b L = do_recursion a' b L' -> a = a' /\ L = L'.
Proof.
  intros _ _ [HL0 HL1] [HL0' HL1'] H. rewrite !do_recursion_eq in H. cbv zeta in H.
  injection H as E1 E2 E3 E4. rewrite E3 in E1. rewrite E4 in E2.
  apply lxor_cancel_l in E1, E2.
  destruct a, a', L as [x y], L' as [x' y']; cbn [fst snd] in *. subst.
  split; auto. unfold nl in E3, E4. apply lxor_cancel in E3, E4.
  apply lxor_cancel_l in E3, E4.
  apply swap32_inj in E3, E4; auto. congruence.
Qed.
