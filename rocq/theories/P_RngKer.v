(** The two linear maps that make outputs from lungs have, through the exchange of halves, no common kernel. *)
From Coq Require Import ZArith List Bool Lia.
From Verif Require Import Base M_Dsfmt P_Words.
Open Scope Z_scope.

Lemma use0 (a b m : bool) : a = b && m -> m = false -> a = false.
Proof. intros -> ->. apply andb_false_r. Qed.
Lemma usef (a b m : bool) : a = b && m -> b = false -> a = false.
Proof. intros -> ->. reflexivity. Qed.
Lemma useb (a b m : bool) : a = b && m -> m = true -> a = false -> b = false.
Proof. intros -> ->. rewrite andb_true_r. auto. Qed.

Lemma mix_bits m y : mix m y = 0 -> forall n, 0 <= n -> Z.testbit y (n + 12) = Z.testbit y n && Z.testbit m n.
Proof.
  intros H n Hn. assert (E : Z.testbit (mix m y) n = false) by (rewrite H; apply Z.bits_0).
  unfold mix in E. rewrite Z.lxor_spec, Z.land_spec, shr64_bit in E by auto.
  apply xorb_eq. exact E.
Qed.

Definition sw (n : Z) : Z := (n + 32) mod 64.
Lemma swap32_bit' x n : W64 x -> 0 <= n < 64 -> Z.testbit (swap32 x) n = Z.testbit x (sw n).
Proof.
  intros Hx Hn. rewrite swap32_bit by (auto; lia). unfold sw. destruct (Z.ltb_spec n 32).
  - rewrite Z.mod_small by lia. reflexivity.
  - destruct (Z.ltb_spec n 64); [|lia]. cbn [andb]. f_equal.
    replace (n + 32) with (n - 32 + 1 * 64) by lia. rewrite Z_mod_plus_full. symmetry. apply Z.mod_small. lia.
Qed.

Lemma kernel y : W64 y -> mix DSFMT_MSK1 y = 0 -> mix DSFMT_MSK2 (swap32 y) = 0 -> y = 0.
Proof.
  intros Hy H1 H2.
  assert (E1 : forall n, 0 <= n < 52 -> Z.testbit y (n + 12) = Z.testbit y n && Z.testbit DSFMT_MSK1 n)
    by (intros; apply mix_bits; auto; lia).
  assert (E2 : forall n, 0 <= n < 52 -> Z.testbit y (sw (n + 12)) = Z.testbit y (sw n) && Z.testbit DSFMT_MSK2 n).
  { intros n Hn. rewrite <- !swap32_bit' by (auto; lia). apply mix_bits; auto; lia. }
  clear H1 H2.
  assert (B45 : Z.testbit y 45 = false) by (exact (use0 _ _ _ (E2 1 (ltac:(split; discriminate || reflexivity))) eq_refl)).
  assert (B18 : Z.testbit y 18 = false) by (exact (use0 _ _ _ (E1 6 (ltac:(split; discriminate || reflexivity))) eq_refl)).
  assert (B19 : Z.testbit y 19 = false) by (exact (use0 _ _ _ (E1 7 (ltac:(split; discriminate || reflexivity))) eq_refl)).
  assert (B22 : Z.testbit y 22 = false) by (exact (use0 _ _ _ (E1 10 (ltac:(split; discriminate || reflexivity))) eq_refl)).
  assert (B57 : Z.testbit y 57 = false) by (exact (usef _ _ _ (E2 13 (ltac:(split; discriminate || reflexivity))) B45)).
  assert (B60 : Z.testbit y 60 = false) by (exact (use0 _ _ _ (E2 16 (ltac:(split; discriminate || reflexivity))) eq_refl)).
  assert (B61 : Z.testbit y 61 = false) by (exact (use0 _ _ _ (E2 17 (ltac:(split; discriminate || reflexivity))) eq_refl)).
  assert (B30 : Z.testbit y 30 = false) by (exact (usef _ _ _ (E1 18 (ltac:(split; discriminate || reflexivity))) B18)).
  assert (B62 : Z.testbit y 62 = false) by (exact (use0 _ _ _ (E2 18 (ltac:(split; discriminate || reflexivity))) eq_refl)).
  assert (B31 : Z.testbit y 31 = false) by (exact (usef _ _ _ (E1 19 (ltac:(split; discriminate || reflexivity))) B19)).
  assert (B63 : Z.testbit y 63 = false) by (exact (use0 _ _ _ (E2 19 (ltac:(split; discriminate || reflexivity))) eq_refl)).
  assert (B1 : Z.testbit y 1 = false) by (exact (use0 _ _ _ (E2 21 (ltac:(split; discriminate || reflexivity))) eq_refl)).
  assert (B34 : Z.testbit y 34 = false) by (exact (usef _ _ _ (E1 22 (ltac:(split; discriminate || reflexivity))) B22)).
  assert (B2 : Z.testbit y 2 = false) by (exact (use0 _ _ _ (E2 22 (ltac:(split; discriminate || reflexivity))) eq_refl)).
  assert (B4 : Z.testbit y 4 = false) by (exact (use0 _ _ _ (E2 24 (ltac:(split; discriminate || reflexivity))) eq_refl)).
  assert (B5 : Z.testbit y 5 = false) by (exact (use0 _ _ _ (E2 25 (ltac:(split; discriminate || reflexivity))) eq_refl)).
  assert (B8 : Z.testbit y 8 = false) by (exact (usef _ _ _ (E2 28 (ltac:(split; discriminate || reflexivity))) B60)).
  assert (B9 : Z.testbit y 9 = false) by (exact (usef _ _ _ (E2 29 (ltac:(split; discriminate || reflexivity))) B61)).
  assert (B42 : Z.testbit y 42 = false) by (exact (usef _ _ _ (E1 30 (ltac:(split; discriminate || reflexivity))) B30)).
  assert (B10 : Z.testbit y 10 = false) by (exact (usef _ _ _ (E2 30 (ltac:(split; discriminate || reflexivity))) B62)).
  assert (B43 : Z.testbit y 43 = false) by (exact (usef _ _ _ (E1 31 (ltac:(split; discriminate || reflexivity))) B31)).
  assert (B11 : Z.testbit y 11 = false) by (exact (usef _ _ _ (E2 31 (ltac:(split; discriminate || reflexivity))) B63)).
  assert (B33 : Z.testbit y 33 = false) by (exact (useb _ _ _ (E1 33 (ltac:(split; discriminate || reflexivity))) eq_refl B45)).
  assert (B13 : Z.testbit y 13 = false) by (exact (usef _ _ _ (E2 33 (ltac:(split; discriminate || reflexivity))) B1)).
  assert (B46 : Z.testbit y 46 = false) by (exact (usef _ _ _ (E1 34 (ltac:(split; discriminate || reflexivity))) B34)).
  assert (B14 : Z.testbit y 14 = false) by (exact (usef _ _ _ (E2 34 (ltac:(split; discriminate || reflexivity))) B2)).
  assert (B16 : Z.testbit y 16 = false) by (exact (usef _ _ _ (E2 36 (ltac:(split; discriminate || reflexivity))) B4)).
  assert (B17 : Z.testbit y 17 = false) by (exact (usef _ _ _ (E2 37 (ltac:(split; discriminate || reflexivity))) B5)).
  assert (B6 : Z.testbit y 6 = false) by (exact (useb _ _ _ (E2 38 (ltac:(split; discriminate || reflexivity))) eq_refl B18)).
  assert (B7 : Z.testbit y 7 = false) by (exact (useb _ _ _ (E2 39 (ltac:(split; discriminate || reflexivity))) eq_refl B19)).
  assert (B52 : Z.testbit y 52 = false) by (exact (use0 _ _ _ (E1 40 (ltac:(split; discriminate || reflexivity))) eq_refl)).
  assert (B20 : Z.testbit y 20 = false) by (exact (usef _ _ _ (E2 40 (ltac:(split; discriminate || reflexivity))) B8)).
  assert (B21 : Z.testbit y 21 = false) by (exact (use0 _ _ _ (E2 41 (ltac:(split; discriminate || reflexivity))) eq_refl)).
  assert (B54 : Z.testbit y 54 = false) by (exact (use0 _ _ _ (E1 42 (ltac:(split; discriminate || reflexivity))) eq_refl)).
  assert (B55 : Z.testbit y 55 = false) by (exact (usef _ _ _ (E1 43 (ltac:(split; discriminate || reflexivity))) B43)).
  assert (B23 : Z.testbit y 23 = false) by (exact (usef _ _ _ (E2 43 (ltac:(split; discriminate || reflexivity))) B11)).
  assert (B25 : Z.testbit y 25 = false) by (exact (usef _ _ _ (E2 45 (ltac:(split; discriminate || reflexivity))) B13)).
  assert (B58 : Z.testbit y 58 = false) by (exact (usef _ _ _ (E1 46 (ltac:(split; discriminate || reflexivity))) B46)).
  assert (B26 : Z.testbit y 26 = false) by (exact (usef _ _ _ (E2 46 (ltac:(split; discriminate || reflexivity))) B14)).
  assert (B48 : Z.testbit y 48 = false) by (exact (useb _ _ _ (E1 48 (ltac:(split; discriminate || reflexivity))) eq_refl B60)).
  assert (B28 : Z.testbit y 28 = false) by (exact (usef _ _ _ (E2 48 (ltac:(split; discriminate || reflexivity))) B16)).
  assert (B49 : Z.testbit y 49 = false) by (exact (useb _ _ _ (E1 49 (ltac:(split; discriminate || reflexivity))) eq_refl B61)).
  assert (B29 : Z.testbit y 29 = false) by (exact (usef _ _ _ (E2 49 (ltac:(split; discriminate || reflexivity))) B17)).
  assert (B50 : Z.testbit y 50 = false) by (exact (useb _ _ _ (E1 50 (ltac:(split; discriminate || reflexivity))) eq_refl B62)).
  assert (B51 : Z.testbit y 51 = false) by (exact (useb _ _ _ (E1 51 (ltac:(split; discriminate || reflexivity))) eq_refl B63)).
  assert (B36 : Z.testbit y 36 = false) by (exact (useb _ _ _ (E2 4 (ltac:(split; discriminate || reflexivity))) eq_refl B48)).
  assert (B37 : Z.testbit y 37 = false) by (exact (useb _ _ _ (E2 5 (ltac:(split; discriminate || reflexivity))) eq_refl B49)).
  assert (B38 : Z.testbit y 38 = false) by (exact (useb _ _ _ (E2 6 (ltac:(split; discriminate || reflexivity))) eq_refl B50)).
  assert (B39 : Z.testbit y 39 = false) by (exact (useb _ _ _ (E2 7 (ltac:(split; discriminate || reflexivity))) eq_refl B51)).
  assert (B40 : Z.testbit y 40 = false) by (exact (useb _ _ _ (E2 8 (ltac:(split; discriminate || reflexivity))) eq_refl B52)).
  assert (B32 : Z.testbit y 32 = false) by (exact (usef _ _ _ (E1 20 (ltac:(split; discriminate || reflexivity))) B20)).
  assert (B0 : Z.testbit y 0 = false) by (exact (usef _ _ _ (E2 20 (ltac:(split; discriminate || reflexivity))) B52)).
  assert (B35 : Z.testbit y 35 = false) by (exact (usef _ _ _ (E1 23 (ltac:(split; discriminate || reflexivity))) B23)).
  assert (B3 : Z.testbit y 3 = false) by (exact (usef _ _ _ (E2 23 (ltac:(split; discriminate || reflexivity))) B55)).
  assert (B24 : Z.testbit y 24 = false) by (exact (useb _ _ _ (E1 24 (ltac:(split; discriminate || reflexivity))) eq_refl B36)).
  assert (B27 : Z.testbit y 27 = false) by (exact (useb _ _ _ (E1 27 (ltac:(split; discriminate || reflexivity))) eq_refl B39)).
  assert (B59 : Z.testbit y 59 = false) by (exact (useb _ _ _ (E2 27 (ltac:(split; discriminate || reflexivity))) eq_refl B7)).
  assert (B41 : Z.testbit y 41 = false) by (exact (usef _ _ _ (E1 29 (ltac:(split; discriminate || reflexivity))) B29)).
  assert (B44 : Z.testbit y 44 = false) by (exact (usef _ _ _ (E1 32 (ltac:(split; discriminate || reflexivity))) B32)).
  assert (B12 : Z.testbit y 12 = false) by (exact (usef _ _ _ (E2 32 (ltac:(split; discriminate || reflexivity))) B0)).
  assert (B47 : Z.testbit y 47 = false) by (exact (usef _ _ _ (E1 35 (ltac:(split; discriminate || reflexivity))) B35)).
  assert (B15 : Z.testbit y 15 = false) by (exact (usef _ _ _ (E2 35 (ltac:(split; discriminate || reflexivity))) B3)).
  assert (B53 : Z.testbit y 53 = false) by (exact (usef _ _ _ (E1 41 (ltac:(split; discriminate || reflexivity))) B41)).
  assert (B56 : Z.testbit y 56 = false) by (exact (usef _ _ _ (E1 44 (ltac:(split; discriminate || reflexivity))) B44)).
  apply Z.bits_inj'. intros n Hn. rewrite Z.bits_0.
  destruct (Z_lt_le_dec n 64); [|apply (W_high 64); auto; lia].
  clear E1 E2 Hy.
  assert (H : n = 0 \/ n = 1 \/ n = 2 \/ n = 3 \/ n = 4 \/ n = 5 \/ n = 6 \/ n = 7 \/ n = 8 \/ n = 9 \/ n = 10 \/ n = 11 \/ n = 12 \/ n = 13 \/ n = 14 \/ n = 15 \/ n = 16 \/ n = 17 \/ n = 18 \/ n = 19 \/ n = 20 \/ n = 21 \/ n = 22 \/ n = 23 \/ n = 24 \/ n = 25 \/ n = 26 \/ n = 27 \/ n = 28 \/ n = 29 \/ n = 30 \/ n = 31 \/ n = 32 \/ n = 33 \/ n = 34 \/ n = 35 \/ n = 36 \/ n = 37 \/ n = 38 \/ n = 39 \/ n = 40 \/ n = 41 \/ n = 42 \/ n = 43 \/ n = 44 \/ n = 45 \/ n = 46 \/ n = 47 \/ n = 48 \/ n = 49 \/ n = 50 \/ n = 51 \/ n = 52 \/ n = 53 \/ n = 54 \/ n = 55 \/ n = 56 \/ n = 57 \/ n = 58 \/ n = 59 \/ n = 60 \/ n = 61 \/ n = 62 \/ n = 63) by lia.
  repeat (destruct H as [-> | H]; [assumption|]). subst n. assumption.
Qed.
