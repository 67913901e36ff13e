(** Grid indexing (C44). *)
From Coq Require Import ZArith List Bool Lia.
From Verif Require Import Base M_Grid P_Base.
Import ListNotations.
Open Scope nat_scope.

Lemma GetIJ_GetIndex ni nj i j : i < ni -> j < nj -> GetIJ ni nj (GetIndex2 ni i j) = (i, j).
Proof.
  intros Hi Hj. unfold GetIJ, GetIndex2.
  rewrite Nat.mod_add by lia. rewrite (Nat.mod_small i ni) by auto.
  replace (i + j * ni - i) with (j * ni) by lia. rewrite Nat.div_mul by lia.
  rewrite Nat.mod_small by auto. reflexivity.
Qed.

Lemma GetIndex2_lt ni nj i j : i < ni -> j < nj -> GetIndex2 ni i j < ni * nj.
Proof. intros. unfold GetIndex2. nia. Qed.

Lemma GetIndex_GetIJ ni nj x : x < ni * nj ->
  let '(i, j) := GetIJ ni nj x in i < ni /\ j < nj /\ GetIndex2 ni i j = x.
Proof.
  intros H. unfold GetIJ, GetIndex2.
  assert (ni <> 0) by nia. assert (nj <> 0) by nia.
  pose proof (Nat.div_mod x ni ltac:(auto)) as E.
  pose proof (Nat.mod_upper_bound x ni ltac:(auto)).
  replace (x - x mod ni) with (x / ni * ni) by lia. rewrite Nat.div_mul by auto.
  assert (x / ni < nj) by (apply Nat.div_lt_upper_bound; auto).
  rewrite (Nat.mod_small (x / ni) nj) by auto.
  repeat split; auto. lia.
Qed.

Lemma GetIJK_GetIndex ni nj i j k : i < ni -> j < nj -> GetIJK ni nj (GetIndex3 ni nj i j k) = (i, j, k).
Proof.
  intros Hi Hj. unfold GetIJK, GetIndex3.
  replace (i + j * ni + k * ni * nj) with (i + (j + k * nj) * ni) by lia.
  rewrite Nat.mod_add by lia. rewrite (Nat.mod_small i ni) by auto.
  replace (i + (j + k * nj) * ni - i) with ((j + k * nj) * ni) by lia. rewrite Nat.div_mul by lia.
  rewrite Nat.mod_add by lia. rewrite (Nat.mod_small j nj) by auto.
  replace (i + (j + k * nj) * ni - j * ni - i) with (k * nj * ni) by lia.
  rewrite Nat.div_mul by lia. rewrite Nat.div_mul by lia. reflexivity.
Qed.

Lemma GetIndex3_lt ni nj nk i j k : i < ni -> j < nj -> k < nk -> GetIndex3 ni nj i j k < ni * nj * nk.
Proof.
  intros. unfold GetIndex3.
  assert (j * ni + i < nj * ni) by nia.
  assert (k * (ni * nj) + (j * ni + i) < nk * (ni * nj)) by nia. nia.
Qed.

Lemma GetIndex_GetIJK ni nj nk x : x < ni * nj * nk ->
  let '(i, j, k) := GetIJK ni nj x in i < ni /\ j < nj /\ k < nk /\ GetIndex3 ni nj i j k = x.
Proof.
  intros H. unfold GetIJK, GetIndex3.
  assert (ni <> 0) by nia. assert (nj <> 0) by nia.
  pose proof (Nat.div_mod x ni ltac:(auto)) as E.
  pose proof (Nat.mod_upper_bound x ni ltac:(auto)).
  replace (x - x mod ni) with (x / ni * ni) by lia. rewrite Nat.div_mul by auto.
  pose proof (Nat.div_mod (x / ni) nj ltac:(auto)) as E'.
  pose proof (Nat.mod_upper_bound (x / ni) nj ltac:(auto)).
  set (i := x mod ni) in *. set (j := (x / ni) mod nj) in *. set (k := x / ni / nj) in *.
  assert (Hx : x = i + j * ni + k * ni * nj) by nia.
  replace (x - j * ni - i) with (k * nj * ni) by lia. rewrite !Nat.div_mul by auto.
  repeat split; auto.
  unfold k. rewrite Nat.div_div by auto. apply Nat.div_lt_upper_bound; nia.
Qed.

Lemma GetIndex3_inj ni nj i j k i' j' k' : i < ni -> j < nj -> i' < ni -> j' < nj ->
  GetIndex3 ni nj i j k = GetIndex3 ni nj i' j' k' -> i = i' /\ j = j' /\ k = k'.
Proof.
  intros. pose proof (GetIJK_GetIndex ni nj i j k) as A. pose proof (GetIJK_GetIndex ni nj i' j' k') as B.
  rewrite H3 in A. rewrite A in B by auto. specialize (B H1 H2). inversion B; auto.
Qed.

Lemma GetIndex2_inj ni i j i' j' : i < ni -> i' < ni ->
  GetIndex2 ni i j = GetIndex2 ni i' j' -> i = i' /\ j = j'.
Proof.
  intros. pose proof (GetIndex3_inj ni (S (j + j')) i j 0 i' j' 0) as A.
  unfold GetIndex2, GetIndex3 in *. rewrite !Nat.mul_0_l, !Nat.add_0_r in A.
  destruct A as (? & ? & _); auto; lia.
Qed.

(** writing one cell changes that cell only *)
Lemma set_cell3 {A} ni nj (l l' : list A) i j k a i' j' k' d :
  i < ni -> j < nj -> i' < ni -> j' < nj ->
  wr l (GetIndex3 ni nj i j k, a) = Ok l' ->
  nth (GetIndex3 ni nj i' j' k') l' d =
  if (i =? i') && (j =? j') && (k =? k') then a else nth (GetIndex3 ni nj i' j' k') l d.
Proof.
  intros Hi Hj Hi' Hj' H. apply wr_inv in H as [Hlt ->].
  destruct (Nat.eqb_spec i i'), (Nat.eqb_spec j j'), (Nat.eqb_spec k k'); subst; simpl;
    try (rewrite nth_upd_eq; auto; fail);
    rewrite nth_upd_ne; auto; intros E; apply GetIndex3_inj in E; tauto.
Qed.

Lemma set_cell2 {A} ni (l l' : list A) i j a i' j' d :
  i < ni -> i' < ni ->
  wr l (GetIndex2 ni i j, a) = Ok l' ->
  nth (GetIndex2 ni i' j') l' d = if (i =? i') && (j =? j') then a else nth (GetIndex2 ni i' j') l d.
Proof.
  intros Hi Hi' H. apply wr_inv in H as [Hlt ->].
  destruct (Nat.eqb_spec i i'), (Nat.eqb_spec j j'); subst; simpl;
    try (rewrite nth_upd_eq; auto; fail);
    rewrite nth_upd_ne; auto; intros E; apply GetIndex2_inj in E; tauto.
Qed.
