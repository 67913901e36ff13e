(** Lemmas about outcomes and arrays. *)
From Coq Require Import ZArith List Bool Lia Permutation.
From Verif Require Import Base.
Import ListNotations.
Open Scope nat_scope.

Lemma bind_Ok {A B} (m : outcome A) (k : A -> outcome B) b :
  bind m k = Ok b -> exists a, m = Ok a /\ k a = Ok b.
Proof. destruct m; simpl; intros; try discriminate. eauto. Qed.

Lemma mapM_Ok {A B} (f : A -> outcome B) (h : A -> B) l :
  (forall a, In a l -> f a = Ok (h a)) -> mapM f l = Ok (map h l).
Proof.
  induction l; simpl; intros H; auto.
  rewrite H by auto. simpl. rewrite IHl by auto. reflexivity.
Qed.

Lemma mapM_inv {A B} (f : A -> outcome B) l bs :
  mapM f l = Ok bs -> Forall2 (fun a b => f a = Ok b) l bs.
Proof.
  revert bs; induction l; simpl; intros bs H.
  - injection H as <-. constructor.
  - apply bind_Ok in H as (b & Hb & H). apply bind_Ok in H as (bs' & Hbs & H).
    injection H as <-. constructor; auto.
Qed.

Lemma Forall2_len {A B} (R : A -> B -> Prop) l l' : Forall2 R l l' -> length l = length l'.
Proof. induction 1; simpl; auto. Qed.

Lemma mapM_length {A B} (f : A -> outcome B) l bs : mapM f l = Ok bs -> length bs = length l.
Proof. intros H. apply mapM_inv in H. symmetry. eapply Forall2_len; eauto. Qed.

Lemma Forall2_nth {A B} (R : A -> B -> Prop) l l' i a :
  Forall2 R l l' -> nth_error l i = Some a -> exists b, nth_error l' i = Some b /\ R a b.
Proof.
  intros H; revert i; induction H; intros [|i]; simpl; intros E; try discriminate; eauto.
  injection E as <-. eauto.
Qed.

Lemma mapM_nth {A B} (f : A -> outcome B) l bs i a :
  mapM f l = Ok bs -> nth_error l i = Some a -> exists b, nth_error bs i = Some b /\ f a = Ok b.
Proof. intros H. apply mapM_inv in H. intros E. eapply Forall2_nth in H; eauto. Qed.

Lemma mapM_ext {A B} (f f' : A -> outcome B) l :
  (forall a, In a l -> f a = f' a) -> mapM f l = mapM f' l.
Proof.
  induction l; simpl; intros H; auto. rewrite H, IHl by auto. reflexivity.
Qed.

Lemma rd_Ok {A} (l : list A) i d : i < length l -> rd l i = Ok (nth i l d).
Proof.
  intros H. unfold rd. rewrite (nth_error_nth' l d H). reflexivity.
Qed.

Lemma rd_inv {A} (l : list A) i a : rd l i = Ok a -> nth_error l i = Some a.
Proof. unfold rd. destruct nth_error; congruence. Qed.

Lemma upd_length {A} (l : list A) i a : length (upd l i a) = length l.
Proof. revert i; induction l; intros [|i]; simpl; auto. Qed.

Lemma nth_upd {A} (l : list A) i j a d :
  nth j (upd l i a) d = if (i =? j) && (j <? length l) then a else nth j l d.
Proof.
  revert i j; induction l; intros [|i] [|j]; simpl; auto.
  - destruct (i =? j); reflexivity.
  - rewrite IHl. destruct (i =? j); simpl; auto.
Qed.

Lemma nth_upd_eq {A} (l : list A) i a d : i < length l -> nth i (upd l i a) d = a.
Proof.
  intros H. rewrite nth_upd. rewrite Nat.eqb_refl.
  destruct (Nat.ltb_spec i (length l)); simpl; auto; lia.
Qed.

Lemma nth_upd_ne {A} (l : list A) i j a d : i <> j -> nth j (upd l i a) d = nth j l d.
Proof.
  intros H. rewrite nth_upd. destruct (Nat.eqb_spec i j); simpl; auto; lia.
Qed.

Lemma wr_Ok {A} (l : list A) i a : i < length l -> wr l (i, a) = Ok (upd l i a).
Proof. intros H. unfold wr; simpl. destruct (Nat.ltb_spec i (length l)); auto; lia. Qed.

Lemma wr_inv {A} (l l' : list A) i a : wr l (i, a) = Ok l' -> i < length l /\ l' = upd l i a.
Proof.
  unfold wr; simpl. destruct (Nat.ltb_spec i (length l)); intros E; inversion E; auto.
Qed.

Lemma writes_length {A} ws (l l' : list A) : writes ws l = Ok l' -> length l' = length l.
Proof.
  revert l; induction ws as [|[i a] ws]; simpl; intros l H.
  - injection H as <-; auto.
  - apply bind_Ok in H as (l1 & H1 & H2). apply wr_inv in H1 as [H1 ->].
    rewrite (IHws _ H2), upd_length; auto.
Qed.

Lemma writes_inbounds {A} ws (l l' : list A) :
  writes ws l = Ok l' -> forall i a, In (i, a) ws -> i < length l.
Proof.
  revert l; induction ws as [|[i a] ws]; simpl; intros l H; [tauto|].
  apply bind_Ok in H as (l1 & H1 & H2). apply wr_inv in H1 as [H1 ->].
  intros i' a' [E|E]; [inversion E; subst; auto|].
  specialize (IHws _ H2 _ _ E). rewrite upd_length in IHws; auto.
Qed.

Lemma writes_total {A} ws (l : list A) :
  (forall i a, In (i, a) ws -> i < length l) -> exists l', writes ws l = Ok l'.
Proof.
  revert l; induction ws as [|[i a] ws]; simpl; intros l H; [eauto|].
  rewrite wr_Ok by eauto. simpl. apply IHws. intros. rewrite upd_length. eauto.
Qed.

(** value after the writes: the last write to the index, if any *)
Lemma writes_nth {A} ws (l l' : list A) i d :
  writes ws l = Ok l' ->
  (~ In i (map fst ws) /\ nth i l' d = nth i l d) \/ (exists a, In (i, a) ws /\ nth i l' d = a).
Proof.
  revert l; induction ws as [|[j a] ws]; simpl; intros l H.
  - injection H as <-. auto.
  - apply bind_Ok in H as (l1 & H1 & H2). apply wr_inv in H1 as [H1 ->].
    destruct (IHws _ H2) as [[Hn E]|(b & Hb & E)].
    + destruct (Nat.eq_dec j i) as [->|Hne].
      * right. exists a. rewrite nth_upd_eq in E by auto. auto.
      * left. rewrite nth_upd_ne in E by auto. split; auto. intros [?|?]; auto.
    + right; eauto.
Qed.

Lemma nth_ext' {A} (l l' : list A) d :
  length l = length l' -> (forall i, i < length l -> nth i l d = nth i l' d) -> l = l'.
Proof. intros. apply (nth_ext _ _ d d); auto. Qed.

Lemma nth_map_seq {A} (f : nat -> A) n i d : i < n -> nth i (map f (seq 0 n)) d = f i.
Proof.
  intros H. rewrite (nth_indep _ d (f 0)) by (rewrite map_length, seq_length; auto).
  rewrite map_nth, seq_nth by auto. reflexivity.
Qed.

(** A loop nest that visits every index, always writing the value [F index]. *)
Lemma writes_fun {A} (F : nat -> A) ws (l : list A) :
  (forall i a, In (i, a) ws -> i < length l /\ a = F i) ->
  (forall i, i < length l -> In i (map fst ws)) ->
  writes ws l = Ok (map F (seq 0 (length l))).
Proof.
  intros H1 H2.
  destruct (writes_total ws l) as [l' Hl']; [intros i a Hi; apply (H1 i a Hi)|].
  rewrite Hl'. f_equal. pose proof (writes_length _ _ _ Hl') as Hlen.
  destruct l as [|x l0].
  - simpl. destruct l'; [reflexivity|discriminate].
  - set (l := x :: l0) in *.
    apply (nth_ext' _ _ x).
    + rewrite map_length, seq_length. auto.
    + intros i Hi. rewrite Hlen in Hi. rewrite nth_map_seq by auto.
      destruct (writes_nth _ _ _ i x Hl') as [[Hn _]|(a & Ha & ->)].
      * destruct Hn; auto.
      * apply (H1 i a Ha).
Qed.

(** A loop nest with pairwise different indices. *)
Lemma writes_nodup {A} ws (l l' : list A) i a d :
  writes ws l = Ok l' -> NoDup (map fst ws) -> In (i, a) ws -> nth i l' d = a.
Proof.
  intros H Hnd Hin.
  destruct (writes_nth _ _ _ i d H) as [[Hn _]|(b & Hb & ->)].
  - destruct Hn. apply (in_map fst) in Hin. auto.
  - clear H. induction ws as [|[j c] ws]; simpl in *; [tauto|].
    inversion Hnd; subst.
    destruct Hin as [E|Hin], Hb as [E'|Hb]; try (inversion E; inversion E'; subst; congruence).
    + inversion E; subst. apply (in_map fst) in Hb. simpl in Hb. tauto.
    + inversion E'; subst. apply (in_map fst) in Hin. simpl in Hin. tauto.
    + auto.
Qed.

Lemma In_range a b i : In i (range a b) <-> a <= i < b.
Proof. unfold range. rewrite in_seq. lia. Qed.

Lemma length_list_prod {A B} (l : list A) (l' : list B) : length (list_prod l l') = length l * length l'.
Proof. apply prod_length. Qed.
