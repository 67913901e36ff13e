(** Python calls: equal calls, accepted calls and their meaning. *)
From Coq Require Import ZArith Bool Lia String List Permutation.
From Verif Require Import Base Arith M_Variogram M_Dsfmt M_Random M_Field M_Api M_Bind S_Bind P_Bind.
Import ListNotations.
Open Scope string_scope.

Section P.
Context {L : Lib}.
Notation pyobj := (pyobj L).
Notation kwargs := (kwargs L).
Notation param := (@param L).
Variables (rec : recursion) (fuel : nat) (now : Z).
Notation py := (py_call (L := L) rec fuel now).

Lemma py_same f (pos pos' : list pyobj) (kw kw' : kwargs) st : resolve f pos kw = resolve f pos' kw' -> py f pos kw st = py f pos' kw' st.
Proof. intros E. unfold py_call. rewrite E. reflexivity. Qed.
Lemma in_sigf f n : named f -> In n (parameters f) -> In n (names (sigf (L := L) f)).
Proof. intros Hf H. rewrite names_sigf; auto. Qed.
Lemma has_not (kw : kwargs) n : ~ In n (map fst kw) -> has kw n = false.
Proof. intros H. destruct (has kw n) eqn:E; auto. apply has_In in E. contradiction. Qed.

Lemma kw_or_pos f (pos : list pyobj) (kw : kwargs) n x st : named f -> nth_error (parameters f) (List.length pos) = Some n -> ~ In n (map fst kw) ->
  py f (pos ++ [x]) kw st = py f pos ((n, x) :: kw) st.
Proof.
  intros Hf Hn Hk. apply py_same. rewrite !resolve_bindf by auto. unfold bindf.
  rewrite no_other_cons by (apply in_sigf; auto; eapply nth_error_In; exact Hn).
  rewrite <- (fill_kw n x kw (has_not _ _ Hk)); [reflexivity|rewrite names_sigf by auto; apply names_nodup|rewrite names_sigf by auto; exact Hn].
Qed.
Lemma kw_order f (pos : list pyobj) (kw kw' : kwargs) st : named f -> once kw -> Permutation kw kw' -> py f pos kw st = py f pos kw' st.
Proof.
  intros Hf Ho P. apply py_same. rewrite !resolve_bindf by auto. unfold bindf, no_other. rewrite (forallb_perm _ _ _ P), (fill_perm kw kw' P Ho). reflexivity.
Qed.
Lemma sig_defaults f n x : named f -> In (n, x) (defaults f) -> forall p : param, In p (sigf f) -> p_name p = n -> p_default p = Some x.
Proof.
  intros [->|[->|[->| ->]]] H p Hp E; cbn [defaults In num_default] in H; repeat (destruct H as [H|H]); try contradiction; injection H as <- <-;
    cbn [sigf sig_variogram sig_dims sig_advanced app In] in Hp; repeat (destruct Hp as [Hp|Hp]); try contradiction; subst p; cbn [p_name req dflt] in E; try discriminate; reflexivity.
Qed.
Lemma default_in f n (x : pyobj) : In (n, x) (defaults f) -> In n (parameters f).
Proof. destruct f; cbn; intuition (match goal with H : (_, _) = _ |- _ => injection H as <- <- end; auto 20). Qed.
Lemma kw_default f (pos : list pyobj) (kw : kwargs) n x st : named f -> In (n, x) (defaults f) -> ~ In n (map fst kw) ->
  (forall i, nth_error (parameters f) i = Some n -> (List.length pos <= i)%nat) ->
  py f pos ((n, x) :: kw) st = py f pos kw st.
Proof.
  intros Hf Hd Hk Hi. pose proof (default_in _ _ _ Hd) as Hin. apply py_same. rewrite !resolve_bindf by auto. unfold bindf.
  rewrite no_other_cons by (apply in_sigf; auto). apply In_nth_error in Hin as [i Ei].
  rewrite (fill_default n x kw (has_not _ _ Hk) (sigf f) pos i); [reflexivity|rewrite names_sigf by auto; apply names_nodup|rewrite names_sigf by auto; exact Ei|auto|apply sig_defaults; auto].
Qed.

(** ** accepted calls *)
Definition kindf (n : string) : kind :=
  if n =? "type" then KString else if n =? "variogram" then KVario
  else if (n =? "nx") || (n =? "ny") || (n =? "nz") then KSize else if (n =? "padx") || (n =? "pady") || (n =? "padz") then KInt else KDouble.
Lemma kinds_sigf f : named f -> map p_kind (sigf (L := L) f) = map kindf (parameters f).
Proof. intros [->|[->|[->| ->]]]; reflexivity. Qed.
Definition fix_type (n : string) (x : pyobj) : pyobj := if n =? "type" then unwrap x else x.

Lemma whole_iff (x : pyobj) z : whole x z <-> as_integer x = Some z.
Proof.
  unfold whole, as_integer. destruct x; split; intros H; try (destruct H as [H|[[H _]|[H _]]]; discriminate); try discriminate.
  - destruct H as [H|[[H ->]|[H ->]]]; try discriminate; injection H as ->; reflexivity.
  - destruct b; injection H as <-; auto.
  - destruct H as [H|[[H _]|[H _]]]; try discriminate. injection H as ->. reflexivity.
  - injection H as ->. auto.
Qed.
Lemma fits_size_iff z : fits_size z = true <-> (0 <= z < 2 ^ 64)%Z.
Proof. unfold fits_size. rewrite andb_true_iff, Z.leb_le, Z.ltb_lt. reflexivity. Qed.
Lemma fits_int_iff z : fits_int z = true <-> (- 2 ^ 31 <= z < 2 ^ 31)%Z.
Proof. unfold fits_int. rewrite andb_true_iff, Z.leb_le, Z.ltb_lt. reflexivity. Qed.
Lemma float_ok_iff z : float_ok z = true <-> (Z.abs z < 2 ^ 1024 - 2 ^ 970)%Z.
Proof. unfold float_ok. apply Z.ltb_lt. Qed.
Local Opaque fits_size fits_int float_ok.

Lemma load_size_iff (x : pyobj) : (exists a, load KSize x = Some a) <-> a_size x.
Proof.
  unfold load, a_size. split.
  - intros [a H]. destruct (as_integer x) as [z|] eqn:E; [|discriminate]. exists z. rewrite whole_iff. split; [exact E|].
    apply fits_size_iff. destruct (fits_size z); [reflexivity|discriminate].
  - intros (z & W & H). apply whole_iff in W. apply fits_size_iff in H. rewrite W, H. eauto.
Qed.
Lemma load_int_iff (x : pyobj) : (exists a, load KInt x = Some a) <-> an_int x.
Proof.
  unfold load, an_int. split.
  - intros [a H]. destruct (as_integer x) as [z|] eqn:E; [|discriminate]. exists z. rewrite whole_iff. split; [exact E|].
    apply fits_int_iff. destruct (fits_int z); [reflexivity|discriminate].
  - intros (z & W & H). apply whole_iff in W. apply fits_int_iff in H. rewrite W, H. eauto.
Qed.
Lemma load_double_iff (x : pyobj) : (exists a, load KDouble x = Some a) <-> a_float x.
Proof.
  unfold load, a_float. split.
  - intros [a H]. destruct (as_integer x) as [z|] eqn:E.
    + right. exists z. rewrite whole_iff. split; [exact E|]. apply float_ok_iff. destruct x; try discriminate; destruct (float_ok z); auto; discriminate.
    + destruct x; try discriminate. left. eauto.
  - intros [[y ->]|(z & W & H)]; [eauto|]. apply whole_iff in W. apply float_ok_iff in H. rewrite W, H. destruct x; eauto.
Qed.
Lemma load_name_iff (x : pyobj) : (exists a, load KString (unwrap x) = Some a) <-> a_name x.
Proof.
  unfold load, a_name. split.
  - intros [a H]. destruct x; try discriminate; cbn [unwrap] in H; [eauto|]. destruct x; try discriminate. eauto.
  - intros [s [->| ->]]; cbn; eauto.
Qed.
Lemma load_vario_iff (x : pyobj) : (exists a, load KVario x = Some a) <-> a_variogram x \/ x = PNone.
Proof.
  unfold load, a_variogram. split.
  - intros [a H]. destruct x; try discriminate; eauto.
  - intros [[v ->]| ->]; eauto.
Qed.
Lemma load_takes n (x : pyobj) : (exists a, load (kindf n) (fix_type n x) = Some a) <-> takes n x.
Proof.
  unfold kindf, fix_type, takes. destruct (n =? "type"); [apply load_name_iff|]. destruct (n =? "variogram"); [apply load_vario_iff|].
  destruct (_ || _); [apply load_size_iff|]. destruct (_ || _); [apply load_int_iff|apply load_double_iff].
Qed.
End P.
