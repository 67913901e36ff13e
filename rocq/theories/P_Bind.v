(** Keyword, positional and default arguments. *)
From Coq Require Import ZArith Bool Lia String List Permutation.
From Verif Require Import Base Arith M_Variogram M_Dsfmt M_Random M_Field M_Api M_Bind S_Bind.
Import ListNotations.
Open Scope string_scope.

Section P.
Context {L : Lib}.
Notation pyobj := (pyobj L).
Notation kwargs := (kwargs L).
Notation param := (@param L).

Lemma eqb_neq a b : a <> b -> (a =? b) = false.
Proof. intros H. apply String.eqb_neq. exact H. Qed.

Lemma has_In (kw : kwargs) n : has kw n = true <-> In n (map fst kw).
Proof.
  unfold has. rewrite existsb_exists, in_map_iff. split.
  - intros (e & H & E). apply String.eqb_eq in E. exists e. auto.
  - intros (e & E & H). exists e. split; [exact H|]. apply String.eqb_eq. exact E.
Qed.
Lemma has_cons (kw : kwargs) n x m : has ((n, x) :: kw) m = (n =? m) || has kw m.
Proof. reflexivity. Qed.
Lemma find_In (kw : kwargs) n x : once kw -> (find kw n = Some x <-> In (n, x) kw).
Proof.
  unfold once. induction kw as [|[m y] kw IH]; cbn [find map fst In]; intros H; [split; [discriminate|tauto]|].
  inversion H as [|? ? H1 H2]; subst. destruct (String.eqb_spec m n) as [->|N].
  - split; [intros [= ->]; auto|]. intros [[= ->]|I]; [reflexivity|]. exfalso. apply H1. apply (in_map fst) in I. exact I.
  - rewrite IH by auto. split; [auto|]. intros [[= -> _]|I]; [contradiction|auto].
Qed.
Lemma find_has (kw : kwargs) n : has kw n = match find kw n with Some _ => true | None => false end.
Proof. induction kw as [|[m y] kw IH]; [reflexivity|]. rewrite has_cons. cbn [find]. destruct (m =? n); auto. Qed.

(** ** the order of keywords *)
Section Perm.
Variables kw kw' : kwargs.
Hypothesis P : Permutation kw kw'.
Hypothesis O : once kw.
Lemma once_perm : once kw'.
Proof. unfold once in *. apply (Permutation_NoDup (Permutation_map fst P)). exact O. Qed.
Lemma find_perm n : find kw n = find kw' n.
Proof.
  destruct (find kw n) as [x|] eqn:E.
  - apply find_In in E; auto. symmetry. apply find_In; [apply once_perm|]. apply (Permutation_in _ P E).
  - destruct (find kw' n) as [x|] eqn:E'; auto. apply find_In in E'; [|apply once_perm].
    apply (Permutation_in _ (Permutation_sym P)) in E'. apply find_In in E'; auto. congruence.
Qed.
Lemma has_perm n : has kw n = has kw' n.
Proof. rewrite !find_has, find_perm. reflexivity. Qed.
Lemma fill_perm sig pos : fill (L := L) sig pos kw = fill sig pos kw'.
Proof.
  revert pos. induction sig as [|p sig IH]; intros [|x pos]; cbn [fill]; auto.
  - rewrite find_perm, IH. reflexivity.
  - rewrite has_perm, IH. reflexivity.
Qed.
End Perm.
Lemma forallb_perm {T} (f : T -> bool) l l' : Permutation l l' -> forallb f l = forallb f l'.
Proof.
  intros P. induction P; cbn; auto.
  - rewrite IHP. reflexivity.
  - destruct (f x), (f y); reflexivity.
  - congruence.
Qed.

(** ** one argument by keyword instead of by position *)
Definition names (sig : list param) : list string := map p_name sig.
Lemma fill_other sig n x (kw : kwargs) : ~ In n (names sig) -> forall pos, fill sig pos ((n, x) :: kw) = fill sig pos kw.
Proof.
  induction sig as [|p sig IH]; cbn [names map In fill]; intros H [|y pos]; auto.
  - cbn [find]. rewrite (eqb_neq n (p_name p)) by (intros ->; tauto). rewrite IH by tauto. reflexivity.
  - rewrite has_cons, (eqb_neq n (p_name p)) by (intros ->; tauto). cbn [orb]. rewrite IH by tauto. reflexivity.
Qed.
Lemma fill_kw n x (kw : kwargs) : has kw n = false -> forall sig pos, NoDup (names sig) -> nth_error (names sig) (List.length pos) = Some n ->
  fill sig (pos ++ [x]) kw = fill sig pos ((n, x) :: kw).
Proof.
  intros H. induction sig as [|p sig IH]; intros pos N E; [destruct pos; discriminate|].
  inversion N as [|? ? N1 N2]; subst. destruct pos as [|y pos]; cbn [List.length nth_error names map] in E; cbn [app fill].
  - injection E as E. cbn [find]. rewrite E, H, String.eqb_refl. rewrite fill_other; [reflexivity|]. rewrite <- E. exact N1.
  - rewrite has_cons. assert (NE : n <> p_name p).
    { intros ->. apply N1. eapply nth_error_In. exact E. }
    rewrite (eqb_neq _ _ NE). cbn [orb]. rewrite IH by auto. reflexivity.
Qed.
Lemma fill_default n x (kw : kwargs) : has kw n = false -> forall sig pos i, NoDup (names sig) -> nth_error (names sig) i = Some n ->
  (List.length pos <= i)%nat -> (forall p, In p sig -> p_name p = n -> p_default p = Some x) ->
  fill sig pos ((n, x) :: kw) = fill sig pos kw.
Proof.
  intros H. induction sig as [|p sig IH]; intros pos i N E Hi D; [destruct i; discriminate|].
  inversion N as [|? ? N1 N2]; subst. destruct i as [|i]; cbn [nth_error names map] in E.
  - destruct pos as [|y pos]; [|cbn [List.length] in Hi; lia]. injection E as E. cbn [fill find]. rewrite E, String.eqb_refl.
    rewrite find_has in H. destruct (find kw n); [discriminate|]. rewrite (D p) by (cbn; auto). rewrite fill_other; [reflexivity|]. rewrite <- E. exact N1.
  - assert (NE : n <> p_name p) by (intros ->; apply N1; eapply nth_error_In; exact E).
    destruct pos as [|y pos]; cbn [fill].
    + cbn [find]. rewrite (eqb_neq _ _ NE). rewrite (IH [] i); auto; [cbn; lia|]. intros q Hq. apply D. cbn. auto.
    + rewrite has_cons, (eqb_neq _ _ NE). cbn [orb]. cbn [List.length] in Hi. rewrite (IH pos i); auto; [lia|]. intros q Hq. apply D. cbn. auto.
Qed.
Lemma no_other_cons sig n x (kw : kwargs) : In n (names sig) -> no_other sig ((n, x) :: kw) = no_other sig kw.
Proof.
  intros H. unfold no_other. cbn [forallb fst]. replace (existsb _ sig) with true; [reflexivity|]. symmetry.
  apply existsb_exists. apply in_map_iff in H as (p & E & Hp). exists p. split; [exact Hp|]. apply String.eqb_eq. exact E.
Qed.

(** ** the functions *)
Definition sigf (f : fn) : list param := match f with FVariogram => sig_variogram | FAdvanced => sig_advanced | FSize | FSimulate => sig_dims | _ => [] end.
Definition actf (f : fn) : list carg -> option (@action L) :=
  match f with FVariogram => act_variogram | FAdvanced => act_advanced | FSize => act_dims (@CSize L) | FSimulate => act_dims (@CSimulate L) | _ => fun _ => None end.
Definition pre (f : fn) (xs : list pyobj) : list pyobj := match f, xs with FVariogram, x :: xs => unwrap x :: xs | _, _ => xs end.
Definition bindf (f : fn) (pos : list pyobj) (kw : kwargs) : option (list carg) :=
  if no_other (sigf f) kw then obind (fill (sigf f) pos kw) (fun xs => load_all (map p_kind (sigf f)) (pre f xs)) else None.

Lemma names_sigf f : named f -> names (sigf f) = parameters f.
Proof. intros [->|[->|[->| ->]]]; reflexivity. Qed.
Lemma names_nodup f : NoDup (parameters f).
Proof.
  assert (D : forall l, nodup string_dec l = l -> NoDup l) by (intros l E; rewrite <- E; apply NoDup_nodup).
  destruct f; apply D; reflexivity.
Qed.

Lemma find_remove (kw : kwargs) n m : n <> m -> find (remove kw n) m = find kw m.
Proof.
  intros H. unfold remove. induction kw as [|[k x] kw IH]; cbn [filter find fst]; [reflexivity|].
  destruct (String.eqb_spec k n) as [->|N]; cbn [negb].
  - rewrite IH, (eqb_neq _ _ H). reflexivity.
  - cbn [find]. rewrite IH. reflexivity.
Qed.
Lemma has_remove (kw : kwargs) n : has (remove kw n) n = false.
Proof.
  unfold remove. induction kw as [|[k x] kw IH]; cbn [filter fst]; [reflexivity|].
  destruct (k =? n) eqn:E; cbn [negb]; [exact IH|]. rewrite has_cons, E. exact IH.
Qed.
Lemma fill_remove (kw : kwargs) n sig : ~ In n (names sig) -> fill sig [] (remove kw n) = fill sig [] kw.
Proof.
  induction sig as [|p sig IH]; cbn [names map In fill]; intros H; [reflexivity|].
  rewrite find_remove by (intros ->; tauto). rewrite IH by tauto. reflexivity.
Qed.
Lemma no_other_remove sig (kw : kwargs) n : In n (names sig) -> no_other sig (remove kw n) = no_other sig kw.
Proof.
  intros H. unfold remove. induction kw as [|[k x] kw IH]; [reflexivity|]. cbn [filter fst].
  destruct (String.eqb_spec k n) as [->|N]; cbn [negb].
  - rewrite no_other_cons by auto. exact IH.
  - unfold no_other in *. cbn [forallb]. rewrite IH. reflexivity.
Qed.

Definition tail_sig : list param := tl sig_variogram.
Lemma fill_type pos (kw : kwargs) : fill sig_variogram pos kw = fill (req "type" KString :: tail_sig) pos kw.
Proof. reflexivity. Qed.
Lemma resolve_bindf f pos (kw : kwargs) : named f -> resolve f pos kw = obind (bindf f pos kw) (actf f).
Proof.
  intros [->|[->|[->| ->]]]; unfold resolve, ext_call, bindf, bind_named; cbn [sigf actf pre];
    try (destruct (no_other _ kw); [|reflexivity]; destruct (fill _ pos kw); reflexivity).
  destruct pos as [|x pos].
  - destruct (find kw "type") as [x|] eqn:E.
    + rewrite (no_other_remove sig_variogram kw "type") by (cbn; auto). destruct (no_other sig_variogram kw); [|reflexivity].
      rewrite (fill_type [] kw), (fill_type [unwrap x]). cbn [fill p_name req]. rewrite has_remove, E.
      rewrite fill_remove by (vm_compute; intuition discriminate).
      match goal with |- context [fill ?s [] kw] => destruct (fill s [] kw) end; reflexivity.
    + destruct (no_other sig_variogram kw); [|reflexivity]. rewrite !fill_type. cbn [fill p_name req]. rewrite E. reflexivity.
  - destruct (no_other sig_variogram kw); [|destruct (has kw "type"); reflexivity].
    rewrite (fill_type (unwrap x :: pos) kw), (fill_type (x :: pos) kw). cbn [fill p_name req]. destruct (has kw "type"); [reflexivity|].
    match goal with |- context [fill ?s pos kw] => destruct (fill s pos kw) end; reflexivity.
Qed.
End P.
