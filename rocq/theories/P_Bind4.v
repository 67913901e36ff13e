(** Accepted calls are the well-formed ones. *)
From Coq Require Import ZArith Bool Lia String List Permutation.
From Verif Require Import Base Arith M_Variogram M_Dsfmt M_Random M_Field M_Api M_Bind S_Bind P_Bind P_Bind2 P_Bind3.
Import ListNotations.
Open Scope string_scope.

Section P.
Context {L : Lib}.
Notation pyobj := (pyobj L).
Notation kwargs := (kwargs L).
Notation param := (@param L).
Variables (f : fn) (pos : list pyobj) (kw : kwargs).
Hypothesis Hf : named f.
Hypothesis Ho : once kw.

Lemma sig_at i (p : param) : nth_error (sigf f) i = Some p -> nth_error (parameters f) i = Some (p_name p).
Proof. intros H. rewrite <- (names_sigf (L := L) f Hf). unfold names. apply (map_nth_error p_name). exact H. Qed.
Lemma at_sig i n : nth_error (parameters f) i = Some n -> exists p : param, nth_error (sigf f) i = Some p /\ p_name p = n.
Proof.
  rewrite <- (names_sigf (L := L) f Hf). unfold names. rewrite nth_error_map. destruct (nth_error (sigf f) i) as [p|]; [|discriminate].
  intros [= <-]. eauto.
Qed.
Lemma sig_length : List.length (sigf (L := L) f) = List.length (parameters f).
Proof. rewrite <- (names_sigf (L := L) f Hf). unfold names. rewrite map_length. reflexivity. Qed.
Lemma same_index i j n : nth_error (parameters f) i = Some n -> nth_error (parameters f) j = Some n -> i = j.
Proof.
  intros E1 E2. assert (Hi : (i < List.length (parameters f))%nat) by (apply nth_error_Some; congruence).
  apply (proj1 (NoDup_nth_error (parameters f)) (names_nodup f) i j Hi). congruence.
Qed.
Lemma no_other_iff : no_other (sigf f) kw = true <-> forall n x, In (n, x) kw -> In n (parameters f).
Proof.
  unfold no_other. rewrite forallb_forall. split.
  - intros H n x Hin. specialize (H _ Hin). apply existsb_exists in H as (p & Hp & E). apply String.eqb_eq in E. cbn [fst] in E.
    rewrite <- (names_sigf (L := L) f Hf). apply in_map_iff. exists p. auto.
  - intros H [n x] Hin. apply existsb_exists. specialize (H n x Hin). rewrite <- (names_sigf (L := L) f Hf) in H.
    apply in_map_iff in H as (p & E & Hp). exists p. split; auto. apply String.eqb_eq. exact E.
Qed.
Definition def_ok (p : param) : Prop :=
  (forall x, p_default p = Some x <-> In (p_name p, x) (defaults f)) /\ (p_default p = None -> ~ In (p_name p) (map fst (defaults (L := L) f))).
Lemma defaults_ok : Forall def_ok (sigf f).
Proof.
  unfold def_ok. destruct Hf as [->|[->|[->| ->]]]; cbn [sigf sig_variogram sig_dims sig_advanced app];
    repeat (apply Forall_cons; [split; [intros x; cbn; split; [intros E; try discriminate; injection E as <-; auto 20
      |intros E; repeat (destruct E as [E|E]); try contradiction; try discriminate; injection E as <-; reflexivity]|cbn; intuition discriminate]|]); apply Forall_nil.
Qed.
Lemma default_iff i (p : param) : nth_error (sigf f) i = Some p -> def_ok p.
Proof. intros H. eapply Forall_forall; [exact defaults_ok|]. eapply nth_error_In. exact H. Qed.
Lemma default_takes n (x : pyobj) : In (n, x) (defaults f) -> takes n x.
Proof.
  clear Hf.
  assert (W1 : a_size (L := L) (PInt 1)) by (exists 1%Z; split; [left; reflexivity|lia]).
  assert (W2 : an_int (L := L) (PInt (-1))) by (exists (-1)%Z; split; [left; reflexivity|lia]).
  assert (W3 : forall m e, a_float (L := L) (num_default m e)) by (intros; left; eexists; reflexivity).
  destruct f; cbn [defaults In]; intros H; repeat (destruct H as [H|H]); try contradiction; injection H as <- <-; unfold takes; cbn; auto; apply W3.
Qed.

(** the value of a parameter *)
Lemma arg_given i (p : param) x : well_formed f pos kw -> nth_error (sigf f) i = Some p ->
  (arg_of kw pos p i = Some x <-> means f pos kw (p_name p) x).
Proof.
  intros (W1 & W2 & W3 & W4 & W5) Hp. pose proof (sig_at i p Hp) as Hn. unfold arg_of, means.
  destruct (nth_error pos i) as [y|] eqn:E.
  - assert (Hlt : (i < List.length pos)%nat) by (apply nth_error_Some; congruence).
    assert (Hh : has kw (p_name p) = false).
    { destruct (has kw (p_name p)) eqn:X; auto. apply has_In in X. apply in_map_iff in X as ([n' x'] & E' & Hin). cbn [fst] in E'. subst n'.
      specialize (W3 _ _ i Hin Hn). lia. }
    rewrite Hh. split.
    + intros [= <-]. left. left. exists i. auto.
    + intros [[(j & E1 & E2)|Hin]|[N _]].
      * rewrite (same_index j i _ E1 Hn) in E2. congruence.
      * specialize (W3 _ _ i Hin Hn). lia.
      * exfalso. apply (N y). left. exists i. auto.
  - assert (G : forall y, given_as f pos kw (p_name p) y <-> In (p_name p, y) kw).
    { intros y. split; [|intros; right; auto]. intros [(j & E1 & E2)|H]; auto. rewrite (same_index j i _ E1 Hn) in E2. congruence. }
    destruct (find kw (p_name p)) as [y|] eqn:F; cbn [orelse].
    + apply find_In in F; auto. rewrite G. split; [intros [= <-]; auto|]. intros [H|[N _]].
      * apply find_In in F; auto. apply find_In in H; auto. congruence.
      * exfalso. apply (N y). apply G. exact F.
    + assert (N : forall y, ~ given_as f pos kw (p_name p) y).
      { intros y H. apply G in H. apply find_In in H; auto. congruence. }
      destruct (default_iff i p Hp) as [D _]. rewrite D. split; [auto|]. intros [H|[_ H]]; auto. exfalso. apply (N x H).
Qed.

Lemma pre_at (xs : list pyobj) i : List.length xs = List.length (parameters f) ->
  nth_error (pre f xs) i = match nth_error (parameters f) i, nth_error xs i with Some n, Some x => Some (fix_type n x) | _, _ => None end.
Proof.
  intros Hl. assert (X : forall n, In n (tl (parameters f)) -> n <> "type").
  { intros n Hn ->. destruct f; cbn in Hn; intuition discriminate. }
  assert (K : forall j n, nth_error (tl (parameters f)) j = Some n -> forall x : pyobj, fix_type n x = x).
  { intros j n E x. unfold fix_type. rewrite (eqb_neq n "type"); auto. apply X. eapply nth_error_In. exact E. }
  destruct Hf as [E|[E|[E|E]]]; rewrite E in *.
  1:{ destruct xs as [|x xs]; [discriminate|]. destruct i as [|i]; [reflexivity|]. cbn [pre].
      change (nth_error (parameters FVariogram) (S i)) with (nth_error (tl (parameters FVariogram)) i).
      change (nth_error (x :: xs) (S i)) with (nth_error xs i). change (nth_error (unwrap x :: xs) (S i)) with (nth_error xs i).
      destruct (nth_error (tl (parameters FVariogram)) i) as [n|] eqn:En.
      - destruct (nth_error xs i) eqn:Ex; auto. rewrite (K i n En). reflexivity.
      - apply nth_error_None in En. apply nth_error_None. cbn [List.length] in *. cbn in En, Hl. lia. }
  all: cbn [pre]; destruct i as [|i]; [destruct xs; reflexivity|];
    match goal with |- _ = match nth_error (parameters ?g) (S i) with _ => _ end => change (nth_error (parameters g) (S i)) with (nth_error (tl (parameters g)) i) end;
    match goal with |- context [nth_error (tl ?l) i] => destruct (nth_error (tl l) i) as [n|] eqn:En end;
    [destruct (nth_error xs (S i)) eqn:Ex; auto; rewrite (K i n En); reflexivity
    |apply nth_error_None in En; apply nth_error_None; cbn in En, Hl; lia].
Qed.
Lemma pre_length (xs : list pyobj) : List.length (pre f xs) = List.length xs.
Proof. destruct f; cbn; auto. destruct xs; reflexivity. Qed.

Lemma wf_resolve : well_formed f pos kw -> exists a, resolve f pos kw = Some a.
Proof.
  intros W. rewrite resolve_bindf by auto. unfold bindf. pose proof W as (W1 & W2 & W3 & W4 & W5).
  rewrite (proj2 no_other_iff W2).
  destruct (fill_some kw (sigf f) pos) as [xs Hx].
  - rewrite sig_length. exact W1.
  - intros i p Hp. destruct (p_default p) as [x|] eqn:D.
    + unfold arg_of. destruct (nth_error pos i) as [y|] eqn:E.
      * exists y.
        assert (A : arg_of kw pos p i = Some y) by (apply (arg_given i p y W Hp); left; left; exists i; split; [apply sig_at; auto|auto]).
        unfold arg_of in A. rewrite E in A. exact A.
      * rewrite D. destruct (find kw (p_name p)); cbn; eauto.
    + destruct (default_iff i p Hp) as [_ N]. specialize (N D).
      destruct (W4 (p_name p)) as [x G]; [eapply nth_error_In; apply (sig_at i p Hp)|exact N|].
      exists x. apply (arg_given i p x W Hp). left. exact G.
  - rewrite Hx. cbn [obind]. destruct (fill_inv _ _ _ _ Hx) as (_ & Hl & Hn). rewrite sig_length in Hl.
    rewrite kinds_sigf by auto.
    assert (A : exists l, load_all (map kindf (parameters f)) (pre f xs) = Some l).
    { apply load_all_iff. rewrite pre_length, map_length. split; [exact Hl|]. intros i k x Ek Ex.
      rewrite nth_error_map in Ek. destruct (nth_error (parameters f) i) as [n|] eqn:En; [|discriminate]. injection Ek as <-.
      rewrite pre_at, En in Ex by auto. destruct (nth_error xs i) as [y|] eqn:Ey; [|discriminate]. injection Ex as <-.
      apply load_takes. destruct (at_sig i n En) as (p & Hp & <-). rewrite (Hn i p Hp) in Ey.
      apply (arg_given i p y W Hp) in Ey as [G|[_ G]]; [apply W5; exact G|apply default_takes; exact G]. }
    destruct A as [l Hl']. rewrite Hl'. cbn [obind]. apply (act_ok f _ _ Hf Hl').
Qed.

Lemma resolve_wf a : resolve f pos kw = Some a -> well_formed f pos kw.
Proof.
  rewrite resolve_bindf by auto. unfold bindf. destruct (no_other (sigf f) kw) eqn:No; [|discriminate].
  destruct (fill (sigf f) pos kw) as [xs|] eqn:Hx; [|discriminate]. cbn [obind].
  destruct (load_all (map p_kind (sigf f)) (pre f xs)) as [l|] eqn:Hl; [|discriminate]. intros _.
  destruct (fill_inv _ _ _ _ Hx) as (H1 & H2 & Hn). rewrite sig_length in H1, H2.
  rewrite kinds_sigf in Hl by auto. assert (Hl' : exists l', load_all (map kindf (parameters f)) (pre f xs) = Some l') by eauto.
  apply load_all_iff in Hl' as [_ Ht].
  assert (T : forall i n y, nth_error (parameters f) i = Some n -> nth_error xs i = Some y -> takes n y).
  { intros i n y En Ey. apply load_takes. apply (Ht i); [rewrite nth_error_map, En; reflexivity|]. rewrite pre_at, En, Ey by auto. reflexivity. }
  pose proof (proj1 no_other_iff No) as W2.
  assert (NS : forall i p, nth_error (sigf f) i = Some p -> exists y, arg_of kw pos p i = Some y).
  { intros i p Hp. rewrite <- (Hn i p Hp). assert (X : nth_error xs i <> None); [|destruct (nth_error xs i); [eauto|congruence]].
    apply nth_error_Some. rewrite H2, <- sig_length. apply nth_error_Some. congruence. }
  assert (W3 : forall n x i, In (n, x) kw -> nth_error (parameters f) i = Some n -> (List.length pos <= i)%nat).
  { intros n x i Hin En. destruct (at_sig i n En) as (p & Hp & <-). destruct (NS i p Hp) as [y Ey]. unfold arg_of in Ey.
    destruct (nth_error pos i) eqn:E; [|apply nth_error_None in E; exact E].
    rewrite (proj2 (has_In kw (p_name p))) in Ey; [discriminate|]. apply (in_map fst) in Hin. exact Hin. }
  repeat split; auto.
  - intros n Hin Hd. apply In_nth_error in Hin as [i En]. destruct (at_sig i n En) as (p & Hp & <-). destruct (NS i p Hp) as [y Ey]. exists y.
    unfold arg_of in Ey. destruct (nth_error pos i) as [z|] eqn:E.
    + destruct (has kw (p_name p)); [discriminate|]. left. exists i. split; [exact En|congruence].
    + destruct (find kw (p_name p)) as [z|] eqn:F; cbn [orelse] in Ey.
      * right. apply find_In; auto. congruence.
      * exfalso. apply Hd. destruct (default_iff i p Hp) as [D _]. apply D in Ey. apply (in_map fst) in Ey. exact Ey.
  - intros n x [(i & En & Ex)|Hin].
    + apply (T i n x En). destruct (at_sig i n En) as (p & Hp & <-). rewrite (Hn i p Hp). unfold arg_of. rewrite Ex.
      destruct (NS i p Hp) as [y Ey]. unfold arg_of in Ey. rewrite Ex in Ey. destruct (has kw (p_name p)); [discriminate|reflexivity].
    + specialize (W2 n x Hin). apply In_nth_error in W2 as [i En]. apply (T i n x En). destruct (at_sig i n En) as (p & Hp & <-). rewrite (Hn i p Hp).
      unfold arg_of. pose proof (W3 _ _ i Hin En) as Hle. apply nth_error_None in Hle. rewrite Hle.
      apply find_In in Hin; auto. rewrite Hin. reflexivity.
Qed.

Lemma resolve_null : resolve f pos kw = Some ANull <-> well_formed f pos kw /\ null_variogram f pos kw.
Proof.
  assert (A : well_formed f pos kw -> (resolve f pos kw = Some ANull <-> null_variogram f pos kw)).
  { intros W. destruct (wf_resolve W) as [a E]. rewrite resolve_bindf in * by auto. unfold bindf in *.
    destruct (no_other (sigf f) kw); [|discriminate]. destruct (fill (sigf f) pos kw) as [xs|] eqn:Hx; [|discriminate]. cbn [obind] in *.
    destruct (load_all (map p_kind (sigf f)) (pre f xs)) as [l|] eqn:Hl; [|discriminate]. cbn [obind] in *.
    rewrite kinds_sigf in Hl by auto. destruct (fill_inv _ _ _ _ Hx) as (_ & H2 & Hn). rewrite sig_length in H2.
    destruct (pre f xs) as [|x0 xs'] eqn:Ep.
    { exfalso. destruct xs; [destruct Hf as [->|[->|[->| ->]]]; discriminate|]. destruct f; discriminate. }
    rewrite (act_null f x0 xs' l Hf Hl). unfold null_variogram.
    assert (P0 : f <> FVariogram -> nth_error (parameters f) 0 = Some "variogram").
    { intros N. destruct Hf as [->|[->|[->| ->]]]; [congruence|reflexivity..]. }
    assert (V : f = FVariogram -> ~ In "variogram" (parameters f)) by (intros ->; cbn; intuition discriminate).
    split.
    - intros [N ->]. specialize (P0 N). destruct (at_sig 0 _ P0) as (p & Hp & Ep'). 
      assert (Ex : nth_error xs 0 = Some PNone).
      { pose proof (pre_at xs 0 H2) as X. rewrite Ep, P0 in X. change (nth_error (@PNone L :: xs') 0) with (Some (@PNone L)) in X. destruct (nth_error xs 0); [|discriminate].
        unfold fix_type in X. cbn in X. congruence. }
      rewrite (Hn 0%nat p Hp) in Ex. rewrite <- Ep'. apply (arg_given 0 p PNone W Hp) in Ex as [G|[_ G]]; [exact G|].
      exfalso. rewrite Ep' in G. clear - G. destruct f; cbn in G; intuition discriminate.
    - intros G. assert (N : f <> FVariogram).
      { intros E'. apply (V E'). destruct G as [(i & En & _)|Hin]; [eapply nth_error_In; exact En|]. destruct W as (_ & W2 & _). eapply W2. exact Hin. }
      split; [exact N|]. specialize (P0 N). destruct (at_sig 0 _ P0) as (p & Hp & Ep'). rewrite <- Ep' in G.
      assert (Ex : nth_error xs 0 = Some PNone) by (rewrite (Hn 0%nat p Hp); apply (arg_given 0 p PNone W Hp); left; exact G).
      pose proof (pre_at xs 0 H2) as X. rewrite Ep, P0, Ex in X. cbn in X. congruence. }
  split; [intros E; pose proof (resolve_wf _ E) as W; split; [exact W|]; apply A; auto|intros [W N]; apply A; auto].
Qed.

(** ** the three outcomes *)
Variables (rec : recursion) (fuel : nat) (now : Z).
Lemma call_accepted : well_formed f pos kw -> ~ null_variogram f pos kw -> exists c, forall st, py_call rec fuel now f pos kw st = step rec fuel now c st.
Proof.
  intros W N. destruct (wf_resolve W) as [a E]. destruct a as [c|]; [|exfalso; apply N; apply resolve_null; exact E].
  exists c. intros st. unfold py_call. rewrite E. reflexivity.
Qed.
Lemma call_null st : well_formed f pos kw -> null_variogram f pos kw -> py_call rec fuel now f pos kw st = (UB NullPointer, st).
Proof. intros W N. unfold py_call. rewrite (proj2 resolve_null (conj W N)). reflexivity. Qed.
Lemma call_rejected st : ~ well_formed f pos kw -> py_call rec fuel now f pos kw st = (Throw TypeError, st).
Proof. intros W. unfold py_call. destruct (resolve f pos kw) as [a|] eqn:E; [|reflexivity]. exfalso. apply W. eapply resolve_wf. exact E. Qed.
End P.
