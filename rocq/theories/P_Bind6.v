(** Stubs, enum members, seed and corr. *)
From Coq Require Import ZArith Bool Lia String List Permutation.
From Verif Require Import Base Arith M_Variogram M_Dsfmt M_Random M_Field M_Api M_Bind S_Vario S_Bind P_Bind P_Bind2 P_Bind3 P_Bind4 P_Bind5 P_VarioNames.
Import ListNotations.
Open Scope string_scope.

Section P.
Context {L : Lib}.
Notation pyobj := (pyobj L).
Notation kwargs := (kwargs L).
Variables (rec : recursion) (fuel : nat) (now : Z).
Notation py := (py_call (L := L) rec fuel now).

Lemma in_combine_fst {X Y} (l : list X) (l' : list Y) x : In x (map fst (combine l l')) -> In x l.
Proof. intros H. apply in_map_iff in H as ([a b] & <- & H). apply in_combine_l in H. exact H. Qed.
Lemma prefix_keywords f (xs : list pyobj) : named f -> forall pos ps, (forall i n, nth_error ps i = Some n -> nth_error (parameters f) (List.length pos + i) = Some n) ->
  (List.length xs <= List.length ps)%nat -> forall st, py f (pos ++ xs) [] st = py f pos (combine ps xs) st.
Proof.
  intros Hf. induction xs as [|x xs IH]; intros pos ps E Hl st.
  - rewrite app_nil_r. destruct ps; reflexivity.
  - destruct ps as [|n ps]; [cbn in Hl; lia|]. cbn [combine].
    pose proof (E 0%nat n eq_refl) as E0. rewrite Nat.add_0_r in E0.
    assert (N : ~ In n ps).
    { intros H. apply In_nth_error in H as [i Hi]. pose proof (E (S i) n Hi) as E1. 
      assert (K : List.length pos = (List.length pos + S i)%nat); [|lia].
      apply (proj1 (NoDup_nth_error (parameters f)) (names_nodup f)); [apply nth_error_Some; congruence|congruence]. }
    rewrite <- kw_or_pos; [|exact Hf|exact E0|intros H; apply N; eapply in_combine_fst; exact H].
    replace (pos ++ x :: xs)%list with ((pos ++ [x]) ++ xs)%list by (rewrite <- app_assoc; reflexivity).
    apply IH; [|cbn in Hl; lia]. intros i m Hm. rewrite app_length. cbn [List.length].
    replace (List.length pos + 1 + i)%nat with (List.length pos + S i)%nat by lia. apply E. exact Hm.
Qed.
Lemma stub_keywords f ps (xs : list pyobj) st : In ps (stubs f) -> ~ misleading f ps -> (List.length xs <= List.length ps)%nat ->
  py f xs [] st = py f [] (combine ps xs) st.
Proof.
  intros H M Hl. assert (Hf : named f) by (destruct f; cbn in H; unfold named; tauto).
  apply (prefix_keywords f xs Hf [] ps); [|exact Hl]. cbn [List.length Nat.add].
  intros i n. unfold misleading in M. clear Hl Hf.
  destruct f; cbn [stubs In] in H; try contradiction; repeat (destruct H as [H|H]); try contradiction; subst ps; try (exfalso; apply M; tauto);
    do 13 (destruct i as [|i]; [exact (fun e => e) || (cbn; intros; discriminate)|]); destruct i; cbn; intros; discriminate.
Qed.

Lemma seed_calls (pos : list pyobj) (kw : kwargs) st :
  (pos = [] -> kw = [] -> py FSeed pos kw st = step rec fuel now CGetSeed st) /\
  (forall x z, pos = [x] -> kw = [] -> whole x z -> (0 <= z < 2 ^ 64)%Z -> py FSeed pos kw st = step rec fuel now (CSeed z) st) /\
  (pos <> [] \/ kw <> [] -> (forall x, pos = [x] -> kw = [] -> ~ a_size x) -> py FSeed pos kw st = (Throw TypeError, st)).
Proof.
  split; [intros -> ->; reflexivity|]. split.
  - intros x z -> -> W B. unfold py_call. cbn [resolve ext_call bind_unnamed load_all].
    rewrite (load_size x z ltac:(exists z; auto) W). reflexivity.
  - intros NE NS. unfold py_call. cbn [resolve ext_call]. destruct kw; [|reflexivity]. cbn [bind_unnamed].
    destruct pos as [|x pos]; [destruct NE; congruence|]. cbn [load_all]. destruct (load KSize x) as [a|] eqn:E; [|reflexivity].
    destruct pos as [|y pos]; [|reflexivity]. exfalso. apply (NS x eq_refl eq_refl). apply load_size_iff. eauto.
Qed.
Lemma corr_1 (v : variogram L) x r st : a_float x -> float_value x r -> py FCorr [PVario v; x] [] st = step rec fuel now (CCorr1 v r) st.
Proof. intros A V. unfold py_call. cbn [resolve ext_call bind_unnamed load_all]. change (load KVario (PVario v)) with (Some (APtr (Some v))). rewrite (load_float x r A V). reflexivity. Qed.
Lemma corr_2 (v : variogram L) x y r s st : a_float x -> float_value x r -> a_float y -> float_value y s -> py FCorr [PVario v; x; y] [] st = step rec fuel now (CCorr2 v r s) st.
Proof.
  intros A V B W. unfold py_call. cbn [resolve ext_call bind_unnamed load_all]. change (load KVario (PVario v)) with (Some (APtr (Some v))).
  rewrite (load_float x r A V), (load_float y s B W). reflexivity.
Qed.
Lemma corr_3 (v : variogram L) x y z r s t st : a_float x -> float_value x r -> a_float y -> float_value y s -> a_float z -> float_value z t ->
  py FCorr [PVario v; x; y; z] [] st = step rec fuel now (CCorr3 v r s t) st.
Proof.
  intros A V B W C X. unfold py_call. cbn [resolve ext_call bind_unnamed load_all]. change (load KVario (PVario v)) with (Some (APtr (Some v))).
  rewrite (load_float x r A V), (load_float y s B W), (load_float z t C X). reflexivity.
Qed.
Lemma corr_kw (pos : list pyobj) (kw : kwargs) st : kw <> [] -> py FCorr pos kw st = (Throw TypeError, st).
Proof. intros H. unfold py_call. cbn [resolve ext_call]. destruct kw; [congruence|reflexivity]. Qed.
Lemma seed_kw (pos : list pyobj) (kw : kwargs) st : kw <> [] -> py FSeed pos kw st = (Throw TypeError, st).
Proof. intros H. unfold py_call. cbn [resolve ext_call]. destruct kw; [congruence|reflexivity]. Qed.

Lemma enum_same n x (pos : list pyobj) (kw : kwargs) st : enum_member n = Some x -> exists s, In (n, s) VariogramType /\ x = PEnum (PStr s) /\
  py FVariogram (x :: pos) kw st = py FVariogram (PStr s :: pos) kw st.
Proof.
  unfold enum_member. destruct (List.find _ VariogramType) as [[n' s]|] eqn:E; [|discriminate]. intros [= <-]. apply List.find_some in E as [H1 H2].
  cbn [fst] in H2. apply String.eqb_eq in H2. subst n'. exists s. repeat split; auto.
Qed.
Lemma enum_types n t : In (n, t) members <-> exists s, In (n, s) VariogramType /\ In (s, t) documented.
Proof.
  split.
  - cbn [members In]. intros H. repeat (destruct H as [H|H]); try contradiction; injection H as <- <-; eexists; split; cbn [VariogramType documented In]; try (left; reflexivity); auto 20.
  - intros (s & H1 & H2). cbn [VariogramType In] in H1. repeat (destruct H1 as [H1|H1]); try contradiction; injection H1 as <- <-;
      cbn [documented In] in H2; repeat (destruct H2 as [H2|H2]); try contradiction; try discriminate; injection H2 as <-; cbn [members In]; auto 20.
Qed.
Lemma enum_member_in n t : In (n, t) members -> exists s, enum_member (L := L) n = Some (PEnum (PStr s)) /\ In (s, t) documented.
Proof.
  cbn [members In]. intros H. repeat (destruct H as [H|H]); try contradiction; injection H as <- <-; eexists; split; try reflexivity; cbn [documented In]; auto 20.
Qed.
Lemma named_call s (pos : list pyobj) (kw : kwargs) a : resolve FVariogram (PStr s :: pos) kw = Some a ->
  exists m p d azi dp pw, a = ACall (CVariogram s m p d azi dp pw).
Proof.
  unfold resolve. destruct (has kw "type"); [discriminate|]. cbn [unwrap ext_call]. unfold bind_named. destruct (no_other sig_variogram kw); [|discriminate].
  destruct (fill sig_variogram (PStr s :: pos) kw) as [xs|] eqn:E; [|discriminate].
  assert (exists ys, xs = PStr s :: ys) as [ys ->].
  { unfold sig_variogram in E. set (tl := @cons param _ _) in E at 2. cbn [fill] in E. destruct (has kw _); [discriminate|].
    destruct (fill tl pos kw) as [ys|]; [|discriminate]. injection E as <-. eauto. }
  destruct (load_all (map p_kind sig_variogram) (PStr s :: ys)) as [l|] eqn:El; [|discriminate].
  assert (exists l', l = AStr s :: l') as [l' ->].
  { change (map p_kind sig_variogram) with (KString :: map p_kind (tl (sig_variogram (L := L)))) in El.
    apply load_all_cons in El as (a' & l' & E1 & _ & ->). cbn in E1. injection E1 as <-. eauto. }
  cbn [obind act_variogram]. do 6 (destruct l' as [|[] l']; try discriminate). destruct l'; [|discriminate]. intros [= <-]. eauto 10.
Qed.
Lemma documented_lower s t : In (s, t) documented -> lower s = s /\ is_ascii s.
Proof. cbn [documented In]. intros H. repeat (destruct H as [H|H]); try contradiction; injection H as <- <-; split; try reflexivity; cbn; repeat split; apply Nat.leb_le; reflexivity. Qed.
Lemma enum_type s t (pos : list pyobj) (kw : kwargs) st : In (s, t) documented ->
  py FVariogram (PStr s :: pos) kw st = (Throw TypeError, st) \/ exists v, py FVariogram (PStr s :: pos) kw st = (Ok (VVariogram v), st) /\ vt v = t.
Proof.
  intros H. unfold py_call. destruct (resolve FVariogram (PStr s :: pos) kw) as [a|] eqn:E; [|left; reflexivity]. right.
  apply named_call in E as (m & p & d & azi & dp & pw & ->). cbn [step].
  destruct (documented_lower s t H) as [Hl Ha].
  destruct (names_documented s s t m (opt p (lit L (-1) 0)) (opt d (lit L (-1) 0)) (opt azi (lit L 0 0)) (opt dp (lit L 0 0)) (opt pw (lit L 15 1)) H Hl Ha) as (v & Ev & Ht).
  exists v. rewrite Ev. split; [reflexivity|exact Ht].
Qed.
Lemma none_elsewhere f (pos : list pyobj) (kw : kwargs) n st : named f -> once kw -> given_as f pos kw n PNone -> n <> "variogram" ->
  py f pos kw st = (Throw TypeError, st).
Proof.
  intros Hf Ho G N. apply call_rejected; auto. intros (_ & _ & _ & _ & T). specialize (T n PNone G). unfold takes in T.
  destruct (n =? "type"); [destruct T as (s & [T|T]); discriminate|]. rewrite (proj2 (String.eqb_neq n "variogram") N) in T.
  assert (X : forall z, ~ whole (L := L) PNone z) by (intros z H; apply whole_iff in H; discriminate).
  destruct (_ || _); [destruct T as (z & W & _); exact (X z W)|]. destruct (_ || _); [destruct T as (z & W & _); exact (X z W)|].
  destruct T as [[y T]|(z & W & _)]; [discriminate|exact (X z W)].
Qed.
End P.
Section E.
Context {L : Lib}.
Lemma enum_calls n t : In (n, t) members ->
  exists x s, enum_member (L := L) n = Some x /\ In (s, t) documented /\
    forall rec fuel now pos kw st, py_call rec fuel now FVariogram (x :: pos) kw st = py_call rec fuel now FVariogram (PStr s :: pos) kw st /\
      (py_call rec fuel now FVariogram (x :: pos) kw st = (Throw TypeError, st) \/
       exists v, py_call rec fuel now FVariogram (x :: pos) kw st = (Ok (VVariogram v), st) /\ vt v = t).
Proof.
  intros H. destruct (enum_member_in (L := L) n t H) as (s & E & D). exists (PEnum (PStr s)), s. split; [exact E|]. split; [exact D|].
  intros. assert (Q : py_call rec fuel now FVariogram (PEnum (PStr s) :: pos) kw st = py_call rec fuel now FVariogram (PStr s :: pos) kw st) by reflexivity.
  split; [exact Q|]. rewrite Q. apply enum_type. exact D.
Qed.
Lemma enum_unique t : (exists s, In (s, t) documented) -> exists n, In (n, t) members /\ forall n', In (n', t) members -> n' = n.
Proof.
  intros [s H]. cbn [documented In] in H. repeat (destruct H as [H|H]); try contradiction; injection H as <- <-;
    eexists; (split; [cbn [members In]; repeat (try (left; reflexivity); right)|intros n' H'; cbn [members In] in H';
      repeat (destruct H' as [H'|H']); try contradiction; try discriminate; injection H' as <-; reflexivity]).
Qed.
End E.
