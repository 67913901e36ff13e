(** Which Python calls are accepted. *)
From Coq Require Import ZArith Bool Lia String List Permutation.
From Verif Require Import Base Arith M_Variogram M_Dsfmt M_Random M_Field M_Api M_Bind S_Bind P_Bind P_Bind2.
Import ListNotations.
Open Scope string_scope.

Section P.
Context {L : Lib}.
Notation pyobj := (pyobj L).
Notation kwargs := (kwargs L).
Notation param := (@param L).

Definition arg_of (kw : kwargs) (pos : list pyobj) (p : param) (i : nat) : option pyobj :=
  match nth_error pos i with
  | Some x => if has kw (p_name p) then None else Some x
  | None => orelse (find kw (p_name p)) (p_default p)
  end.

Lemma fill_nil (p : param) sig (kw : kwargs) : fill (p :: sig) [] kw = obind (orelse (find kw (p_name p)) (p_default p)) (fun x => option_map (cons x) (fill sig [] kw)).
Proof. cbn [fill]. destruct (find kw (p_name p)); [reflexivity|]. destruct (p_default p); reflexivity. Qed.
Lemma fill_some (kw : kwargs) sig : forall pos, (List.length pos <= List.length sig)%nat ->
  (forall i p, nth_error sig i = Some p -> exists x, arg_of kw pos p i = Some x) -> exists xs, fill sig pos kw = Some xs.
Proof.
  induction sig as [|p sig IH]; intros [|y pos] Hl H; cbn [List.length] in Hl; try lia.
  - exists []. reflexivity.
  - rewrite fill_nil. destruct (H 0%nat p eq_refl) as [x E]. cbn [arg_of nth_error] in E. rewrite E. cbn [obind].
    destruct (IH []) as [xs Hx]; [cbn; lia|intros i q Hq; destruct (H (S i) q Hq) as [x' E']; exists x'; rewrite <- E'; destruct i; reflexivity|].
    rewrite Hx. cbn. eauto.
  - cbn [fill]. destruct (H 0%nat p eq_refl) as [x E]. cbn [arg_of nth_error] in E. destruct (has kw (p_name p)); [discriminate|].
    destruct (IH pos) as [xs Hx]; [lia|intros i q Hq; destruct (H (S i) q Hq) as [x' E']; exists x'; exact E'|]. rewrite Hx. cbn. eauto.
Qed.
Lemma fill_inv (kw : kwargs) sig : forall pos xs, fill sig pos kw = Some xs ->
  (List.length pos <= List.length sig)%nat /\ List.length xs = List.length sig /\ forall i p, nth_error sig i = Some p -> nth_error xs i = arg_of kw pos p i.
Proof.
  induction sig as [|p sig IH]; intros [|y pos] xs H; try discriminate.
  - injection H as <-. repeat split; auto. intros [|i] q Hq; discriminate.
  - rewrite fill_nil in H. destruct (orelse _ _) as [x|] eqn:E; [|discriminate]. cbn [obind] in H.
    destruct (fill sig [] kw) as [xs'|] eqn:F; [|discriminate]. injection H as <-. destruct (IH _ _ F) as (_ & Hl & Hn).
    cbn [List.length]. repeat split; [lia|lia|]. intros [|i] q Hq; [injection Hq as <-; cbn [nth_error arg_of]; auto|].
    cbn [nth_error] in *. rewrite (Hn i q Hq). destruct i; reflexivity.
  - cbn [fill] in H. destruct (has kw (p_name p)) eqn:E; [discriminate|]. destruct (fill sig pos kw) as [xs'|] eqn:F; [|discriminate]. injection H as <-.
    destruct (IH _ _ F) as (Hp & Hl & Hn). cbn [List.length]. repeat split; [lia|lia|]. intros [|i] q Hq.
    + injection Hq as <-. cbn [nth_error]. unfold arg_of. cbn [nth_error]. rewrite E. reflexivity.
    + cbn [nth_error] in *. rewrite (Hn i q Hq). reflexivity.
Qed.

Lemma load_all_iff ks : forall xs : list pyobj, (exists l, load_all ks xs = Some l) <->
  List.length xs = List.length ks /\ forall i k x, nth_error ks i = Some k -> nth_error xs i = Some x -> exists a, load k x = Some a.
Proof.
  induction ks as [|k ks IH]; intros [|x xs]; cbn [load_all List.length].
  - split; [|eauto]. intros _. split; auto. intros [|i] ? ? E; discriminate.
  - split; [intros [l H]; discriminate|intros [H _]; discriminate].
  - split; [intros [l H]; discriminate|intros [H _]; discriminate].
  - split.
    + intros [l H]. destruct (load k x) as [a|] eqn:E; [|discriminate]. destruct (load_all ks xs) as [l'|] eqn:F; [|discriminate].
      destruct (proj1 (IH xs)) as [Hl Hn]; [eauto|]. split; [lia|]. intros [|i] k' x' E1 E2; cbn [nth_error] in *.
      * injection E1 as <-. injection E2 as <-. eauto.
      * eapply Hn; eauto.
    + intros [Hl Hn]. destruct (Hn 0%nat k x eq_refl eq_refl) as [a E]. rewrite E.
      destruct (proj2 (IH xs)) as [l F]; [|rewrite F; cbn; eauto]. split; [lia|]. intros i k' x' E1 E2. apply (Hn (S i)); auto.
Qed.

(** the loaded arguments have the shape that the action takes *)
Lemma load_shape k (x : pyobj) a : load k x = Some a ->
  match k with KSize | KInt => exists z, a = AZ z | KDouble => exists y, a = ANum y | KString => exists s, a = AStr s | KVario => exists p, a = APtr p end.
Proof.
  unfold load. destruct k.
  - destruct (as_integer x); [|discriminate]. destruct (fits_size z); [|discriminate]. intros [= <-]. eauto.
  - destruct (as_integer x); [|discriminate]. destruct (fits_int z); [|discriminate]. intros [= <-]. eauto.
  - intros H. assert (X : forall o : option Z, match o with Some z => if float_ok z then Some (ANum (ofZ L z)) else None | None => None end = Some a -> exists y, a = ANum y).
    { intros [z|]; [|discriminate]. destruct (float_ok z); [|discriminate]. intros [= <-]. eauto. }
    destruct x; try (apply X in H; exact H). injection H as <-. eauto.
  - destruct x; try discriminate. intros [= <-]. eauto.
  - destruct x; try discriminate; intros [= <-]; eauto.
Qed.
Lemma load_all_cons k ks (x : pyobj) xs l : load_all (k :: ks) (x :: xs) = Some l -> exists a l', load k x = Some a /\ load_all ks xs = Some l' /\ l = a :: l'.
Proof. cbn. destruct (load k x) as [a|]; [|discriminate]. destruct (load_all ks xs) as [l'|]; [|discriminate]. intros [= <-]. eauto. Qed.

Local Opaque load.
Ltac peel1 H := let a := fresh "a" in let l' := fresh "l'" in let E := fresh "E" in let S := fresh "S" in
  apply load_all_cons in H as (a & l' & E & H & ->); pose proof E as S; apply load_shape in S; cbv iota in S; destruct S as [? ->].
Ltac peel H := match type of H with
  | load_all (_ :: _) (_ :: _) = Some _ => peel1 H
  | load_all (_ :: _) ?xs = Some _ => destruct xs as [|? xs]; [discriminate|]; peel1 H
  | load_all [] ?xs = Some _ => destruct xs; [injection H as <-|discriminate]
  end.
Lemma act_ok f (xs : list pyobj) l : named f -> load_all (map kindf (parameters f)) xs = Some l -> exists a, actf f l = Some a.
Proof.
  intros Hf H. destruct Hf as [->|[->|[->| ->]]].
  - change (map kindf (parameters FVariogram)) with [KString; KDouble; KDouble; KDouble; KDouble; KDouble; KDouble] in H.
    do 8 peel H. cbn. eauto.
  - change (map kindf (parameters FSize)) with [KVario; KSize; KDouble; KSize; KDouble; KSize; KDouble] in H. do 8 peel H. cbn. eauto.
  - change (map kindf (parameters FSimulate)) with [KVario; KSize; KDouble; KSize; KDouble; KSize; KDouble] in H. do 8 peel H. cbn. eauto.
  - change (map kindf (parameters FAdvanced)) with [KVario; KSize; KDouble; KSize; KDouble; KSize; KDouble; KInt; KInt; KInt; KDouble; KDouble; KDouble] in H. do 14 peel H. cbn. eauto.
Qed.
(** it is a null access exactly when the first argument is None and the function takes a variogram *)
Lemma act_null f (x : pyobj) xs l : named f -> load_all (map kindf (parameters f)) (x :: xs) = Some l -> (actf f l = Some ANull <-> f <> FVariogram /\ x = PNone).
Proof.
  intros Hf H.
  assert (X : forall (p : option (variogram L)) (c : variogram L -> call L), load KVario x = Some (APtr p) -> (Some (use p c) = Some ANull <-> x = PNone)).
  { intros p c E. Local Transparent load. destruct x; try discriminate; injection E as <-; cbn; split; try discriminate; auto. Local Opaque load. }
  destruct Hf as [->|[->|[->| ->]]].
  - change (map kindf (parameters FVariogram)) with [KString; KDouble; KDouble; KDouble; KDouble; KDouble; KDouble] in H.
    do 8 peel H. cbn. split; [discriminate|tauto].
  - change (map kindf (parameters FSize)) with [KVario; KSize; KDouble; KSize; KDouble; KSize; KDouble] in H. do 8 peel H. cbn [actf act_dims]. rewrite X by eassumption. split; [split; [discriminate|auto]|tauto].
  - change (map kindf (parameters FSimulate)) with [KVario; KSize; KDouble; KSize; KDouble; KSize; KDouble] in H. do 8 peel H. cbn [actf act_dims]. rewrite X by eassumption. split; [split; [discriminate|auto]|tauto].
  - change (map kindf (parameters FAdvanced)) with [KVario; KSize; KDouble; KSize; KDouble; KSize; KDouble; KInt; KInt; KInt; KDouble; KDouble; KDouble] in H. do 14 peel H. cbn [actf act_advanced]. rewrite X by eassumption. split; [split; [discriminate|auto]|tauto].
Qed.
End P.
