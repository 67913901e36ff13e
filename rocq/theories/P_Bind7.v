(** Misleading stubs and None. *)
From Coq Require Import ZArith Bool String List Permutation.
From Verif Require Import Base Arith M_Variogram M_Dsfmt M_Random M_Field M_Api M_Bind ExampleLib S_Vario S_Bind
  P_Bind P_Bind2 P_Bind3 P_Bind4 P_Bind5 P_Bind6.
Import ListNotations.
Open Scope string_scope.

Lemma stubs_wrong :
  (forall f ps, misleading f ps -> In ps (stubs f)) /\
  (exists L : Lib, forall f ps, misleading f ps ->
     exists xs : list (pyobj L), List.length xs = List.length ps /\
       well_formed f [] (combine ps xs) /\ ~ null_variogram f [] (combine ps xs) /\
       forall rec fuel now st, py_call rec fuel now f xs [] st = (Throw TypeError, st)) /\
  (forall (L : Lib) rec fuel now (x : pyobj L) st, py_call rec fuel now FSeed [] [(stub_seed, x)] st = (Throw TypeError, st)) /\
  (forall (L : Lib) rec fuel now (v x : pyobj L) st n, In n stub_corr -> py_call rec fuel now FCorr [v] [(n, x)] st = (Throw TypeError, st)).
Proof.
  split; [intros f ps [[-> ->]|[-> [->| ->]]]; cbn; tauto|]. split; [|split].
  - exists ELib.
    assert (G : forall f ps (xs : list (pyobj ELib)), named f -> NoDup ps -> List.length xs = List.length ps -> (exists c, resolve f [] (combine ps xs) = Some (ACall c)) ->
      resolve f xs [] = None ->
      List.length xs = List.length ps /\ well_formed f [] (combine ps xs) /\ ~ null_variogram f [] (combine ps xs) /\
      forall rec fuel now st, py_call rec fuel now f xs [] st = (Throw TypeError, st)).
    { intros f ps xs Hf Hn Hl [c Hc] Hr. assert (Ho : once (combine ps xs)).
      { unfold once. assert (E : map fst (combine ps xs) = ps); [|rewrite E; exact Hn]. clear - Hl. revert xs Hl. induction ps; intros [|y xs]; cbn; intros; try discriminate; auto.
        f_equal. apply IHps. congruence. }
      pose proof (resolve_wf f [] _ Hf Ho _ Hc) as W. repeat split; auto; try apply W.
      - intros N. rewrite (proj2 (resolve_null f [] _ Hf Ho) (conj W N)) in Hc. discriminate.
      - intros. unfold py_call. rewrite Hr. reflexivity. }
    pose (one := PFloat (lit ELib 1 0)).
    intros f ps [[-> ->]|[-> [->| ->]]].
    + exists [PVario ex_vario; PInt 2; PInt 2; PInt 2; one; one; one]. apply G; [unfold named; tauto| |reflexivity|eexists; reflexivity|reflexivity].
      repeat (constructor; [cbn; intuition discriminate|]). constructor.
    + exists [PVario ex_vario; PInt 2; one; PInt 2; one; PInt (-1); PInt (-1); one; one]. apply G; [unfold named; tauto| |reflexivity|eexists; reflexivity|reflexivity].
      repeat (constructor; [cbn; intuition discriminate|]). constructor.
    + exists [PVario ex_vario; PInt 2; one; PInt (-1); one]. apply G; [unfold named; tauto| |reflexivity|eexists; reflexivity|reflexivity].
      repeat (constructor; [cbn; intuition discriminate|]). constructor.
  - intros. apply seed_kw. discriminate.
  - intros. apply corr_kw. discriminate.
Qed.
Lemma none_only (L : Lib) f (pos : list (pyobj L)) (kw : kwargs L) : named f -> once kw -> ~ null_variogram f pos kw ->
  (forall rec fuel now st, py_call rec fuel now f pos kw st = (Throw TypeError, st)) \/
  exists c : call L, forall rec fuel now st, py_call rec fuel now f pos kw st = step rec fuel now c st.
Proof.
  intros Hf Ho N. unfold py_call. destruct (resolve f pos kw) as [[c|]|] eqn:E; [right; exists c; reflexivity| |left; reflexivity].
  exfalso. apply N. apply (resolve_null f pos kw Hf Ho). exact E.
Qed.
Lemma none_crash : exists L f (pos : list (pyobj L)), forall rec fuel now st, py_call rec fuel now f pos [] st = (UB NullPointer, st).
Proof. exists ELib, FSimulate, [PNone; PInt 2; PFloat (lit ELib 1 0)]. intros. reflexivity. Qed.
