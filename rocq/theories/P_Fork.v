(** Proofs about several processes. *)
From Coq Require Import ZArith Bool Lia List.
From Verif Require Import Base Arith M_Variogram M_Dsfmt M_Random M_Field M_Api M_Fork S_Api S_Fork P_Base P_Api.
Import ListNotations.
Open Scope nat_scope.

Section P.
Context {L : Lib}.
Variable rec : recursion.
Variable fuel : nat.
Lemma nth_upd_eq {T} (l : list T) i x : i < length l -> nth_error (upd l i x) i = Some x.
Proof. revert i; induction l; intros [|i] H; cbn [length upd nth_error] in *; try lia; [reflexivity|apply IHl; lia]. Qed.
Lemma nth_upd_ne {T} (l : list T) i j x : i <> j -> nth_error (upd l i x) j = nth_error l j.
Proof. revert i j; induction l; intros [|i] [|j] H; cbn [upd nth_error]; try reflexivity; try lia. apply IHl. lia. Qed.
Lemma upd_len {T} (l : list T) i x : length (upd l i x) = length l.
Proof. revert i; induction l; intros [|i]; cbn [upd length]; auto. Qed.
Lemma dead p : forall (es : list (event L)) (w : world), nth_error w p = Some None -> results_of p (fst (history rec fuel es w)) = [].
Proof.
  induction es as [|e es IH]; intros w H; [reflexivity|]. cbn [history]. destruct (happen rec fuel e w) as [r w1] eqn:E. destruct (history rec fuel es w1) as [rs w2] eqn:E2.
  cbn [fst]. unfold results_of. rewrite filter_app, map_app. fold (results_of p r) (results_of p rs).
  assert (LP : p < length w) by (apply nth_error_Some; rewrite H; discriminate).
  assert (X : results_of p r = [] /\ nth_error w1 p = Some None).
  { destruct e as [q| |q now c]; cbn [happen] in E.
    - destruct (nth_error w q) as [[st|]|]; injection E as <- <-; (split; [reflexivity|]); rewrite ?nth_error_app1 by exact LP; exact H.
    - injection E as <- <-. split; [reflexivity|]. rewrite nth_error_app1 by exact LP. exact H.
    - destruct (Nat.eq_dec q p) as [->|N].
      + rewrite H in E. injection E as <- <-. auto.
      + destruct (nth_error w q) as [[st|]|]; [|injection E as <- <-; auto|injection E as <- <-; auto].
        destruct (step rec fuel now c st) as [o st']. injection E as <- <-. unfold results_of. cbn [filter fst].
        destruct (Nat.eqb_spec p q); [congruence|]. split; [reflexivity|]. rewrite nth_upd_ne by exact N. exact H. }
  destruct X as [-> X]. specialize (IH w1 X). rewrite E2 in IH. exact IH.
Qed.
Lemma alone p : forall (es : list (event L)) (w : world) st, nth_error w p = Some (Some st) ->
  results_of p (fst (history rec fuel es w)) = fst (run rec fuel (calls_of p es) st).
Proof.
  induction es as [|e es IH]; intros w st H; [reflexivity|]. cbn [history]. destruct (happen rec fuel e w) as [r w1] eqn:E. destruct (history rec fuel es w1) as [rs w2] eqn:E2.
  cbn [fst]. unfold results_of. rewrite filter_app, map_app. fold (results_of p r) (results_of p rs).
  assert (LP : p < length w) by (apply nth_error_Some; rewrite H; discriminate).
  destruct e as [q| |q now c]; cbn [happen] in E; cbn [calls_of].
  - assert (X : r = [] /\ nth_error w1 p = Some (Some st)) by (destruct (nth_error w q) as [[s|]|]; injection E as <- <-; (split; [reflexivity|]); rewrite ?nth_error_app1 by exact LP; exact H).
    destruct X as [-> X]. specialize (IH w1 st X). rewrite E2 in IH. exact IH.
  - injection E as <- <-. assert (X : nth_error (w ++ [Some rstate0]) p = Some (Some st)) by (rewrite nth_error_app1 by exact LP; exact H).
    specialize (IH _ st X). rewrite E2 in IH. exact IH.
  - destruct (Nat.eqb_spec p q) as [<-|N].
    + rewrite H in E. destruct (step rec fuel now c st) as [o st'] eqn:ES. injection E as <- <-. unfold results_of at 1. cbn [filter fst]. rewrite Nat.eqb_refl. cbn [map snd].
      cbn [run]. rewrite ES.
      destruct o as [x|e|u|]; try (specialize (IH _ st' (nth_upd_eq w p (Some st') LP)); rewrite E2 in IH; cbn [fst] in IH; rewrite IH; destruct (run rec fuel (calls_of p es) st'); reflexivity).
      * pose proof (dead p es _ (nth_upd_eq w p None LP)) as D. rewrite E2 in D. cbn [fst] in D. rewrite D. reflexivity.
      * pose proof (dead p es _ (nth_upd_eq w p None LP)) as D. rewrite E2 in D. cbn [fst] in D. rewrite D. reflexivity.
    + assert (X : results_of p r = [] /\ nth_error w1 p = Some (Some st)).
      { destruct (nth_error w q) as [[s|]|]; [|injection E as <- <-; auto|injection E as <- <-; auto].
        destruct (step rec fuel now c s) as [o s']. injection E as <- <-. unfold results_of. cbn [filter fst]. destruct (Nat.eqb_spec p q); [congruence|].
        split; [reflexivity|]. rewrite nth_upd_ne by congruence. exact H. }
      destruct X as [-> X]. specialize (IH w1 st X). rewrite E2 in IH. exact IH.
Qed.
Lemma c84_isolated (es : list (event L)) p w st : nth_error w p = Some (Some st) -> results_of p (fst (history rec fuel es w)) = fst (run rec fuel (calls_of p es) st).
Proof. apply alone. Qed.
Lemma split_calls (l : list (Z * call L)) : l = combine (map fst l) (map snd l).
Proof. induction l as [|[t c] l IH]; [reflexivity|]. cbn [map combine fst snd]. rewrite <- IH. reflexivity. Qed.
Lemma c84_forked (es : list (event L)) p w st : nth_error w p = Some (Some st) -> is_init st = true ->
  let q := length w in let rs := fst (history rec fuel (Fork p :: es) w) in
  map snd (calls_of p es) = map snd (calls_of q es) -> results_of p rs = results_of q rs.
Proof.
  intros H I q rs E. unfold rs. cbn [history happen]. rewrite H.
  assert (LP : p < length w) by (apply nth_error_Some; rewrite H; discriminate).
  assert (P1 : nth_error (w ++ [Some st]) p = Some (Some st)) by (rewrite nth_error_app1 by exact LP; exact H).
  assert (P2 : nth_error (w ++ [Some st]) q = Some (Some st)) by (unfold q; rewrite nth_error_app2, Nat.sub_diag by lia; reflexivity).
  pose proof (alone p es _ st P1) as A1. pose proof (alone q es _ st P2) as A2.
  destruct (history rec fuel es (w ++ [Some st])) as [r w']. cbn [fst app] in *. rewrite A1, A2.
  rewrite (split_calls (calls_of p es)), (split_calls (calls_of q es)), <- E.
  f_equal. apply run_clock; [exact I|rewrite !map_length; reflexivity|]. apply (f_equal (@length _)) in E. rewrite !map_length in E. rewrite !map_length. lia.
Qed.
End P.
