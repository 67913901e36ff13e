(** Normal draws are below 2^57 in size. *)
From Coq Require Import ZArith Bool Lia Reals Lra List.
From Flocq Require Import Core IEEE754.BinarySingleNaN.
From Verif Require Import Base Arith RealArith FloatArith M_Dsfmt M_Random S_Random S_Normal S_CorrF P_NormF P_CorrF P_Race3 S_FieldF.
Import ListNotations.
Open Scope R_scope.

Section Draw.
Variable m : libm.
Notation F := (Farith m).
Context {S : Type}.
Variable unif : S -> b64 * S.
Hypothesis LS : log_sane m.
Definition sized (x : b64) : Prop := fin x = true /\ Rabs (B2R x) <= bpow radix2 57.
Lemma tail_size n : forall s x s', ok unif s -> tail (A := F) unif n s = Ok (x, s') -> sized x.
Proof.
  induction n; intros s x s' Hs H; [discriminate|]. cbn [tail] in H.
  destruct (disc (A := F) unif (Datatypes.S n) s) as [[[[v1 v2] w] s1]| | |] eqn:D; try discriminate H. cbn [bind] in H.
  destruct (disc_in m unif _ _ _ _ _ _ Hs D) as [[D1 [D2 [D3 D4]]] Hs1].
  pose proof (c_in m LS w D3 D4) as C. set (c := fsqrt F _) in *. clearbody c.
  pose proof (prod_in m c v1 C D1) as [P1 Q1]. pose proof (prod_in m c v2 C D2) as [P2 Q2].
  set (p := mul F c v1) in *. set (q := mul F c v2) in *. clearbody p q.
  destruct (_ && _)%bool; [eapply IHn; [|exact H]; exact Hs1|]. apply Ok_pair in H; destruct H as [<- _].
  destruct (fgt _ _); (split; [assumption|]; apply Rabs_le; lra).
Qed.
Lemma norm_size n s x s' : ok unif s -> Norm01 (A := F) unif n s = Ok (x, s') -> sized x.
Proof.
  intros Hs H. destruct (norm_in m unif LS n s x s' Hs H) as [A B]. 
  destruct (Bltb (drawn unif s 0) (Flit 9973002039 10)) eqn:E.
  - destruct (A eq_refl) as [F1 F2]. split; [exact F1|]. apply Rle_trans with (1 := F2). apply Rle_trans with (bpow radix2 2); [change (bpow radix2 2) with 4; lra|apply bpow_le; lia].
  - destruct (B eq_refl) as [F1 _]. split; [exact F1|]. unfold Norm01 in H. change (drawn unif s 0) with (fst (unif s)) in E. pose proof (ok_next unif s Hs) as Hs1. unfold nextst in Hs1. destruct (ok_unit unif s Hs) as [U _].
    destruct (unif s) as [u t]. cbn [fst snd] in *.
    assert (L3 : exactly (Flit 9973002039 10) (8982881653321119 * bpow radix2 (-53))) by (eapply lit_fin; [vm_compute; reflexivity|reflexivity]).
    assert (L2 : exactly (Flit 9745 4) (8777515673745097 * bpow radix2 (-53))) by (eapply lit_fin; [vm_compute; reflexivity|reflexivity]).
    assert (L1 : exactly (Flit 8638 4) (7780418716245269 * bpow radix2 (-53))) by (eapply lit_fin; [vm_compute; reflexivity|reflexivity]).
    destruct L1 as [L11 L12]. destruct L2 as [L21 L22]. destruct L3 as [L31 L32]. pose proof (bpow_gt_0 radix2 (-53)) as P53.
    cbn [flt lit Farith] in H.
    assert (Fu : fin u = true) by exact U.
    assert (E1 : Bltb u (Flit 8638 4) = false). { apply Bool.not_true_is_false. intros E1. rewrite (below u _ _ Fu L11 L31 E1) in E by (rewrite L12, L32; lra). discriminate E. }
    assert (E2 : Bltb u (Flit 9745 4) = false). { apply Bool.not_true_is_false. intros E2. rewrite (below u _ _ Fu L21 L31 E2) in E by (rewrite L22, L32; lra). discriminate E. }
    rewrite E1, E2, E in H. exact (proj2 (tail_size n t x s' Hs1 H)).
Qed.
Lemma draws_size f n : forall s xs s', ok unif s -> draws (A := F) unif f n s = Ok (xs, s') -> forall x, In x xs -> sized x.
Proof.
  induction n as [|n IH]; intros s xs s' Hs H x Hx; cbn [draws] in H.
  - apply Ok_pair in H as [<- _]. destruct Hx.
  - destruct (Norm01 (A := F) unif f s) as [[y s1]| | |] eqn:E; try discriminate H. cbn [bind] in H.
    destruct (draws (A := F) unif f n s1) as [[ys s2]| | |] eqn:E2; try discriminate H. cbn [bind] in H. apply Ok_pair in H as [<- _].
    destruct Hx as [<-|Hx]; [eapply norm_size; eauto|]. apply (IH s1 ys s2); auto.
    pose proof (Norm01_keeps (A := F) unif (ok unif) (fun s H => ok_next unif s H) f s Hs) as K. rewrite E in K. exact K.
Qed.
End Draw.
Lemma len_sized (x : list b64) : (Z.of_nat (length x) < 2 ^ 53)%Z -> (forall a, In a x -> sized a) -> all_finite x /\ len (vals x) <= bpow radix2 100.
Proof.
  intros N H. split; [intros a Ha; apply H; exact Ha|]. unfold len. unfold vals at 1. rewrite map_length.
  assert (B : rsum (length x) (fun j => nth j (vals x) 0 ^ 2) <= INR (length x) * bpow radix2 114).
  { assert (G : forall k, (k <= length x)%nat -> rsum k (fun j => nth j (vals x) 0 ^ 2) <= INR k * bpow radix2 114).
    { induction k; intros Hk; [cbn [rsum INR]; pose proof (bpow_gt_0 radix2 114); lra|]. cbn [rsum]. rewrite S_INR. specialize (IHk ltac:(lia)).
      assert (Q : nth k (vals x) 0 ^ 2 <= bpow radix2 114).
      { assert (K : (k < length x)%nat) by lia. unfold vals. rewrite (nth_indep _ 0 (B2R zero64)) by (rewrite map_length; exact K). rewrite map_nth. destruct (H (nth k x zero64) (nth_In x zero64 K)) as [_ Q].
        rewrite <- pow2_abs. change 114%Z with (57 + 57)%Z. rewrite bpow_plus. replace (Rabs (B2R (nth k x zero64)) ^ 2) with (Rabs (B2R (nth k x zero64)) * Rabs (B2R (nth k x zero64))) by ring.
        apply Rmult_le_compat; auto using Rabs_pos. }
      lra. }
    apply G. lia. }
  assert (N2 : INR (length x) <= bpow radix2 53). { rewrite INR_IZR_INZ. change (bpow radix2 53) with (IZR (2 ^ 53)). apply IZR_le. lia. }
  apply Rle_trans with (sqrt (bpow radix2 100 * bpow radix2 100)); [apply sqrt_le_1_alt|rewrite sqrt_square by apply bpow_ge_0; lra].
  apply Rle_trans with (1 := B). apply Rle_trans with (bpow radix2 53 * bpow radix2 114); [apply Rmult_le_compat_r; [apply bpow_ge_0|exact N2]|].
  rewrite <- !bpow_plus. apply bpow_le. lia.
Qed.
