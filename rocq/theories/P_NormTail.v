(** C13: the branch of the normal sampler for values beyond 3. *)
From Coq Require Import ZArith Bool Lia Reals Lra Psatz List.
From Coquelicot Require Import Coquelicot.
From Verif Require Import Base Arith RealArith M_Random S_Normal S_NormTail P_Norm P_NormMix.
Import ListNotations.
Open Scope R_scope.

Lemma branch4 u l n : 9973002039 / 10000000000 <= u -> normal n (u :: l) = tail (A := Rarith) feed n l.
Proof.
  intros H. unfold normal, Norm01. cbn [feed flt lit Rarith]. unfold Rltb.
  change (IZR (10 ^ 4)) with 10000. change (IZR (10 ^ 10)) with 10000000000.
  destruct (Rlt_dec u (8638 / 10000)); [lra|]. destruct (Rlt_dec u (9745 / 10000)); [lra|]. destruct (Rlt_dec u (9973002039 / 10000000000)); [lra|]. reflexivity.
Qed.
Lemma sc1 t : cos t * cos t + sin t * sin t = 1.
Proof. pose proof (sin2_cos2 t) as H. unfold Rsqr in H. lra. Qed.
Lemma disc_in n v1 v2 l : v1 * v1 + v2 * v2 < 1 -> disc (A := Rarith) feed (S n) ((1 + v1) / 2 :: (1 + v2) / 2 :: l) = Ok (v1, v2, v1 * v1 + v2 * v2, l).
Proof.
  intros H. cbn [disc feed]. unfold fge. cbn [fle lit mul sub add Rarith num]. change (IZR (10 ^ 0)) with 1.
  replace (2 / 1 * ((1 + v1) / 2) - 1 / 1) with v1 by field. replace (2 / 1 * ((1 + v2) / 2) - 1 / 1) with v2 by field.
  unfold Rleb. destruct (Rle_dec (1 / 1) (v1 * v1 + v2 * v2)); [lra|]. reflexivity.
Qed.
Lemma disc_out n v1 v2 l : 1 <= v1 * v1 + v2 * v2 -> disc (A := Rarith) feed (S n) ((1 + v1) / 2 :: (1 + v2) / 2 :: l) = disc (A := Rarith) feed n l.
Proof.
  intros H. cbn [disc feed]. unfold fge. cbn [fle lit mul sub add Rarith num]. change (IZR (10 ^ 0)) with 1.
  replace (2 / 1 * ((1 + v1) / 2) - 1 / 1) with v1 by field. replace (2 / 1 * ((1 + v2) / 2) - 1 / 1) with v2 by field.
  unfold Rleb. destruct (Rle_dec (1 / 1) (v1 * v1 + v2 * v2)); [|lra]. reflexivity.
Qed.
Lemma ln_neg r : 0 < r < 1 -> ln r < 0.
Proof. intros H. rewrite <- ln_1. apply ln_increasing; lra. Qed.
(** the code's scaling moves the point along its direction to the new radius *)
Lemma scale_dir r x : 0 < r < 1 -> sqrt ((9 - 2 * ln (r * r)) / (r * r)) * (r * x) = tail_radius r * x.
Proof.
  intros H. unfold tail_radius. assert (L : ln (r * r) = 2 * ln r) by (rewrite ln_mult by lra; ring). rewrite L. pose proof (ln_neg r H).
  rewrite sqrt_div_alt by nra. rewrite sqrt_square by lra. replace (2 * (2 * ln r)) with (4 * ln r) by ring. field. lra.
Qed.

Lemma tail_case n u r t l : 9973002039 / 10000000000 <= u -> 0 < r < 1 ->
  let x := tail_radius r * cos t in let y := tail_radius r * sin t in
  let o := normal (S n) (u :: (1 + r * cos t) / 2 :: (1 + r * sin t) / 2 :: l) in
  (3 < Rabs x -> o = Ok (x, l)) /\ (Rabs x <= 3 -> 3 < Rabs y -> o = Ok (y, l)) /\ (Rabs x <= 3 -> Rabs y <= 3 -> o = normal n (u :: l)).
Proof.
  intros Hu Hr x y o. unfold o. rewrite !branch4 by exact Hu.
  assert (W : r * cos t * (r * cos t) + r * sin t * (r * sin t) = r * r).
  { pose proof (sc1 t). replace (r * cos t * (r * cos t) + r * sin t * (r * sin t)) with (r * r * (cos t * cos t + sin t * sin t)) by ring. rewrite H. ring. }
  cbn [tail]. rewrite disc_in by (rewrite W; nra). cbn [bind]. rewrite W.
  unfold fgt. cbn [fle flt lit mul sub add div fsqrt flog fabs Rarith num]. change (IZR (10 ^ 0)) with 1.
  replace (9 / 1 - 2 / 1 * ln (r * r)) with (9 - 2 * ln (r * r)) by field.
  rewrite !scale_dir by exact Hr. fold x. fold y. unfold Rleb, Rltb.
  destruct (Rle_dec (Rabs x) (3 / 1)); destruct (Rle_dec (Rabs y) (3 / 1)); destruct (Rlt_dec (3 / 1) (Rabs x)); cbn [andb];
    (split; [|split]); intros; try reflexivity; lra.
Qed.
Lemma disc_case n u u1 u2 l : 9973002039 / 10000000000 <= u -> 1 <= (2 * u1 - 1) ^ 2 + (2 * u2 - 1) ^ 2 ->
  disc (A := Rarith) feed (S n) (u1 :: u2 :: l) = disc (A := Rarith) feed n l.
Proof.
  intros _ H. replace u1 with ((1 + (2 * u1 - 1)) / 2) by field. replace u2 with ((1 + (2 * u2 - 1)) / 2) by field. apply disc_out. lra.
Qed.

(** ** the law of the new radius *)
Definition back (q : R) : R := exp ((9 - q * q) / 4).
Lemma radius_back q : 0 <= q -> tail_radius (back q) = q.
Proof. intros H. unfold tail_radius, back. rewrite ln_exp. replace (9 - 4 * ((9 - q * q) / 4)) with (q * q) by field. apply sqrt_square. exact H. Qed.
Lemma radius_gt r q : 0 < r < 1 -> 3 <= q -> (q < tail_radius r <-> r * r < exp ((9 - q * q) / 2)).
Proof.
  intros Hr Hq. pose proof (ln_neg r Hr) as L.
  assert (E : r * r < exp ((9 - q * q) / 2) <-> q * q < 9 - 4 * ln r).
  { assert (RR : r * r = exp (2 * ln r)) by (replace (2 * ln r) with (ln r + ln r) by ring; rewrite exp_plus, exp_ln; lra). rewrite RR. split; intros H.
    - apply exp_lt_inv in H. lra.
    - apply exp_increasing. lra. }
  rewrite E. unfold tail_radius. split; intros H.
  - destruct (Rlt_dec (q * q) (9 - 4 * ln r)); auto. exfalso. assert (sqrt (9 - 4 * ln r) <= q) by (rewrite <- (sqrt_square q) by lra; apply sqrt_le_1_alt; lra). lra.
  - rewrite <- (sqrt_square q) at 1 by lra. apply sqrt_lt_1_alt. nra.
Qed.
Lemma back_derive q : is_derive back q (- (q / 2) * back q).
Proof.
  unfold back. auto_derive; [auto|]. replace ((9 + - (q * q)) * / 4) with ((9 - q * q) / 4) by field. field.
Qed.
Lemma tail_law (h : R -> R) T : (forall x, continuous h x) -> 3 <= T ->
  RInt (fun r => h (tail_radius r) * (2 * r)) (back T) 1 = RInt (fun q => h q * (q * exp ((9 - q * q) / 2))) 3 T.
Proof.
  intros Hh HT. set (f := fun r => h (tail_radius r) * (2 * r)).
  assert (B3 : back 3 = 1) by (unfold back; replace ((9 - 3 * 3) / 4) with 0 by field; apply exp_0).
  rewrite <- B3. 
  assert (C : forall x, Rmin 3 T <= x <= Rmax 3 T -> continuous f (back x)).
  { intros x Hx. rewrite Rmin_left, Rmax_right in Hx by lra. unfold f. apply (continuous_mult (K := R_AbsRing)).
    - apply (continuous_comp tail_radius h); [|apply Hh]. unfold tail_radius.
      apply (ex_derive_continuous (V := R_NormedModule)). auto_derive. pose proof (exp_pos ((9 - x * x) / 4)). unfold back. rewrite ln_exp.
      repeat split; [exact H|]. nra.
    - apply (ex_derive_continuous (V := R_NormedModule)). auto_derive. auto. }
  assert (D : forall x, Rmin 3 T <= x <= Rmax 3 T -> is_derive back x (- (x / 2) * back x) /\ continuous (fun x => - (x / 2) * back x) x).
  { intros x _. split; [apply back_derive|]. apply (ex_derive_continuous (V := R_NormedModule)). unfold back. auto_derive. auto. }
  pose proof (is_RInt_comp (V := R_CompleteNormedModule) f back _ 3 T C D) as I. apply is_RInt_unique in I.
  rewrite <- opp_RInt_swap; [|apply (ex_RInt_continuous (V := R_CompleteNormedModule)); intros z Hz].
  - rewrite <- I. change opp with Ropp.
    assert (E : forall a b : R, - a = b <-> a = - b) by (intros; lra). apply E. 
    rewrite <- (RInt_opp (V := R_CompleteNormedModule)).
    + apply RInt_ext. intros x Hx. rewrite Rmin_left, Rmax_right in Hx by lra. unfold f. rewrite radius_back by lra. change opp with Ropp. change scal with Rmult.
      assert (BB : back x * back x = exp ((9 - x * x) / 2)) by (unfold back; rewrite <- exp_plus; f_equal; field). cbn. rewrite <- BB. field.
    + apply (ex_RInt_continuous (V := R_CompleteNormedModule)). intros z _. apply (continuous_mult (K := R_AbsRing)); [apply Hh|].
      apply (ex_derive_continuous (V := R_NormedModule)). auto_derive. auto.
  - assert (BT : 0 < back T <= 1) by (split; [apply exp_pos|rewrite <- B3; unfold back; destruct (Req_dec T 3) as [->|N]; [lra|left; apply exp_increasing; nra]]).
    rewrite B3 in Hz. rewrite Rmin_right, Rmax_left in Hz by lra.
    assert (Q : 0 <= 9 - 4 * ln z) by (destruct (Req_dec z 1) as [->|N]; [rewrite ln_1; lra|pose proof (ln_neg z ltac:(lra)); lra]).
    assert (Z : z = back (tail_radius z)).
    { unfold back, tail_radius. rewrite sqrt_sqrt by exact Q. replace ((9 - (9 - 4 * ln z)) / 4) with (ln z) by field. symmetry. apply exp_ln. lra. }
    rewrite Z. apply C. rewrite Rmin_left, Rmax_right by lra. unfold tail_radius. split.
    + rewrite <- (sqrt_square 3) at 1 by lra. apply sqrt_le_1_alt. destruct (Req_dec z 1) as [->|N]; [rewrite ln_1; lra|pose proof (ln_neg z ltac:(lra)); lra].
    + rewrite <- (sqrt_square T) by lra. apply sqrt_le_1_alt.
      assert (K : (9 - T * T) / 4 <= ln z). { rewrite <- (ln_exp ((9 - T * T) / 4)). fold (back T). destruct (Req_dec (back T) z) as [->|N]; [lra|left; apply ln_increasing; lra]. }
      lra.
Qed.
