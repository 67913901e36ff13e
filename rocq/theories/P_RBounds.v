(** Rational bounds for exp and ln. *)
From Coq Require Import ZArith Lia Reals Lra.
From Coquelicot Require Import Coquelicot.
Open Scope R_scope.

Lemma incr_from0 (f f' : R -> R) x : 0 <= x ->
  (forall t, 0 <= t <= x -> is_derive f t (f' t)) -> (forall t, 0 <= t <= x -> 0 <= f' t) -> f 0 <= f x.
Proof.
  intros Hx Hd Hp. 
  destruct (MVT_gen f 0 x f') as (c & Hc & E).
  - intros t Ht. rewrite Rmin_left, Rmax_right in Ht by lra. apply Hd. lra.
  - intros t Ht. rewrite Rmin_left, Rmax_right in Ht by lra. apply continuity_pt_filterlim.
    apply (ex_derive_continuous (V := R_NormedModule)). exists (f' t). apply Hd. lra.
  - rewrite Rmin_left, Rmax_right in Hc by lra. specialize (Hp c ltac:(lra)). nra.
Qed.

(** ** exp *)
Fixpoint etaylor (n : nat) (x : R) : R := match n with O => 1 | S m => etaylor m x + x ^ n / INR (fact n) end.
Lemma etaylor_0 n : etaylor n 0 = 1.
Proof. induction n; cbn [etaylor]; [reflexivity|]. rewrite IHn, pow_ne_zero by lia. unfold Rdiv. rewrite Rmult_0_l. lra. Qed.
Lemma INR_fact_pos n : 0 < INR (fact n).
Proof. apply lt_0_INR, lt_O_fact. Qed.
Lemma is_derive_pow_fact n x : is_derive (fun t => t ^ S n / INR (fact (S n))) x (x ^ n / INR (fact n)).
Proof.
  rewrite fact_simpl, mult_INR. pose proof (INR_fact_pos n) as H. pose proof (lt_0_INR (S n) ltac:(lia)) as H1.
  generalize dependent (INR (fact n)). intros c Hc. 
  auto_derive; [nra|]. change (match n with O => 1 | S _ => INR n + 1 end) with (INR (S n)). simpl Nat.pred. field. split; lra.
Qed.
Lemma is_derive_etaylor n x : is_derive (etaylor (S n)) x (etaylor n x).
Proof.
  induction n.
  - cbn [etaylor]. apply (is_derive_ext (fun t => 1 + t)); [intros; simpl; field|]. auto_derive; auto; ring.
  - cbn [etaylor]. apply (is_derive_plus (K := R_AbsRing) (V := R_NormedModule) (etaylor (S n))); [exact IHn|]. 
    apply (is_derive_pow_fact (S n)).
Qed.
Lemma exp_lower n x : 0 <= x -> etaylor n x <= exp x.
Proof.
  revert x. induction n; intros x Hx.
  - simpl. pose proof (exp_ineq1_le x). lra.
  - enough (0 <= exp x - etaylor (S n) x) by lra.
    assert (E : exp 0 - etaylor (S n) 0 = 0) by (rewrite etaylor_0, exp_0; lra).
    rewrite <- E. apply (incr_from0 (fun t => exp t - etaylor (S n) t) (fun t => exp t - etaylor n t)); auto.
    + intros t _. apply (is_derive_minus (K := R_AbsRing) (V := R_NormedModule) exp); [apply is_derive_exp|apply is_derive_etaylor].
    + intros t Ht. specialize (IHn t ltac:(lra)). lra.
Qed.
Lemma exp_upper n x M : 0 <= x -> (forall t, 0 <= t <= x -> exp t <= M) -> exp x <= etaylor n x + M * (x ^ S n / INR (fact (S n))).
Proof.
  revert x. induction n; intros x Hx HM.
  - simpl. replace (M * (x * 1 / 1)) with (M * x) by field.
    assert (E : 1 + M * 0 - exp 0 = 0) by (rewrite exp_0; lra).
    enough (0 <= 1 + M * x - exp x) by lra. rewrite <- E.
    apply (incr_from0 (fun t => 1 + M * t - exp t) (fun t => M - exp t)); auto.
    + intros t _. auto_derive; auto. ring.
    + intros t Ht. specialize (HM t Ht). lra.
  - assert (E : etaylor (S n) 0 + M * (0 ^ S (S n) / INR (fact (S (S n)))) - exp 0 = 0).
    { rewrite etaylor_0, exp_0, pow_ne_zero by lia. unfold Rdiv. rewrite Rmult_0_l. lra. }
    enough (0 <= etaylor (S n) x + M * (x ^ S (S n) / INR (fact (S (S n)))) - exp x) by lra. rewrite <- E.
    apply (incr_from0 (fun t => etaylor (S n) t + M * (t ^ S (S n) / INR (fact (S (S n)))) - exp t)
                      (fun t => etaylor n t + M * (t ^ S n / INR (fact (S n))) - exp t)); auto.
    + intros t _. apply (is_derive_minus (K := R_AbsRing) (V := R_NormedModule)); [|apply is_derive_exp].
      apply (is_derive_plus (K := R_AbsRing) (V := R_NormedModule)); [apply is_derive_etaylor|].
      apply (is_derive_scal (fun t => t ^ S (S n) / INR (fact (S (S n)))) t M), is_derive_pow_fact.
    + intros t Ht. specialize (IHn t ltac:(lra)). assert (forall u, 0 <= u <= t -> exp u <= M) by (intros; apply HM; lra). specialize (IHn H). lra.
Qed.
Lemma exp_1_le_3 : exp 1 <= 3.
Proof. exact exp_le_3. Qed.
Lemma exp_le_mono x y : x <= y -> exp x <= exp y.
Proof. intros [H| ->]; [left; apply exp_increasing; auto|lra]. Qed.
Lemma exp_upper1 n x : 0 <= x <= 1 -> exp x <= etaylor n x + 3 * (x ^ S n / INR (fact (S n))).
Proof.
  intros Hx. apply exp_upper; [lra|]. intros t Ht. apply Rle_trans with (exp 1); [apply exp_le_mono; lra|apply exp_1_le_3].
Qed.
Lemma exp_mult_nat n x : exp (INR n * x) = exp x ^ n.
Proof. induction n; [simpl; rewrite Rmult_0_l; apply exp_0|]. rewrite S_INR, Rmult_plus_distr_r, Rmult_1_l, exp_plus, IHn. simpl. ring. Qed.

(** ** ln *)
Fixpoint ltaylor (n : nat) (x : R) : R := match n with O => 0 | S m => ltaylor m x + 2 * x ^ (2 * m + 1) / INR (2 * m + 1) end.
Fixpoint geo (n : nat) (x : R) : R := match n with O => 0 | S m => geo m x + 2 * x ^ (2 * m) end.
Lemma ltaylor_0 n : ltaylor n 0 = 0.
Proof. induction n; cbn [ltaylor]; [reflexivity|]. rewrite IHn, pow_ne_zero by lia. unfold Rdiv. rewrite Rmult_0_r, Rmult_0_l. lra. Qed.
Lemma geo_sum n x : geo n x * (1 - x ^ 2) = 2 - 2 * x ^ (2 * n).
Proof.
  induction n; cbn [geo]; [simpl; ring|]. rewrite Rmult_plus_distr_r, IHn. replace (2 * S n)%nat with (2 * n + 2)%nat by lia.
  rewrite pow_add. ring.
Qed.
Lemma is_derive_term m x c : is_derive (fun t => c * t ^ (2 * m + 1) / INR (2 * m + 1)) x (c * x ^ (2 * m)).
Proof.
  rewrite Nat.add_1_r. generalize (2 * m)%nat. intros k. pose proof (lt_0_INR (S k) ltac:(lia)) as H.
  apply (is_derive_ext (fun t => c / INR (S k) * t ^ S k)); [intros t; change (c / INR (S k) * t ^ S k = c * t ^ S k / INR (S k)); field; lra|].
  replace (c * x ^ k) with (c / INR (S k) * (INR (S k) * 1 * x ^ Nat.pred (S k))) by (simpl Nat.pred; field; lra).
  apply (is_derive_scal (fun t => t ^ S k)). apply (is_derive_pow (fun t => t)). apply (is_derive_id (K := R_AbsRing)).
Qed.
Lemma is_derive_ltaylor n x : is_derive (ltaylor n) x (geo n x).
Proof.
  induction n; cbn [ltaylor geo].
  - apply (is_derive_const (K := R_AbsRing) (V := R_NormedModule)).
  - apply (is_derive_plus (K := R_AbsRing) (V := R_NormedModule)); [exact IHn|apply is_derive_term].
Qed.
Lemma is_derive_atanh x : 0 <= x < 1 -> is_derive (fun t => ln (1 + t) - ln (1 - t)) x (2 / (1 - x ^ 2)).
Proof. intros Hx. auto_derive; [lra|]. assert (0 < 1 - x ^ 2) by nra. field. repeat split; lra. Qed.

Lemma ln_bounds n x : 0 <= x < 1 ->
  ltaylor n x <= ln ((1 + x) / (1 - x)) <= ltaylor n x + 2 / (1 - x ^ 2) * x ^ (2 * n + 1) / INR (2 * n + 1).
Proof.
  intros Hx. rewrite ln_div by lra. 
  assert (Hg : forall t, 0 <= t <= x -> 2 / (1 - t ^ 2) - geo n t = 2 * t ^ (2 * n) / (1 - t ^ 2)).
  { intros t Ht. pose proof (geo_sum n t). assert (0 < 1 - t ^ 2) by nra. apply Rmult_eq_reg_r with (1 - t ^ 2); [|lra].
    unfold Rminus at 1. rewrite Rmult_plus_distr_r. replace (- geo n t * (1 - t ^ 2)) with (- (geo n t * (1 - t ^ 2))) by ring.
    rewrite H. field. lra. }
  assert (Hpos : forall t, 0 <= t -> 0 <= t ^ (2 * n)) by (intros; apply pow_le; auto).
  split.
  - enough (0 <= ln (1 + x) - ln (1 - x) - ltaylor n x) by lra.
    assert (E : ln (1 + 0) - ln (1 - 0) - ltaylor n 0 = 0) by (rewrite ltaylor_0; replace (1 + 0) with 1 by ring; replace (1 - 0) with 1 by ring; rewrite ?ln_1; lra).
    rewrite <- E. apply (incr_from0 (fun t => ln (1 + t) - ln (1 - t) - ltaylor n t) (fun t => 2 / (1 - t ^ 2) - geo n t)); [lra| |].
    + intros t Ht. apply (is_derive_minus (K := R_AbsRing) (V := R_NormedModule)); [apply is_derive_atanh; lra|apply is_derive_ltaylor].
    + intros t Ht. rewrite Hg by auto. assert (0 < 1 - t ^ 2) by nra. specialize (Hpos t ltac:(lra)).
      unfold Rdiv. apply Rmult_le_pos; [lra|left; apply Rinv_0_lt_compat; auto].
  - set (c := 2 / (1 - x ^ 2)).
    enough (0 <= ltaylor n x + c * x ^ (2 * n + 1) / INR (2 * n + 1) - (ln (1 + x) - ln (1 - x))) by lra.
    assert (E : ltaylor n 0 + c * 0 ^ (2 * n + 1) / INR (2 * n + 1) - (ln (1 + 0) - ln (1 - 0)) = 0).
    { rewrite ltaylor_0; replace (1 + 0) with 1 by ring; replace (1 - 0) with 1 by ring; rewrite ?ln_1, pow_ne_zero by lia; unfold Rdiv. rewrite Rmult_0_r, Rmult_0_l. lra. }
    rewrite <- E. apply (incr_from0 (fun t => ltaylor n t + c * t ^ (2 * n + 1) / INR (2 * n + 1) - (ln (1 + t) - ln (1 - t)))
       (fun t => geo n t + c * t ^ (2 * n) - 2 / (1 - t ^ 2))); [lra| |].
    + intros t Ht. apply (is_derive_minus (K := R_AbsRing) (V := R_NormedModule)); [|apply is_derive_atanh; lra].
      apply (is_derive_plus (K := R_AbsRing) (V := R_NormedModule)); [apply is_derive_ltaylor|apply is_derive_term].
    + intros t Ht. specialize (Hg t Ht). specialize (Hpos t ltac:(lra)).
      assert (0 < 1 - x ^ 2) by nra. assert (1 - x ^ 2 <= 1 - t ^ 2) by nra.
      assert (2 * t ^ (2 * n) / (1 - t ^ 2) <= c * t ^ (2 * n)); [|lra].
      unfold c, Rdiv. assert (/ (1 - t ^ 2) <= / (1 - x ^ 2)) by (apply Rinv_le_contravar; lra). nra.
Qed.

Lemma ln2_bounds : 6931471804 / 10000000000 < ln 2 < 6931471807 / 10000000000.
Proof.
  pose proof (ln_bounds 9 (1 / 3) ltac:(lra)) as H. replace ((1 + 1 / 3) / (1 - 1 / 3)) with 2 in H by field.
  assert (E : ltaylor 9 (1 / 3) = 7616225505626 / 10987890768855).
  { cbn [ltaylor]. rewrite !INR_IZR_INZ. cbn [Nat.mul Nat.add Z.of_nat Pos.of_succ_nat Pos.succ]. field. }
  assert (E' : 2 / (1 - (1 / 3) ^ 2) * (1 / 3) ^ (2 * 9 + 1) / INR (2 * 9 + 1) = 1 / 9814652388).
  { rewrite INR_IZR_INZ. cbn [Nat.mul Nat.add Z.of_nat Pos.of_succ_nat Pos.succ]. field. }
  rewrite E, E' in H. lra.
Qed.
