(** Rational bounds of exp, computed. *)
From Coq Require Import ZArith QArith Qreals Qpower Reals Lra Lia.
From Verif Require Import P_RBounds.
Open Scope R_scope.

Fixpoint qpow (q : Q) (n : nat) : Q := match n with O => 1%Q | S m => Qred (q * qpow q m) end.
Fixpoint qfact (n : nat) : Z := match n with O => 1%Z | S m => (Z.of_nat n * qfact m)%Z end.
Fixpoint qet (n : nat) (q : Q) : Q := match n with O => 1%Q | S m => Qred (qet m q + qpow q n / inject_Z (qfact n)) end.

Lemma Q2R_Qred q : Q2R (Qred q) = Q2R q.
Proof. apply Qeq_eqR, Qred_correct. Qed.
Lemma Q2R_inject z : Q2R (inject_Z z) = IZR z.
Proof. unfold Q2R, inject_Z. simpl. field. Qed.
Lemma Q2R_1 : Q2R 1 = 1.
Proof. unfold Q2R. simpl. lra. Qed.
Lemma Q2R_qpow q n : Q2R (qpow q n) = Q2R q ^ n.
Proof. induction n; cbn [qpow pow]; [apply Q2R_1|]. rewrite Q2R_Qred, Q2R_mult, IHn. reflexivity. Qed.
Lemma qfact_fact n : IZR (qfact n) = INR (fact n).
Proof. induction n; [reflexivity|]. cbn [qfact]. rewrite mult_IZR, IHn, fact_simpl, mult_INR, <- INR_IZR_INZ. reflexivity. Qed.
Lemma qfact_pos n : (0 < qfact n)%Z.
Proof. induction n; cbn [qfact]; lia. Qed.
Lemma inject_nz z : (0 < z)%Z -> ~ (inject_Z z == 0)%Q.
Proof. intros H E. unfold Qeq in E. simpl in E. lia. Qed.
Lemma Q2R_qet n q : Q2R (qet n q) = etaylor n (Q2R q).
Proof.
  induction n; [apply Q2R_1|]. cbn [qet etaylor].
  rewrite Q2R_Qred, Q2R_plus, Q2R_div by (apply inject_nz, qfact_pos).
  rewrite IHn, Q2R_qpow, Q2R_inject, qfact_fact. reflexivity.
Qed.

(** bounds of exp q, for 0 <= q <= k *)
Definition qexp_lo (n k : nat) (q : Q) : Q := qpow (qet n (q / inject_Z (Z.of_nat k))) k.
Definition qexp_hi (n k : nat) (q : Q) : Q :=
  let x := Qred (q / inject_Z (Z.of_nat k)) in
  qpow (Qred (qet n x + 3 * qpow x (S n) / inject_Z (qfact (S n)))) k.

Lemma qexp_bounds n k q : (0 < k)%nat -> (0 <= q)%Q -> (q <= inject_Z (Z.of_nat k))%Q ->
  Q2R (qexp_lo n k q) <= exp (Q2R q) <= Q2R (qexp_hi n k q).
Proof.
  intros Hk H0 H1. apply Qle_Rle in H0, H1. rewrite Q2R_inject, <- INR_IZR_INZ in H1.
  assert (E0 : Q2R 0 = 0) by (unfold Q2R; simpl; lra). rewrite E0 in H0.
  assert (Hk' : 0 < INR k) by (apply lt_0_INR; auto).
  assert (E : Q2R (q / inject_Z (Z.of_nat k)) = Q2R q / INR k).
  { rewrite Q2R_div by (apply inject_nz; lia). rewrite Q2R_inject, <- INR_IZR_INZ. reflexivity. }
  assert (P : 0 <= Q2R q / INR k <= 1).
  { split; [apply Rmult_le_pos; [auto|left; apply Rinv_0_lt_compat; auto]|]. apply (Rmult_le_reg_r (INR k)); auto. 
    replace (Q2R q / INR k * INR k) with (Q2R q) by (field; lra). lra. }
  assert (X : exp (Q2R q) = exp (Q2R q / INR k) ^ k).
  { rewrite <- exp_mult_nat. f_equal. field. lra. }
  rewrite X. unfold qexp_lo, qexp_hi. rewrite !Q2R_qpow. split; apply pow_incr; split.
  - rewrite Q2R_qet, E. clear - P. destruct P as [P _]. revert P. generalize (Q2R q / INR k). intros x Hx. 
    induction n; cbn [etaylor]; [lra|]. apply Rplus_le_le_0_compat; auto. apply Rmult_le_pos; [apply pow_le; auto|].
    left. apply Rinv_0_lt_compat, INR_fact_pos.
  - rewrite Q2R_qet, E. apply exp_lower. lra.
  - left. apply exp_pos.
  - rewrite Q2R_Qred, Q2R_plus, Q2R_div by (apply inject_nz, qfact_pos).
    rewrite Q2R_qet, Q2R_mult, Q2R_qpow, Q2R_Qred, E, Q2R_inject, qfact_fact.
    assert (E3 : Q2R 3 = 3) by (unfold Q2R; simpl; lra). rewrite E3.
    pose proof (exp_upper1 n (Q2R q / INR k) P) as H. 
    replace (3 * (Q2R q / INR k) ^ S n / INR (fact (S n))) with (3 * ((Q2R q / INR k) ^ S n / INR (fact (S n)))) by (unfold Rdiv; ring).
    exact H.
Qed.

(** exp (a/b) between c/d and e/f, checked by computation; a, b, c, d, e, f positive *)
Lemma exp_between (a : Z) (b : positive) (lo hi : Q) n k :
  (Qle_bool 0 (a # b) && Qle_bool (a # b) (inject_Z (Z.of_nat k)) && Nat.ltb 0 k
   && Qle_bool lo (qexp_lo n k (a # b)) && Qle_bool (qexp_hi n k (a # b)) hi)%bool = true ->
  Q2R lo <= exp (IZR a / IZR (Zpos b)) <= Q2R hi.
Proof.
  rewrite !Bool.andb_true_iff, !Qle_bool_iff, Nat.ltb_lt. intros ((((H0 & H1) & Hk) & Hl) & Hh).
  pose proof (qexp_bounds n k _ Hk H0 H1) as [A B]. apply Qle_Rle in Hl, Hh. 
  change (IZR a / IZR (Z.pos b)) with (Q2R (a # b)). split; lra.
Qed.
Lemma exp_neg_between (a : Z) (b : positive) (lo hi : Q) n k :
  (Qle_bool 0 (a # b) && Qle_bool (a # b) (inject_Z (Z.of_nat k)) && Nat.ltb 0 k
   && Qle_bool 0 lo && Qle_bool 0 hi && Qle_bool (lo * qexp_hi n k (a # b)) 1 && Qle_bool 1 (hi * qexp_lo n k (a # b)))%bool = true ->
  Q2R lo <= exp (- (IZR a / IZR (Zpos b))) <= Q2R hi.
Proof.
  rewrite !Bool.andb_true_iff, !Qle_bool_iff, Nat.ltb_lt. intros ((((((H0 & H1) & Hk) & H2) & H3) & Hl) & Hh).
  pose proof (qexp_bounds n k _ Hk H0 H1) as [A B]. apply Qle_Rle in Hl, Hh, H2, H3. 
  change (IZR a / IZR (Z.pos b)) with (Q2R (a # b)). rewrite Q2R_mult in Hl, Hh. rewrite Q2R_1 in *.
  assert (E0 : Q2R 0 = 0) by (unfold Q2R; simpl; lra). rewrite E0 in H2, H3.
  rewrite exp_Ropp. pose proof (exp_pos (Q2R (a # b))) as P. set (e := exp (Q2R (a # b))) in *.
  assert (X : e * / e = 1) by (field; lra). assert (Y : 0 < / e) by (apply Rinv_0_lt_compat; auto). split.
  - assert (Q2R lo * e <= 1) by nra. apply (Rmult_le_reg_r e); auto. rewrite Rinv_l by lra. auto.
  - assert (1 <= Q2R hi * e) by nra. apply (Rmult_le_reg_r e); auto. rewrite Rinv_l by lra. auto.
Qed.

Example e3 : 497870/10000000 <= exp (- (3 / 1)) <= 497871/10000000.
Proof. refine (exp_neg_between 3 1 (497870 # 10000000) (497871 # 10000000) 12 4 _). vm_compute. reflexivity. Qed.
