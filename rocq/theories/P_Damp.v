(** Smoothing in double precision: one factor. *)
From Coq Require Import ZArith Bool Lia Reals Lra Psatz.
From Flocq Require Import Core IEEE754.BinarySingleNaN.
From Verif Require Import Base Arith RealArith FloatArith S_Random P_NormF S_CorrF P_CorrF P_CorrF2 P_CorrF4 P_Accur P_Accur2 P_Accur3 P_Accur10 P_Accur11 S_Accur S_Reach S_Damp P_RBounds P_FieldF P_FieldG P_FieldI.
Open Scope R_scope.

Lemma exp_gap u v : u <= v -> 0 <= exp (- u) - exp (- v) <= (v - u) * exp (- u).
Proof.
  intros H. assert (E : exp (- v) = exp (- u) * exp (u - v)) by (rewrite <- exp_plus; f_equal; ring). rewrite E.
  pose proof (exp_pos (- u)) as P. pose proof (exp_ineq1_le (u - v)) as I.
  assert (J : exp (u - v) <= 1). { rewrite <- exp_0. destruct H as [H|H]; [left; apply exp_increasing; lra|right; f_equal; lra]. }
  nra.
Qed.
Lemma half_exp x : 0 <= x -> x * exp (- (x / 2)) <= 2.
Proof.
  intros H. rewrite exp_Ropp. pose proof (exp_pos (x / 2)) as P. pose proof (exp_ineq1_le (x / 2)) as I.
  apply (Rmult_le_reg_r (exp (x / 2))); [exact P|]. rewrite Rmult_assoc, Rinv_l by lra. lra.
Qed.
Lemma exp_scaled x d : 0 <= x -> Rabs d <= 1 / 2 -> Rabs (exp (- (x * (1 + d))) - exp (- x)) <= 2 * Rabs d.
Proof.
  intros X D. pose proof (half_exp x X) as H. pose proof (exp_pos (- (x / 2))) as P.
  assert (M : forall u, x / 2 <= u -> exp (- u) <= exp (- (x / 2))) by (intros u Hu; destruct Hu as [Hu|Hu]; [left; apply exp_increasing; lra|rewrite Hu; lra]).
  destruct (Rle_dec 0 d) as [S|S].
  - rewrite (Rabs_pos_eq d) in * by lra. assert (L : x <= x * (1 + d)) by nra. pose proof (exp_gap _ _ L) as G. pose proof (M x ltac:(lra)) as Q.
    rewrite Rabs_minus_sym, Rabs_pos_eq by lra. pose proof (exp_pos (- x)). apply Rle_trans with (1 := proj2 G). replace (x * (1 + d) - x) with (d * x) by ring.
    apply Rle_trans with (d * (x * exp (- (x / 2)))); [rewrite <- Rmult_assoc; apply Rmult_le_compat_l; [nra|lra]|]. nra.
  - rewrite (Rabs_left d) in * by lra. assert (L : x * (1 + d) <= x) by nra. pose proof (exp_gap _ _ L) as G. pose proof (M (x * (1 + d)) ltac:(nra)) as Q.
    rewrite Rabs_pos_eq by lra. apply Rle_trans with (1 := proj2 G). replace (x - x * (1 + d)) with (- d * x) by ring.
    apply Rle_trans with (- d * (x * exp (- (x / 2)))); [rewrite <- Rmult_assoc; apply Rmult_le_compat_l; [nra|lra]|]. nra.
Qed.
Lemma ln_near e : Rabs e <= u53 -> Rabs (ln (1 + e)) <= 11 / 10 * u53.
Proof.
  intros H. pose proof u53_small as U. apply Rcomplements.Rabs_le_between in H. 
  assert (A : forall t, 0 < t -> ln t <= t - 1). { intros t T. pose proof (exp_ineq1_le (ln t)). rewrite exp_ln in H0 by exact T. lra. }
  apply Rabs_le. split.
  - pose proof (A (/ (1 + e)) ltac:(apply Rinv_0_lt_compat; lra)) as B. rewrite ln_Rinv in B by lra.
    assert (C : / (1 + e) - 1 <= 11 / 10 * u53). { apply (Rmult_le_reg_r (1 + e)); [lra|]. rewrite Rmult_minus_distr_r, Rinv_l by lra. nra. }
    lra.
  - pose proof (A (1 + e) ltac:(lra)). lra.
Qed.
Lemma square_F (x : b64) : ordinary_lag x -> B2R x <> 0 -> fin (Bm x x) = true /\ exists e, Rabs e <= u53 /\ B2R (Bm x x) = B2R x ^ 2 * (1 + e).
Proof.
  intros [Fx [E|[A B]]] NZ; [contradiction|]. 
  assert (S : bpow radix2 (-200) <= B2R x * B2R x <= bpow radix2 200).
  { rewrite <- (Rabs_pos_eq (B2R x * B2R x)) by nra. rewrite Rabs_mult. pose proof (bpow_gt_0 radix2 (-100)).
    change (-200)%Z with (-100 + -100)%Z. change 200%Z with (100 + 100)%Z. rewrite !bpow_plus. nra. }
  assert (O : Rlt_bool (Rabs (rnd (B2R x * B2R x))) (bpow radix2 1024) = true).
  { apply top_ok. rewrite Rabs_pos_eq by nra. apply Rle_trans with (1 := proj2 S). apply bpow_le. lia. }
  pose proof (Bmult_correct 53 1024 Hprec Hmax mode_NE x x) as Q. change (round radix2 (SpecFloat.fexp 53 1024) (round_mode mode_NE) (B2R x * B2R x)) with (rnd (B2R x * B2R x)) in Q.
  rewrite O in Q. destruct Q as (V & F & _). split; [rewrite F, Fx; reflexivity|].
  destruct (rel_err (B2R x * B2R x)) as (e & E1 & E2). { rewrite Rabs_pos_eq by nra. apply Rle_trans with (2 := proj1 S). apply bpow_le. lia. }
  exists e. split; [exact E1|]. etransitivity; [exact V|]. rewrite E2. ring.
Qed.
Lemma Rpow_exp x y : 0 < x -> Rpow x y = exp (y * ln x).
Proof. intros H. unfold Rpow. destruct (Rlt_dec 0 x); [reflexivity|contradiction]. Qed.
Lemma nearest_rnd x : nearest x = rnd x. Proof. reflexivity. Qed.
Lemma fc_sq r : fc r = / B2R r ^ 2. Proof. unfold fc. f_equal. ring. Qed.
Lemma damp_exp s r l : 0 < s < 99999 / 100000 -> r <> 0 -> damp s r l = exp (- (l ^ 2 / spread s r)).
Proof.
  intros S R0. unfold damp. destruct (Rlt_dec s (99999 / 100000)); [|lra]. unfold Rpower, spread. f_equal.
  assert (ln s < 0) by (rewrite <- ln_1; apply ln_increasing; lra). field. split; lra.
Qed.
Lemma ln_neg s : 0 < s < 99999 / 100000 -> 0 < - ln s. Proof. intros H. assert (ln s < ln 1) by (apply ln_increasing; lra). rewrite ln_1 in H0. lra. Qed.
Lemma acc_rel n t e : (n <= 3)%nat -> acc n t e -> 0 < e -> exists d, Rabs d <= 4 * u53 /\ B2R t = e * (1 + d).
Proof.
  intros N [_ (P & A & B)] E. pose proof u53_small. pose proof (up_bound n ltac:(lia)) as U. pose proof (dn_bound n) as D.
  assert (I : 0 <= INR n <= 3) by (split; [apply pos_INR|rewrite INR_IZR_INZ; apply IZR_le; lia]).
  exists ((B2R t - e) / e). split; [|field; lra]. unfold Rdiv. rewrite Rabs_mult, (Rabs_pos_eq (/ e)) by (left; apply Rinv_0_lt_compat; exact E).
  apply (Rmult_le_reg_r e); [exact E|]. rewrite Rmult_assoc, Rinv_l, Rmult_1_r by lra. apply Rabs_le.
  assert (dn ^ n >= 1 - 3 * u53) by nra. assert (up ^ n <= 1 + 4 * u53) by nra. split; nra.
Qed.
Section Damp.
Variable m : libm.
Hypothesis PR : pow_rounded m.
Hypothesis PO : pow_one m.
Notation F := (Farith m).
(** the base of the factors *)
Definition base (s r : b64) : b64 := lm_pow m s (Bdiv mode_NE (Flit 1 0) (Bm r r)).
Lemma base_val (s r : b64) : fin s = true -> 0 < B2R s < 99999 / 100000 -> moderate r -> 1 / 660 <= spread (B2R s) (B2R r) ->
  fin (base s r) = true /\ 0 < B2R (base s r) <= 1 /\ exists e d, Rabs e <= 4 * u53 /\ Rabs d <= 11 / 10 * u53 /\
    ln (B2R (base s r)) = - (1 + e) / spread (B2R s) (B2R r) + d.
Proof.
  intros Fs Hs Mr Hh. pose proof (mod_pos r Mr) as R0. pose proof (acc_fac r Mr) as A. pose proof (ln_neg _ Hs) as L0. pose proof u53_small as U.
  unfold base. set (q := Bdiv mode_NE (Flit 1 0) (Bm r r)) in *. assert (FP : 0 < fc r) by (rewrite fc_sq; apply Rinv_0_lt_compat; nra).
  destruct (acc_rel 3 q (fc r) ltac:(lia) A FP) as (e & E1 & E2). destruct A as [Fq _]. apply Rcomplements.Rabs_le_between in E1 as E1'.
  set (h := spread (B2R s) (B2R r)) in *. assert (H0 : 0 < h) by lra.
  assert (FH : fc r * - ln (B2R s) = / h). { unfold h, spread. rewrite fc_sq. field. split; nra. }
  assert (Q0 : 0 < B2R q) by (rewrite E2; apply Rmult_lt_0_compat; lra).
  set (T := (1 + e) / h). assert (ET : B2R q * ln (B2R s) = - T). { rewrite E2. unfold T, Rdiv. rewrite <- FH. ring. }
  assert (IH : 0 < / h <= 660). { split; [apply Rinv_0_lt_compat; exact H0|]. rewrite <- (Rinv_inv 660). apply Rinv_le_contravar; [lra|]. lra. }
  assert (T0 : 0 < T <= 670) by (unfold T, Rdiv; split; [apply Rmult_lt_0_compat; lra|nra]).
  assert (X1 : exp (- T) <= 1) by (rewrite <- exp_0; left; apply exp_increasing; lra).
  assert (X2 : bpow radix2 (-1000) <= exp (- T)).
  { rewrite bpow_exp. destruct ln2_bounds as [B _]. left. apply exp_increasing. change (ln (IZR radix2)) with (ln 2). change (IZR (-1000)) with (-1000). lra. }
  assert (B1 : 1 <= bpow radix2 1000) by (change 1 with (bpow radix2 0); apply bpow_le; lia).
  destruct (PR s q Fs Fq ltac:(lra) Q0) as [Fb Vb]. { rewrite Rpow_exp, ET by lra. lra. }
  rewrite Rpow_exp, ET, nearest_rnd in Vb by lra.
  pose proof (exp_pos (- T)) as X0. destruct (rel_err (exp (- T))) as (d & D1 & D2). { rewrite Rabs_pos_eq by lra. apply Rle_trans with (2 := X2). apply bpow_le. lia. }
  assert (BU : rnd (exp (- T)) <= 1) by (rewrite <- (rnd_id 1 fmt_1); apply rnd_mono; exact X1).
  apply Rcomplements.Rabs_le_between in D1 as D1'.
  split; [exact Fb|]. rewrite Vb. split; [split; [rewrite D2; apply Rmult_lt_0_compat; lra|exact BU]|].
  exists e, (ln (1 + d)). split; [exact E1|]. split; [apply ln_near; exact D1|]. rewrite D2, ln_mult by lra. rewrite ln_exp. unfold T. field. lra.
Qed.
Lemma factor_F (s r l : b64) : fin s = true -> 0 < B2R s < 99999 / 100000 -> moderate r -> 1 / 660 <= spread (B2R s) (B2R r) <= bpow radix2 48 -> ordinary_lag l ->
  let f := lm_pow m (base s r) (Bm l l) in
  fin f = true /\ 0 <= B2R f <= 1 /\ Rabs (B2R f - damp (B2R s) (B2R r) (B2R l)) <= 15 * u53 * (1 + spread (B2R s) (B2R r)).
Proof.
  intros Fs Hs Or [H1 H2] Ol f. destruct (base_val s r Fs Hs Or H1) as (Fb & Pb & e & d & E & D & LB). pose proof u53_small as U. pose proof (mod_pos r Or) as R0.
  set (h := spread (B2R s) (B2R r)) in *. rewrite damp_exp by lra. fold h. apply Rcomplements.Rabs_le_between in E as E'. apply Rcomplements.Rabs_le_between in D as D'.
  destruct (Req_dec (B2R l) 0) as [Z|NZ].
  - assert (Zs : fin (Bm l l) = true /\ B2R (Bm l l) = 0).
    { destruct Ol as [Fl _]. assert (IZ : is_zero l). { destruct l as [b|b| |b k x p]; try discriminate Fl; [exists b; reflexivity|]. exfalso. revert Z. apply (F2R_neq_0 radix2). destruct b; discriminate. }
      pose proof (mult_zero_l l l IZ Fl) as [b Eb]. rewrite Eb. split; reflexivity. }
    destruct (PO (base s r) (Bm l l) Fb (proj1 Zs) ltac:(lra) (proj2 Zs)) as [Ff Vf]. unfold f. rewrite Vf. split; [exact Ff|]. split; [lra|].
    rewrite Z. replace (- (0 ^ 2 / h)) with 0 by (field; lra). rewrite exp_0, Rminus_diag_eq, Rabs_R0 by reflexivity. nra.
  - destruct (square_F l Ol NZ) as (FD & g & G1 & G2). apply Rcomplements.Rabs_le_between in G1 as G1'. set (D2 := Bm l l) in *.
    set (x := B2R l ^ 2 / h). assert (L2 : 0 < B2R l ^ 2) by nra. assert (X0 : 0 < x) by (unfold x, Rdiv; apply Rmult_lt_0_compat; [exact L2|apply Rinv_0_lt_compat; lra]).
    assert (DP : 0 < B2R D2) by (rewrite G2; apply Rmult_lt_0_compat; lra).
    set (dl := (1 + g) * (1 + e - d * h) - 1).
    assert (EX : B2R D2 * ln (B2R (base s r)) = - (x * (1 + dl))). { rewrite G2, LB. unfold dl, x. field. lra. }
    assert (B48 : bpow radix2 48 * u53 = / 32). { unfold u53. rewrite <- bpow_plus. change (48 + -53)%Z with (-5)%Z. cbn. lra. }
    assert (HU : 0 < h * u53 <= / 32) by (split; [nra|]; rewrite <- B48; apply Rmult_le_compat_r; lra).
    assert (DB : Rabs dl <= 7 * u53 * (1 + h)).
    { unfold dl. replace ((1 + g) * (1 + e - d * h) - 1) with (g * (1 + e - d * h) + (e - d * h)) by ring.
      assert (K : Rabs (e - d * h) <= 4 * u53 + 11 / 10 * u53 * h). { apply Rle_trans with (1 := Rabs_triang _ _). rewrite Rabs_Ropp, Rabs_mult, (Rabs_pos_eq h) by lra. nra. }
      apply Rle_trans with (1 := Rabs_triang _ _). rewrite Rabs_mult.
      assert (K1 : Rabs (1 + e - d * h) <= 11 / 10). { replace (1 + e - d * h) with (1 + (e - d * h)) by ring. apply Rle_trans with (1 := Rabs_triang _ _). rewrite Rabs_R1. nra. }
      pose proof (Rabs_pos g). pose proof (Rabs_pos (1 + e - d * h)). nra. }
    assert (DH : Rabs dl <= 1 / 2) by nra.
    pose proof (exp_scaled x dl ltac:(lra) DH) as Q. pose proof (exp_pos (- (x * (1 + dl)))) as P1.
    assert (P2 : exp (- (x * (1 + dl))) <= 1). { apply Rcomplements.Rabs_le_between in DH. assert (0 < x * (1 + dl)) by (apply Rmult_lt_0_compat; lra). apply Rle_trans with (exp 0); [left; apply exp_increasing; lra|rewrite exp_0; lra]. }
    assert (B1 : 1 <= bpow radix2 1000) by (change 1 with (bpow radix2 0); apply bpow_le; lia).
    destruct (PR (base s r) D2 Fb FD ltac:(lra) DP) as [Ff Vf]. { rewrite Rpow_exp, EX by lra. lra. }
    rewrite Rpow_exp, EX, nearest_rnd in Vf by lra. unfold f. split; [exact Ff|]. rewrite Vf. split.
    + apply rnd_between; [apply fmt_0|apply fmt_1|lra].
    + pose proof (abs_err1 (exp (- (x * (1 + dl)))) ltac:(rewrite Rabs_pos_eq; lra)) as R1.
      replace (rnd (exp (- (x * (1 + dl)))) - exp (- x)) with ((rnd (exp (- (x * (1 + dl)))) - exp (- (x * (1 + dl)))) + (exp (- (x * (1 + dl))) - exp (- x))) by ring.
      apply Rle_trans with (1 := Rabs_triang _ _). nra.
Qed.
End Damp.
