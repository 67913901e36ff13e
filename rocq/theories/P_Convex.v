(** Convex covariances have non-negative periodised spectra. *)
From Coq Require Import ZArith Bool String Lia Reals Lra Psatz List.
From Verif Require Import Base Arith RealArith M_Variogram M_Grid M_CovGrid S_CovGrid S_Vario S_Spectrum P_Base P_Grid P_Bounds P_Cov P_Vario P_VarioNames P_VarioMore P_VarioKernel
  P_Dft P_DftList P_DftField P_DftCov P_DftRound.
Import ListNotations.
Open Scope R_scope.

Lemma rsum_bij N (f : nat -> R) (s t : nat -> nat) : (forall k, (k < N)%nat -> (s k < N)%nat /\ t (s k) = k) -> (forall k, (k < N)%nat -> (t k < N)%nat /\ s (t k) = k) ->
  rsum N (fun k => f (s k)) = rsum N f.
Proof.
  intros Hs Ht.
  rewrite (rsum_ext _ (fun k => f (s k)) (fun k => rsum N (fun j => if (j =? s k)%nat then f j else 0))) by (intros k Hk; rewrite rsum_pick; auto; apply Hs; auto).
  rewrite rsum_swap. apply rsum_ext. intros j Hj.
  rewrite (rsum_ext _ _ (fun k => if (k =? t j)%nat then f j else 0)).
  - apply (rsum_pick N (t j) (fun _ => f j)). apply Ht. auto.
  - intros k Hk. destruct (Nat.eqb_spec j (s k)) as [F|Hn]; destruct (Nat.eqb_spec k (t j)) as [E|E]; auto.
    + exfalso. apply E. rewrite F. symmetry. apply Hs. auto.
    + exfalso. apply Hn. rewrite E. symmetry. apply Ht. auto.
Qed.

(** cyclic neighbours *)
Definition nxt (n j : nat) : nat := if (S j =? n)%nat then 0%nat else S j.
Definition prv (n j : nat) : nat := if (j =? 0)%nat then (n - 1)%nat else (j - 1)%nat.
Lemma nxt_prv n j : (j < n)%nat -> (nxt n j < n)%nat /\ prv n (nxt n j) = j.
Proof. intros. unfold nxt, prv. destruct (Nat.eqb_spec (S j) n); [destruct (Nat.eqb_spec 0 0)|destruct (Nat.eqb_spec (S j) 0)]; lia. Qed.
Lemma prv_nxt n j : (j < n)%nat -> (prv n j < n)%nat /\ nxt n (prv n j) = j.
Proof. intros. unfold nxt, prv. destruct (Nat.eqb_spec j 0); [destruct (Nat.eqb_spec (S (n - 1)) n)|destruct (Nat.eqb_spec (S (j - 1)) n)]; lia. Qed.

Section Shift.
Variables (n k : nat).
Hypothesis Hn : (0 < n)%nat.
Notation th := (2 * PI * INR k / INR n).
Lemma wave1_eq j : wave1 n k (INR j) = cos (INR j * th).
Proof. unfold wave1. f_equal. pose proof (lt_0_INR n Hn). field. lra. Qed.
Lemma cos_per j : cos (INR j * th + INR n * th) = cos (INR j * th).
Proof.
  replace (INR j * th + INR n * th) with (INR j * th + 2 * INR k * PI). 2:{ pose proof (lt_0_INR n Hn). field. lra. }
  apply cos_period.
Qed.
Lemma wave_nxt j : (j < n)%nat -> cos (INR (nxt n j) * th) = cos (INR j * th + th).
Proof.
  intros Hj. unfold nxt. destruct (Nat.eqb_spec (S j) n) as [E|E].
  - rewrite <- cos_per. f_equal. assert (EN : INR n = INR j + 1) by (rewrite <- E; apply S_INR). generalize th. intros t. rewrite EN. cbn [INR]. ring.
  - f_equal. rewrite S_INR. field. pose proof (lt_0_INR n Hn). lra.
Qed.
Lemma wave_prv j : (j < n)%nat -> cos (INR (prv n j) * th) = cos (INR j * th - th).
Proof.
  intros Hj. pose proof (lt_0_INR n Hn). unfold prv. destruct (Nat.eqb_spec j 0) as [->|E].
  - rewrite minus_INR by lia.
    replace ((INR n - INR 1) * th) with (INR n * th - th) by (cbn [INR]; ring).
    replace (INR n * th - th) with (- th + 2 * INR k * PI) by (field; lra). rewrite cos_period. f_equal. cbn [INR]. ring.
  - f_equal. rewrite minus_INR by lia. cbn [INR]. field. lra.
Qed.

(** second differences *)
Definition sd (c : nat -> R) (j : nat) : R := 2 * c j - c (prv n j) - c (nxt n j).
Lemma sd_sum (c : nat -> R) : (2 - 2 * cos th) * spectral1 n c k = rsum n (fun j => sd c j * cos (INR j * th)).
Proof.
  unfold spectral1, sd.
  rewrite (rsum_ext n (fun j => (2 * c j - c (prv n j) - c (nxt n j)) * cos (INR j * th))
    (fun j => 2 * (c j * cos (INR j * th)) - (c (prv n j) * cos (INR j * th) + c (nxt n j) * cos (INR j * th)))) by (intros; ring).
  rewrite rsum_minus, rsum_plus, rsum_scal.
  rewrite <- (rsum_bij n (fun j => c (prv n j) * cos (INR j * th)) (nxt n) (prv n)) by (auto using nxt_prv, prv_nxt).
  rewrite <- (rsum_bij n (fun j => c (nxt n j) * cos (INR j * th)) (prv n) (nxt n)) by (auto using nxt_prv, prv_nxt).
  rewrite <- rsum_plus.
  rewrite (rsum_ext n (fun j => c (prv n (nxt n j)) * _ + c (nxt n (prv n j)) * _) (fun j => 2 * cos th * (c j * cos (INR j * th)))).
  - rewrite rsum_scal. rewrite (rsum_ext n (fun i => c i * wave1 n k (INR i)) (fun i => c i * cos (INR i * th))) by (intros; rewrite wave1_eq; reflexivity). ring.
  - intros j Hj. destruct (nxt_prv n j Hj) as [_ ->]. destruct (prv_nxt n j Hj) as [_ ->]. rewrite wave_nxt, wave_prv by auto.
    generalize (INR j * th) th. intros u t. rewrite cos_plus, cos_minus. ring.
Qed.
Lemma sd_total (c : nat -> R) : rsum n (sd c) = 0.
Proof.
  unfold sd. rewrite !rsum_minus, rsum_scal.
  rewrite (rsum_bij n c (prv n) (nxt n)), (rsum_bij n c (nxt n) (prv n)) by (auto using nxt_prv, prv_nxt). ring.
Qed.
End Shift.

(** a table whose second differences are non-positive away from the origin *)
Lemma convex_nonneg n c : (0 < n)%nat -> (forall j, (j < n)%nat -> 0 <= c j) -> (forall j, (0 < j < n)%nat -> sd n c j <= 0) -> nonneg1 n c.
Proof.
  intros Hn Hc Hs k Hk. destruct (Nat.eq_dec k 0) as [->|Hk0].
  { unfold spectral1. apply rsum_nonneg. intros j Hj. rewrite wave1_eq by auto. 
    replace (INR j * (2 * PI * INR 0 / INR n)) with 0 by (cbn [INR]; field; apply not_0_INR; lia). rewrite cos_0. specialize (Hc j Hj). lra. }
  set (th := 2 * PI * INR k / INR n).
  assert (Hth : cos th < 1).
  { pose proof (lt_0_INR n Hn). pose proof (lt_INR _ _ Hk). pose proof (lt_0_INR k ltac:(lia)). pose proof PI_RGT_0.
    assert (0 < th < 2 * PI).
    { unfold th. split; [apply Rdiv_lt_0_compat; nra|]. apply (Rmult_lt_reg_r (INR n)); [lra|]. unfold Rdiv. rewrite Rmult_assoc, Rinv_l by lra. nra. }
    replace th with (2 * (th / 2)) by field. rewrite cos_2a_sin. pose proof (sin_gt_0 (th / 2) ltac:(lra) ltac:(lra)). nra. }
  pose proof (sd_sum n k Hn c) as E. fold th in E.
  assert (0 <= rsum n (fun j => sd n c j * cos (INR j * th))).
  { rewrite <- (sd_total n c). apply rsum_le. intros j Hj. destruct (Nat.eq_dec j 0) as [->|Hj0].
    - cbn [INR]. rewrite Rmult_0_l, cos_0. lra.
    - specialize (Hs j ltac:(lia)). pose proof (COS_bound (INR j * th)). nra. }
  apply (Rmult_le_reg_l (2 - 2 * cos th)); [lra|]. lra.
Qed.

(** the periodised table of a convex non-increasing sequence *)
Lemma periodised_convex n (g : nat -> R) : (0 < n)%nat -> (forall j, 0 <= g j) -> (forall j, g (S j) <= g j) ->
  (forall j, 2 * g (S j) <= g j + g (S (S j))) -> nonneg1 n (fun j => g (Nat.min j (n - j))).
Proof.
  intros Hn H0 Hd Hc. apply convex_nonneg; auto. intros j Hj. unfold sd, prv, nxt.
  destruct (Nat.eqb_spec j 0) as [|_]; [lia|].
  assert (Hd' : forall a b, (a <= b)%nat -> g b <= g a) by (intros a b H; induction H; [lra|specialize (Hd m); lra]).
  assert (E : (if (S j =? n)%nat then g (Nat.min 0 (n - 0)) else g (Nat.min (S j) (n - S j))) = g (Nat.min (S j) (n - S j))).
  { destruct (Nat.eqb_spec (S j) n); [|reflexivity]. f_equal. lia. }
  assert (E' : g (Nat.min (if (S j =? n)%nat then 0%nat else S j) (n - (if (S j =? n)%nat then 0%nat else S j))) = g (Nat.min (S j) (n - S j))).
  { destruct (Nat.eqb_spec (S j) n); [|reflexivity]. f_equal. lia. }
  rewrite E'. clear E E'.
  destruct (Nat.lt_trichotomy (2 * j) n) as [H|[H|H]].
  - destruct (Nat.eq_dec (2 * j + 1) n) as [M|M].
    + replace (Nat.min j (n - j)) with j by lia. replace (Nat.min (S j) (n - S j)) with j by lia. replace (Nat.min (j - 1) (n - (j - 1))) with (j - 1)%nat by lia.
      pose proof (Hd' (j - 1)%nat j ltac:(lia)). lra.
    + replace (Nat.min j (n - j)) with j by lia. replace (Nat.min (S j) (n - S j)) with (S j) by lia. replace (Nat.min (j - 1) (n - (j - 1))) with (j - 1)%nat by lia.
      specialize (Hc (j - 1)%nat). replace (S (j - 1)) with j in Hc by lia. lra.
  - replace (Nat.min j (n - j)) with j by lia. replace (Nat.min (S j) (n - S j)) with (j - 1)%nat by lia. replace (Nat.min (j - 1) (n - (j - 1))) with (j - 1)%nat by lia.
    pose proof (Hd' (j - 1)%nat j ltac:(lia)). lra.
  - destruct (Nat.eq_dec (2 * j - 1) n) as [M|M].
    + replace (Nat.min j (n - j)) with (n - j)%nat by lia. replace (Nat.min (S j) (n - S j)) with (n - S j)%nat by lia. replace (Nat.min (j - 1) (n - (j - 1))) with (n - j)%nat by lia.
      pose proof (Hd' (n - S j)%nat (n - j)%nat ltac:(lia)). lra.
    + replace (Nat.min j (n - j)) with (n - j)%nat by lia. replace (Nat.min (S j) (n - S j)) with (n - S j)%nat by lia. replace (Nat.min (j - 1) (n - (j - 1))) with (S (n - j))%nat by lia.
      specialize (Hc (n - S j)%nat). replace (S (n - S j)) with (n - j)%nat in Hc by lia. lra.
Qed.

(** ** convexity of the correlation functions *)
Lemma exp_mid a b : 2 * exp ((a + b) / 2) <= exp a + exp b.
Proof.
  assert (Ea : exp a = exp (a / 2) ^ 2) by (cbn; rewrite Rmult_1_r, <- exp_plus; f_equal; field).
  assert (Eb : exp b = exp (b / 2) ^ 2) by (cbn; rewrite Rmult_1_r, <- exp_plus; f_equal; field).
  replace ((a + b) / 2) with (a / 2 + b / 2) by field. rewrite exp_plus, Ea, Eb. pose proof (pow2_ge_0 (exp (a / 2) - exp (b / 2))). lra.
Qed.
Lemma exp_le_1p x : 1 + x <= exp x.
Proof. destruct (Req_dec x 0) as [->|H]; [rewrite exp_0; lra|]. apply Rlt_le, exp_ineq1. auto. Qed.
Lemma bernoulli x p : 0 < x -> 0 < p <= 1 -> Rpower x p <= 1 + p * (x - 1).
Proof.
  intros Hx Hp. unfold Rpower. set (u := ln x). assert (Ex : x = exp u) by (unfold u; rewrite exp_ln; auto). rewrite Ex at 1.
  pose proof (exp_le_1p ((1 - p) * u)) as H1. pose proof (exp_le_1p (- (p * u))) as H2.
  assert (E1 : exp u = exp (p * u) * exp ((1 - p) * u)) by (rewrite <- exp_plus; f_equal; ring).
  assert (E2 : exp (p * u) * exp (- (p * u)) = 1) by (rewrite <- exp_plus, Rplus_opp_r; apply exp_0).
  pose proof (exp_pos (p * u)) as H3. rewrite E1.
  set (A := exp (p * u)) in *. set (B := exp ((1 - p) * u)) in *. set (C := exp (- (p * u))) in *.
  assert (1 <= p * B + (1 - p) * C) by nra.
  assert (A * 1 <= A * (p * B + (1 - p) * C)) by (apply Rmult_le_compat_l; lra).
  replace (A * (p * B + (1 - p) * C)) with (p * (A * B) + (1 - p) * (A * C)) in H0 by ring. rewrite E2 in H0. lra.
Qed.
Lemma Rpow_pos_eq x p : 0 < x -> Rpow x p = Rpower x p.
Proof. intros. unfold Rpow. destruct (Rlt_dec 0 x); [reflexivity|lra]. Qed.
Lemma Rpow_0 p : 0 < p -> Rpow 0 p = 0.
Proof. intros. unfold Rpow. destruct (Rlt_dec 0 0); [lra|]. destruct (Req_EM_T p 0); lra. Qed.
Lemma Rpow_mid a b p : 0 <= a -> 0 <= b -> 0 < p <= 1 -> Rpow a p + Rpow b p <= 2 * Rpow ((a + b) / 2) p.
Proof.
  intros Ha Hb Hp. set (m := (a + b) / 2). destruct (Req_dec m 0) as [E|E].
  { assert (a = 0) by (unfold m in E; lra). assert (b = 0) by (unfold m in E; lra). subst. rewrite E, !Rpow_0 by lra. lra. }
  assert (Hm : 0 < m) by (unfold m in *; lra).
  assert (B : forall x, 0 <= x -> Rpow x p <= Rpow m p * (1 + p * (x / m - 1))).
  { intros x Hx. rewrite (Rpow_pos_eq m) by auto. destruct (Req_dec x 0) as [->|Hx0].
    - rewrite Rpow_0 by lra. unfold Rdiv. rewrite Rmult_0_l. assert (0 < Rpower m p) by apply exp_pos. nra.
    - assert (0 < x) by lra. assert (Hq : 0 < x / m) by (apply Rdiv_lt_0_compat; auto). rewrite (Rpow_pos_eq x) by auto.
      replace x with (m * (x / m)) at 1 by (field; lra). rewrite <- Rpower_mult_distr by auto.
      apply Rmult_le_compat_l; [apply Rlt_le, exp_pos|]. apply bernoulli; auto. }
  pose proof (B a Ha). pose proof (B b Hb).
  replace (2 * Rpow m p) with (Rpow m p * (1 + p * (a / m - 1)) + Rpow m p * (1 + p * (b / m - 1))); [lra|].
  assert (a / m + b / m = 2) by (unfold m; field; unfold m in Hm; lra). replace (b / m) with (2 - a / m) by lra. ring.
Qed.

Definition convex_type (t : vtype) (p : R) : Prop := t = EXPONENTIAL \/ t = SPHERICAL \/ t = CONSTANT \/ t = GENERAL_EXPONENTIAL /\ p <= 1.

Lemma sph_mid a b : 0 <= a <= b -> 2 * corr_fun SPHERICAL 0 ((a + b) / 2) <= corr_fun SPHERICAL 0 a + corr_fun SPHERICAL 0 b.
Proof.
  intros H. cbn [corr_fun]. 
  assert (P : forall x y : R, 0 <= x -> 0 <= y -> 2 * ((x + y) / 2) ^ 3 <= x ^ 3 + y ^ 3) by (intros x y Hx Hy; assert (0 <= (x + y) * (x - y) ^ 2) by (apply Rmult_le_pos; [lra|apply pow2_ge_0]); nra).
  assert (D : forall x y : R, 0 <= x <= y -> y <= 1 -> 1 - 3 / 2 * y + 1 / 2 * y ^ 3 <= 1 - 3 / 2 * x + 1 / 2 * x ^ 3).
  { intros x y Hxy Hy. assert (0 <= (y - x) * (3 - (y ^ 2 + x * y + x ^ 2))) by (apply Rmult_le_pos; nra). nra. }
  destruct (Rlt_dec ((a + b) / 2) 1) as [Hm|Hm]; destruct (Rlt_dec a 1) as [Ha|Ha]; destruct (Rlt_dec b 1) as [Hb|Hb]; try lra.
  - specialize (P a b ltac:(lra) ltac:(lra)). lra.
  - pose proof (D ((a + 1) / 2) ((a + b) / 2) ltac:(lra) ltac:(lra)). pose proof (P a 1 ltac:(lra) ltac:(lra)). lra.
  - pose proof (D a 1 ltac:(lra) ltac:(lra)). lra.
Qed.
Lemma corr_mid t p a b : convex_type t p -> 0 < p -> 0 <= a <= b -> 2 * corr_fun t p ((a + b) / 2) <= corr_fun t p a + corr_fun t p b.
Proof.
  intros [-> | [-> | [-> | [-> Hp1]]]] Hp H.
  - cbn [corr_fun]. replace (-3 * ((a + b) / 2)) with ((-3 * a + -3 * b) / 2) by field. apply exp_mid.
  - apply (sph_mid a b). auto.
  - cbn. lra.
  - cbn [corr_fun]. apply Rle_trans with (2 * exp ((-3 * Rpow a p + -3 * Rpow b p) / 2)); [|apply exp_mid].
    pose proof (Rpow_mid a b p ltac:(lra) ltac:(lra) ltac:(lra)). apply Rmult_le_compat_l; [lra|].
    destruct (Req_dec (-3 * Rpow ((a + b) / 2) p) ((-3 * Rpow a p + -3 * Rpow b p) / 2)) as [->|]; [lra|]. apply Rlt_le, exp_increasing. lra.
Qed.

(** ** C27 *)
Section C27.
Variables (s : string) (main perp depth azi dp pw : R) (v : variogram Rarith).
Hypothesis HC : @CreateVariogram Rarith s main perp depth azi dp pw = Ok v.
Hypotheses (Hm : 0 < main) (Hp : perp <> 0) (Hd : depth <> 0) (Hw : 0 < pw).

Notation ndx := (ndist main (or_main main perp) (or_main main depth) (radians azi) (radians dp)).
Lemma corr1_lin (x : R) : @GetCorr1 Rarith v x = corr_fun (vt v) pw (Rabs x * ndx (1, 0, 0)).
Proof.
  rewrite corr1_2, corr2_3. destruct (created_corr _ _ _ _ _ _ _ _ HC Hm Hp Hd Hw) as [_ H]. rewrite H. f_equal.
  pose proof (or_main_nz main perp Hm Hp). pose proof (or_main_nz main depth Hm Hd).
  rewrite <- ndist_scale by lra. f_equal. cbn [scale]. f_equal; [f_equal|]; ring.
Qed.
Lemma lag1_min n j (dx : R) : (j < n)%nat -> @lag1 Rarith n j dx = INR (Nat.min j (n - j)) * dx.
Proof.
  intros Hj. unfold lag1. rewrite INR_IZR_INZ. destruct (Nat.ltb_spec (2 * j) n) as [H|H]; cbn [mul ofZ Rarith].
  - replace (Nat.min j (n - j)) with j by lia. reflexivity.
  - replace (Z.of_nat n - Z.of_nat j)%Z with (Z.of_nat (Nat.min j (n - j))) by lia. apply Rmult_comm.
Qed.
Lemma cov1_min n (dx sx : R) j : (j < n)%nat -> 99999 / 100000 <= sx ->
  @cov1_spec Rarith v n dx sx j = corr_fun (vt v) pw (INR (Nat.min j (n - j)) * (Rabs dx * ndx (1, 0, 0))).
Proof.
  intros Hj Hs. unfold cov1_spec. destruct (FindSmoothingFactors _ _ _ _) as [[? ?] ?]. rewrite kernel_off by auto.
  rewrite lag1_min by auto. destruct (created_new _ _ _ _ _ _ _ _ HC) as (t & pw' & Ev & _).
  assert (V : var v = 1) by (rewrite Ev; cbn; ring). rewrite V, corr1_lin. cbn [mul Rarith]. rewrite Rmult_1_l. f_equal.
  rewrite Rabs_mult, (Rabs_right (INR _)) by (apply Rle_ge, pos_INR). ring.
Qed.
Lemma spectral1_ext n c c' k : (forall j, (j < n)%nat -> c j = c' j) -> spectral1 n c k = spectral1 n c' k.
Proof. intros H. unfold spectral1. apply rsum_ext. intros j Hj. rewrite H by auto. reflexivity. Qed.
Lemma c27 n (dx sx : R) : convex_type (vt v) pw -> (0 < n)%nat -> 99999 / 100000 <= sx -> nonneg1 n (@cov1_spec Rarith v n dx sx).
Proof.
  intros Ht Hn Hs. set (st := Rabs dx * ndx (1, 0, 0)).
  assert (H0 : 0 <= st) by (apply Rmult_le_pos; [apply Rabs_pos|apply ndist_nonneg]).
  assert (P : nonneg1 n (fun j => (fun i => corr_fun (vt v) pw (INR i * st)) (Nat.min j (n - j)))).
  { apply (periodised_convex n (fun i => corr_fun (vt v) pw (INR i * st))); auto.
    - intros j. apply corr_fun_nonneg. apply Rmult_le_pos; auto. apply pos_INR.
    - intros j. apply corr_fun_decr; auto. rewrite S_INR. pose proof (pos_INR j). nra.
    - intros j. replace (INR (S j) * st) with ((INR j * st + INR (S (S j)) * st) / 2) by (rewrite !S_INR; field).
      apply corr_mid; auto. rewrite !S_INR. pose proof (pos_INR j). nra. }
  intros k Hk. specialize (P k Hk). rewrite (spectral1_ext n _ (fun j => (fun i => corr_fun (vt v) pw (INR i * st)) (Nat.min j (n - j)))); auto.
  intros j Hj. apply cov1_min; auto.
Qed.
End C27.
