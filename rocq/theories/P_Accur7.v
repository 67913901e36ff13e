(** Accuracy of correlations in double precision: the types that call pow, and distances with any small relative error. *)
From Coq Require Import ZArith Bool Lia Reals Lra String List.
From Flocq Require Import Core IEEE754.BinarySingleNaN.
From Verif Require Import Base Arith RealArith FloatArith M_Variogram S_Vario S_Random S_Normal P_RBounds P_Cov P_Vario P_VarioF P_NormF S_CorrF P_CorrF P_CorrF2 P_CorrF4 P_CorrF5 S_Accur P_Accur P_Accur2 P_Accur3 P_Accur4 P_Accur5.
Import ListNotations.
Open Scope R_scope.

(** ** change of the argument *)
Lemma slow_rel f f' q s t : slow f f' -> 0 < s -> 0 <= q <= 1 / 20 -> Rabs (t - s) <= q * s -> Rabs (f t - f s) <= 11 / 10 * q.
Proof.
  intros H S Q T. apply Rabs_le_inv in T.
  assert (G : forall a b, a < b -> 19 / 20 * s <= a -> b - a <= q * s -> Rabs (f b - f a) <= 11 / 10 * q).
  { intros a b L LA LB. destruct (MVT_cor2 f f' a b L) as (c & E & Cc); [intros c Cc; apply H; lra|].
    destruct (H c ltac:(lra)) as [_ K]. rewrite E, Rabs_mult, (Rabs_right (b - a)) by lra. rewrite Rabs_mult, (Rabs_right c) in K by lra. pose proof (Rabs_pos (f' c)) as P.
    assert (SF : s * Rabs (f' c) <= 20 / 19) by nra.
    apply Rle_trans with (Rabs (f' c) * (q * s)); [apply Rmult_le_compat_l; lra|].
    replace (Rabs (f' c) * (q * s)) with (q * (s * Rabs (f' c))) by ring. nra. }
  destruct (Rtotal_order t s) as [L|[->|L]].
  - rewrite Rabs_minus_sym. apply G; nra.
  - rewrite Rminus_diag_eq, Rabs_R0 by reflexivity. lra.
  - apply G; nra.
Qed.
Lemma ln_le x y : 0 < x -> x <= y -> ln x <= ln y.
Proof. intros A [B| ->]; [left; apply ln_increasing; assumption|lra]. Qed.
Lemma exp_four x : 0 <= x -> x ^ 4 <= 482 / 100 * exp x.
Proof.
  intros X. pose proof (exp_lin (x / 4) ltac:(lra)) as E. replace (exp x) with (exp (x / 4) * exp (x / 4) * (exp (x / 4) * exp (x / 4))) by (rewrite <- !exp_plus; f_equal; field).
  set (e := exp (x / 4)) in *. assert (E2 : (27 / 40 * x) * (27 / 40 * x) <= e * e) by (apply Rmult_le_compat; lra).
  assert (0 <= (27 / 40 * x) * (27 / 40 * x)) by nra.
  assert (E4 : (27 / 40 * x) * (27 / 40 * x) * ((27 / 40 * x) * (27 / 40 * x)) <= e * e * (e * e)) by (apply Rmult_le_compat; lra).
  replace (x ^ 4) with (2560000 / 531441 * ((27 / 40 * x) * (27 / 40 * x) * ((27 / 40 * x) * (27 / 40 * x)))) by field.
  assert (0 <= e * e * (e * e)) by (apply Rle_trans with (2 := E4); apply Rmult_le_pos; assumption). lra.
Qed.
Definition p72 (s : R) : R := 1 + s + 2 / 5 * s ^ 2 + / 15 * s ^ 3.
Lemma slow_72 : slow (fun s => exp (- s) * p72 s) (fun s => - exp (- s) * p72 s + exp (- s) * (1 + 4 / 5 * s + s ^ 2 / 5)).
Proof.
  apply slow_from.
  - intros c C. apply (derivable_pt_lim_mult (fun t => exp (- t)) p72); [apply d_expm|]. unfold p72.
    replace (1 + 4 / 5 * c + c ^ 2 / 5) with (0 + 1 + 2 / 5 * (INR 2 * c ^ Init.Nat.pred 2) + / 15 * (INR 3 * c ^ Init.Nat.pred 3)) by (cbn; field).
    apply (derivable_pt_lim_plus (fun s => 1 + s + 2 / 5 * s ^ 2) (fun s => / 15 * s ^ 3)).
    + apply (derivable_pt_lim_plus (fun s => 1 + s) (fun s => 2 / 5 * s ^ 2)).
      * apply (derivable_pt_lim_plus (fun _ => 1) id); [apply derivable_pt_lim_const|apply derivable_pt_lim_id].
      * apply (derivable_pt_lim_scal (fun s => s ^ 2)). apply derivable_pt_lim_pow.
    + apply (derivable_pt_lim_scal (fun s => s ^ 3)). apply derivable_pt_lim_pow.
  - intros c C. exists (c / 5 + c ^ 2 / 5 + c ^ 3 / 15). split; [unfold p72; field|].
    pose proof (exp_sq c ltac:(lra)). pose proof (exp_cube c ltac:(lra)). pose proof (exp_four c ltac:(lra)). pose proof (exp_pos c).
    split; [|nra]. pose proof (pow_lt c 2 C). pose proof (pow_lt c 3 C). apply Rmult_le_pos; lra.
Qed.
Lemma p72_le x : 0 <= x -> p72 x <= exp x.
Proof.
  intros X. pose proof (exp_ineq1_le (x / 5)) as H. replace (exp x) with (exp (x / 5) ^ 5) by (cbn [pow]; rewrite Rmult_1_r, <- !exp_plus; f_equal; field).
  apply Rle_trans with ((1 + x / 5) ^ 5); [|apply pow_incr; lra]. unfold p72.
  replace ((1 + x / 5) ^ 5) with (1 + x + 2 / 5 * x ^ 2 + 2 / 25 * x ^ 3 + x ^ 4 / 125 + x ^ 5 / 3125) by field.
  pose proof (pow_le x 3 X). pose proof (pow_le x 4 X). pose proof (pow_le x 5 X). lra.
Qed.

Section Corr.
Variable m : libm.
Hypothesis ok : fair m.
Hypothesis ER : exp_rounded m.
Notation F := (Farith m).
(** exp(-s) times a polynomial *)
Lemma poly_acc (P : R -> R) n (s pt : b64) : (n <= 8)%nat -> (forall x, 0 <= x -> P x <= exp x) -> fin s = true -> 0 <= B2R s -> acc n pt (P (B2R s)) ->
  1 <= P (B2R s) <= (1 + B2R s) ^ 3 ->
  fin (Bm (lm_exp m (Bo s)) pt) = true /\ Rabs (B2R (Bm (lm_exp m (Bo s)) pt) - exp (- B2R s) * P (B2R s)) <= 12 * u53.
Proof.
  intros Nn PE Fs S0 [Fp CP] PB. split; [apply (fin_prod m ok ER); assumption|]. destruct (exp_part m ok ER s Fs S0) as [Fe Ve].
  set (t := B2R s) in *. set (e := lm_exp m (Bo s)) in *. pose proof u53_small as U. destruct (exp_neg_le1 t S0) as [E0 E1].
  assert (FT : 0 <= exp (- t) * P t) by nra.
  assert (PU : 0 <= B2R pt <= 2 * P t) by (destruct CP as (_ & A & B); pose proof (up_two n ltac:(lia)); destruct (dn_pos n); split; nra).
  assert (CUBE : forall h, 1 <= h -> t <= h -> P t <= 8 * h ^ 3).
  { intros h H1 H2. apply Rle_trans with (1 := proj2 PB). replace (8 * h ^ 3) with ((2 * h) ^ 3) by ring. apply pow_incr. lra. }
  assert (SMALL : 300 < t -> exp (- t) * P t <= u53).
  { intros L. pose proof (CUBE t ltac:(lra) ltac:(lra)) as B1. pose proof (exp_cube (t / 2) ltac:(lra)) as X.
    pose proof (exp_cancel (t / 2)) as W. pose proof (exp_pos (t / 2)) as W0. pose proof (exp_pos (- (t / 2))) as W1.
    assert (E2 : exp (- t) = exp (- (t / 2)) * exp (- (t / 2))) by (rewrite <- exp_plus; f_equal; field).
    assert (B2 : exp (- t) * P t <= 90 * exp (- (t / 2))).
    { apply Rle_trans with (exp (- t) * (8 * t ^ 3)); [apply Rmult_le_compat_l; lra|].
      replace (exp (- t) * (8 * t ^ 3)) with (exp (- (t / 2)) * (exp (- (t / 2)) * (64 * (t / 2) ^ 3))) by (rewrite E2; field).
      rewrite (Rmult_comm 90). apply Rmult_le_compat_l; [lra|].
      apply Rle_trans with (exp (- (t / 2)) * (64 * (138 / 100 * exp (t / 2)))); [apply Rmult_le_compat_l; lra|].
      replace (exp (- (t / 2)) * (64 * (138 / 100 * exp (t / 2)))) with (64 * 138 / 100 * (exp (- (t / 2)) * exp (t / 2))) by field. rewrite W. lra. }
    pose proof (exp_m_le (t / 2) 100 ltac:(lia) ltac:(lra)) as B3.
    assert (B4 : bpow radix2 (- (100)) <= u53 / 128) by (rewrite u53_val; apply Rle_trans with (bpow radix2 (-60)); [apply bpow_le; lia|unfold bpow, radix2, Zpower_pos; simpl; lra]).
    lra. }
  destruct (Rle_dec t 400) as [L|L].
  - pose proof (exp_m_ge t 400 ltac:(lia) L) as X. change (- (2 * 400))%Z with (-800)%Z in X.
    assert (CE : close 1 (B2R e) (exp (- t))).
    { rewrite Ve. apply (close_round 0); [lia| |].
      - right. split; [apply Rle_trans with (2 := X); apply bpow_le; lia|]. apply Rle_trans with (1 := E1). change 1 with (bpow radix2 0). apply bpow_le. lia.
      - split; [lra|]. cbn. lra. }
    pose proof (CUBE 400 ltac:(lra) L) as PB4.
    assert (SZ : sized (exp (- t) * P t)).
    { right. split.
      - apply Rle_trans with (bpow radix2 (-800)); [apply bpow_le; lia|]. nra.
      - apply Rle_trans with (bpow radix2 30); [|apply bpow_le; lia]. assert (B20 : bpow radix2 30 = 1073741824) by reflexivity. rewrite B20.
        assert (P t <= 1073741824) by lra. nra. }
    destruct (acc_mult 1 n e pt _ _ ltac:(lia) SZ (Logic.conj Fe CE) (Logic.conj Fp CP)) as [_ (Z0 & A & B)].
    assert (FL : exp (- t) * P t <= 1) by (pose proof (exp_cancel t) as Y; pose proof (PE t S0); nra).
    pose proof (up_bound 10 ltac:(lia)) as UB. pose proof (dn_bound 10) as DB. rewrite INR_IZR_INZ in UB, DB. change (IZR (Z.of_nat 10)) with 10 in UB, DB.
    pose proof (up_mono (Datatypes.S (1 + n)) 10 ltac:(lia)) as UM. pose proof (dn_mono (Datatypes.S (1 + n)) 10 ltac:(lia)) as DM.
    set (f := exp (- t) * P t) in *. set (c := B2R (Bm e pt)) in *. set (a := up ^ Datatypes.S (1 + n)) in *. set (b := dn ^ Datatypes.S (1 + n)) in *. clearbody f c a b. apply Rabs_le. split; nra.
  - assert (L' : 400 < t) by lra. specialize (SMALL ltac:(lra)).
    assert (CB : 0 <= B2R (Bm e pt) <= bpow radix2 (-300)).
    { destruct (Rle_dec t 1100) as [M|M].
      - pose proof (CUBE 1100 ltac:(lra) M) as PB4.
        assert (EB : 0 <= B2R e <= bpow radix2 (-400)).
        { rewrite Ve. apply rnd_between; [apply fmt_0|apply fmt_pow; lia|]. split; [lra|]. apply (exp_m_le t 400); [lia|lra]. }
        apply (mult_in 0 (bpow radix2 (-300))); [apply fmt_0|apply fmt_pow; lia|pose proof (bpow_gt_0 radix2 1000); unfold big; lra|apply pow_big; lia|exact Fe|exact Fp|].
        split; [nra|]. apply Rle_trans with (bpow radix2 (-400) * bpow radix2 40); [|rewrite <- bpow_plus; apply bpow_le; lia].
        apply Rmult_le_compat; try lra. assert (B22 : bpow radix2 40 = 1099511627776) by reflexivity. rewrite B22. lra.
      - assert (EZ : B2R e = 0).
        { rewrite Ve. apply tiny_zero. split; [lra|]. apply Rle_trans with (bpow radix2 (- (1100))); [apply exp_m_le; [lia|lra]|apply bpow_le; lia]. }
        assert (IZ : is_zero e) by exact (zero_of e Fe EZ). destruct (mult_zero_l e pt IZ Fp) as [b ->]. pose proof (bpow_gt_0 radix2 (-300)). cbn [B2R]. lra. }
    assert (B4 : bpow radix2 (-300) <= u53) by (unfold u53; apply bpow_le; lia).
    apply Rabs_le. lra.
Qed.
Hypothesis PR : pow_rounded m.
Variable v : variogram F.
Variable d : b64.
Hypothesis Fd : fin d = true.
Hypothesis SD : szd (-202) 202 (B2R d).
Ltac lit_c := eapply lit_close; [vm_compute; reflexivity|lra|rewrite u53_val; unfold bpow, radix2, Zpower_pos; simpl; lra].
Lemma l6877 : acc 1 (Flit 6877 3) (6877 / 1000). Proof. lit_c. Qed.
Lemma l15r : exactly (Flit 15 0) 15. Proof. lit_t. Qed.
Lemma l5r : exactly (Flit 5 0) 5. Proof. lit_t. Qed.
Lemma D0 : 0 <= B2R d. Proof. exact (szd_nn _ _ _ SD). Qed.
Lemma pow_acc (x y : b64) n k : fin x = true -> exactly y (INR (Datatypes.S k)) -> szd (- n) n (B2R x) -> (0 <= n)%Z -> (n * Z.of_nat (Datatypes.S k) <= 990)%Z ->
  acc 1 (lm_pow m x y) (B2R x ^ Datatypes.S k) /\ szd (- (n * Z.of_nat (Datatypes.S k))) (n * Z.of_nat (Datatypes.S k)) (B2R x ^ Datatypes.S k).
Proof.
  intros Fx [Fy Vy] S N L. pose proof (szd_nn _ _ _ S) as X0.
  assert (G : szd (- (n * Z.of_nat (Datatypes.S k))) (n * Z.of_nat (Datatypes.S k)) (B2R x ^ Datatypes.S k)).
  { clear - S. set (r := B2R x) in *. clearbody r. assert (G : forall j, szd (- (n * Z.of_nat (Datatypes.S j))) (n * Z.of_nat (Datatypes.S j)) (r ^ Datatypes.S j)); [|apply G].
    induction j; [rewrite pow_1, Z.mul_1_r; exact S|]. replace (- (n * Z.of_nat (Datatypes.S (Datatypes.S j))))%Z with (- n + - (n * Z.of_nat (Datatypes.S j)))%Z by lia.
    replace (n * Z.of_nat (Datatypes.S (Datatypes.S j)))%Z with (n + n * Z.of_nat (Datatypes.S j))%Z by lia. rewrite <- tech_pow_Rmult. apply szd_mult; assumption. }
  split; [|exact G]. assert (E : Rpow (B2R x) (B2R y) = B2R x ^ Datatypes.S k) by (rewrite Vy; apply Rpow_nat; [exact X0|lia]).
  assert (SZ : sized (B2R x ^ Datatypes.S k)) by (apply (szd_sized (- (n * Z.of_nat (Datatypes.S k))) (n * Z.of_nat (Datatypes.S k))); [lia|lia|exact G]).
  assert (Y0 : 0 < B2R y) by (rewrite Vy; apply lt_0_INR; lia).
  destruct (PR x y Fx Fy X0 Y0) as [A B].
  { rewrite E. destruct SZ as [->|[_ Q]]; [apply bpow_ge_0|]. apply Rle_trans with (1 := Q). apply bpow_le. lia. }
  split; [exact A|]. rewrite B, E. apply (close_round 0); [lia|exact SZ|]. split; [apply pow_le; exact X0|]. cbn [pow]. lra.
Qed.
Lemma l2i : exactly (Flit 2 0) (INR 2). Proof. destruct l2 as [A B]. split; [exact A|]. rewrite B. cbn. lra. Qed.
Lemma l3i : exactly (Flit 3 0) (INR 3). Proof. destruct l3 as [A B]. split; [exact A|]. rewrite B. cbn. lra. Qed.
Lemma corr_m72 : vt v = MATERN72 -> fin (Corr1D v d) = true /\ Rabs (B2R (Corr1D v d) - exp (- (6877 / 1000 * B2R d)) * p72 (6877 / 1000 * B2R d)) <= 16 * u53.
Proof.
  intros T. unfold Corr1D. rewrite T. cbn [fexp fpow lit mul add neg div Farith]. pose proof D0 as D0. destruct b1_4 as (B1 & B2 & B3).
  assert (S1 : szd (2 + -202) (3 + 202) (6877 / 1000 * B2R d)) by (apply szd_const; [lra|rewrite B2, B3; lra|exact SD]).
  assert (Q : acc 2 (Bm (Flit 6877 3) d) (6877 / 1000 * B2R d)).
  { apply (acc_mult 1 0); [lia|apply (szd_sized (2 + -202) (3 + 202)); [lia|lia|exact S1]|exact l6877|apply acc_self; assumption]. }
  set (s := Bm (Flit 6877 3) d) in *. pose proof (close_nn _ _ _ (proj2 Q)) as S0.
  assert (SS : szd (-206) 206 (B2R s)).
  { destruct Q as [_ (Z0 & L & U)]. destruct S1 as [E|[E1 E2]]; [left; rewrite E in *; lra|right]. pose proof (dn_half 2 ltac:(lia)). pose proof (up_two 2 ltac:(lia)).
    assert (bpow radix2 (-206 + 1) <= bpow radix2 (2 + -202)) by (apply bpow_le; lia). change 206%Z with (3 + 202 + 1)%Z. rewrite bp1 in *. pose proof (bpow_gt_0 radix2 (-206)). split; nra. }
  destruct (pow_acc s (Flit 2 0) 206 1 (proj1 Q) l2i SS ltac:(lia) ltac:(lia)) as [A2 Z2].
  destruct (pow_acc s (Flit 3 0) 206 2 (proj1 Q) l3i SS ltac:(lia) ltac:(lia)) as [A3 Z3].
  change (206 * Z.of_nat 2)%Z with 412%Z in Z2. change (206 * Z.of_nat 3)%Z with 618%Z in Z3.
  assert (P1 : acc 1 (Bplus mode_NE (Flit 1 0) s) (1 + B2R s) /\ 1 <= 1 + B2R s <= bpow radix2 207).
  { assert (B : 1 <= 1 + B2R s <= bpow radix2 207).
    { split; [lra|]. change 207%Z with (206 + 1)%Z. rewrite bp1. pose proof (pow_one 206 ltac:(lia)). destruct SS as [->|HS]; lra. }
    split; [|exact B]. apply (acc_plus 0); [lia| |apply (acc_exact _ _ l1); lra|apply acc_self; [apply Q|exact S0]]. apply (sized_in 0 207); [lia|lia|exact B]. }
  destruct P1 as [P1 BB].
  assert (C25 : acc 1 (Bdiv mode_NE (Flit 2 0) (Flit 5 0)) (2 * / 5)).
  { apply (acc_div 0 0); [lia|lia|lra| |apply (acc_exact _ _ l2); lra|apply (acc_exact _ _ l5r); lra]. apply (sized_in (-2) 0); [lia|lia|]. unfold bpow, radix2, Zpower_pos. simpl. lra. }
  assert (Z25 : szd (-2 + -412) (0 + 412) (2 * / 5 * B2R s ^ 2)) by (apply szd_const; [lra|unfold bpow, radix2, Zpower_pos; simpl; lra|exact Z2]).
  assert (P2 : acc 3 (Bm (Bdiv mode_NE (Flit 2 0) (Flit 5 0)) (lm_pow m s (Flit 2 0))) (2 * / 5 * B2R s ^ 2)).
  { apply (acc_mult 1 1); [lia|apply (szd_sized (-2 + -412) (0 + 412)); [lia|lia|exact Z25]|exact C25|exact A2]. }
  assert (Z15 : szd (-4 + -618) (0 + 618) (/ 15 * B2R s ^ 3)) by (apply szd_const; [lra|unfold bpow, radix2, Zpower_pos; simpl; lra|exact Z3]).
  assert (P3 : acc 2 (Bdiv mode_NE (lm_pow m s (Flit 3 0)) (Flit 15 0)) (B2R s ^ 3 * / 15)).
  { apply (acc_div 1 0); [lia|lia|lra| |exact A3|apply (acc_exact _ _ l15r); lra]. rewrite Rmult_comm. apply (szd_sized (-4 + -618) (0 + 618)); [lia|lia|exact Z15]. }
  assert (LE : forall a b e, szd a b e -> e <= bpow radix2 b) by (intros a b e [->|[_ H]]; [apply bpow_ge_0|exact H]).
  pose proof (LE _ _ _ Z25) as U25. pose proof (LE _ _ _ Z15) as U15. pose proof (szd_nn _ _ _ Z25) as N25. pose proof (szd_nn _ _ _ Z15) as N15.
  assert (UU : bpow radix2 207 <= bpow radix2 618 /\ bpow radix2 (0 + 412) <= bpow radix2 618 /\ bpow radix2 (0 + 618) <= bpow radix2 618) by (split; [|split]; apply bpow_le; lia).
  assert (P12 : acc 4 (Bplus mode_NE (Bplus mode_NE (Flit 1 0) s) (Bm (Bdiv mode_NE (Flit 2 0) (Flit 5 0)) (lm_pow m s (Flit 2 0)))) (1 + B2R s + 2 * / 5 * B2R s ^ 2)).
  { apply (acc_plus 3); [lia| |apply (acc_weak 1); [lia|exact P1]|exact P2]. apply (sized_in 0 620); [lia|lia|]. change 620%Z with (618 + 1 + 1)%Z. rewrite !bp1. change (bpow radix2 0) with 1. pose proof (pow_one 618 ltac:(lia)). lra. }
  assert (PP : acc 5 (Bplus mode_NE (Bplus mode_NE (Bplus mode_NE (Flit 1 0) s) (Bm (Bdiv mode_NE (Flit 2 0) (Flit 5 0)) (lm_pow m s (Flit 2 0)))) (Bdiv mode_NE (lm_pow m s (Flit 3 0)) (Flit 15 0))) (p72 (B2R s))).
  { unfold p72. rewrite (Rmult_comm (/ 15)). unfold Rdiv. apply (acc_plus 4); [lia| |exact P12|apply (acc_weak 2); [lia|exact P3]].
    rewrite (Rmult_comm (_ ^ 3)). apply (sized_in 0 620); [lia|lia|]. change 620%Z with (618 + 1 + 1)%Z. rewrite !bp1. change (bpow radix2 0) with 1. pose proof (pow_one 618 ltac:(lia)). lra. }
  assert (PB : 1 <= p72 (B2R s) <= (1 + B2R s) ^ 3).
  { unfold p72. pose proof (pow_le (B2R s) 2 S0). pose proof (pow_le (B2R s) 3 S0). split; [lra|]. replace ((1 + B2R s) ^ 3) with (1 + 3 * B2R s + 3 * B2R s ^ 2 + B2R s ^ 3) by ring. lra. }
  destruct (poly_acc p72 5 s _ ltac:(lia) p72_le (proj1 Q) S0 PP PB) as [FR R1]. split; [exact FR|].
  pose proof (slow_close _ _ 2 _ (B2R s) slow_72 ltac:(lia) (proj2 Q)) as R2. cbv beta in R2. rewrite INR_IZR_INZ in R2. change (IZR (Z.of_nat 2)) with 2 in R2. pose proof u53_small.
  match goal with |- Rabs (?a - ?c) <= _ => match type of R1 with Rabs (_ - ?b) <= _ => pose proof (Rabs_triang (a - b) (b - c)) as Tr; replace (a - b + (b - c)) with (a - c) in Tr by ring end end. lra.
Qed.
Lemma corr_gex : vt v = GENERAL_EXPONENTIAL -> fin (vpower v) = true -> 0 < B2R (vpower v) <= 2 -> Rabs (B2R (Corr1D v d) - exp (- 3 * Rpow (B2R d) (B2R (vpower v)))) <= 16 * u53.
Proof.
  intros T Fp P. unfold Corr1D. rewrite T. cbn [fexp fpow lit mul Farith]. rewrite m3_opp, Bmult_opp_l. pose proof D0 as D0.
  set (r := Rpow (B2R d) (B2R (vpower v))) in *. replace (- 3 * r) with (- (3 * r)) by ring.
  assert (Z : szd (-404) 404 r).
  { unfold r. destruct SD as [E|[L U]]; [left; rewrite E; apply Rpow_0_l; lra|]. pose proof (bpow_gt_0 radix2 (-202)) as B0. unfold Rpow. destruct (Rlt_dec 0 (B2R d)); [|lra].
    right. assert (PB : forall z, Rpower (bpow radix2 z) 2 = bpow radix2 (z + z)). { intros z. change 2 with (INR 2). rewrite Rpower_pow by apply bpow_gt_0. cbn. rewrite Rmult_1_r, bpow_plus. reflexivity. }
    change (-404)%Z with (-202 + -202)%Z. change 404%Z with (202 + 202)%Z. rewrite <- !PB. split.
    - destruct (Rle_dec 1 (B2R d)) as [G|G].
      + apply Rle_trans with 1.
        * unfold Rpower. rewrite <- exp_0. apply exp_le_mono. assert (ln (bpow radix2 (-202)) <= 0). { rewrite <- ln_1. apply ln_le; [exact B0|]. change 1 with (bpow radix2 0). apply bpow_le. lia. } lra.
        * unfold Rpower. rewrite <- exp_0. apply exp_le_mono. assert (0 <= ln (B2R d)) by (rewrite <- ln_1; apply ln_le; lra). nra.
      + unfold Rpower. apply exp_le_mono. assert (ln (B2R d) <= 0) by (rewrite <- ln_1; apply ln_le; lra). pose proof (ln_le _ _ B0 L). nra.
    - destruct (Rle_dec 1 (B2R d)) as [G|G].
      + unfold Rpower. apply exp_le_mono. assert (0 <= ln (B2R d)) by (rewrite <- ln_1; apply ln_le; lra). pose proof (ln_le (B2R d) _ ltac:(lra) U). nra.
      + apply Rle_trans with 1.
        * unfold Rpower. rewrite <- exp_0. apply exp_le_mono. assert (ln (B2R d) <= 0) by (rewrite <- ln_1; apply ln_le; lra). nra.
        * unfold Rpower. rewrite <- exp_0. apply exp_le_mono. assert (0 <= ln (bpow radix2 202)). { rewrite <- ln_1. apply ln_le; [lra|]. change 1 with (bpow radix2 0). apply bpow_le. lia. } lra. }
  assert (SZ : sized r) by (apply (szd_sized (-404) 404); [lia|lia|exact Z]).
  destruct (PR d (vpower v) Fd Fp D0 ltac:(lra)) as [A B].
  { fold r. destruct SZ as [->|[_ Q]]; [apply bpow_ge_0|]. apply Rle_trans with (1 := Q). apply bpow_le. lia. }
  fold r in B.
  assert (A1 : acc 1 (lm_pow m d (vpower v)) r).
  { split; [exact A|]. rewrite B. apply (close_round 0); [lia|exact SZ|]. split; [exact (szd_nn _ _ _ Z)|]. cbn [pow]. lra. }
  destruct b1_4 as (B1 & B2 & B3). apply (exp_only m ok ER _ 2); [lia|]. apply (acc_mult 0 1); [lia| |apply (acc_exact _ _ l3); lra|exact A1].
  apply (szd_sized (1 + -404) (2 + 404)); [lia|lia|]. apply szd_const; [lra|rewrite B1, B2; lra|exact Z].
Qed.
End Corr.
