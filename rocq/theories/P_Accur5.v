(** Accuracy of correlations in double precision: the correlations. *)
From Coq Require Import ZArith Bool Lia Reals Lra String List.
From Flocq Require Import Core IEEE754.BinarySingleNaN.
From Verif Require Import Base Arith RealArith FloatArith M_Variogram S_Vario S_Random S_Normal P_VarioF P_NormF S_CorrF P_CorrF P_CorrF2 P_CorrF4 P_CorrF5 S_Accur P_Accur P_Accur2 P_Accur3 P_Accur4.
Import ListNotations.
Open Scope R_scope.

Lemma u16 : 16 * u53 = bpow radix2 (-49). Proof. rewrite u53_val. unfold bpow, radix2, Zpower_pos. simpl. lra. Qed.
Lemma tiny_zero y : 0 < y <= bpow radix2 (-1080) -> rnd y = 0.
Proof.
  intros [A B]. destruct (mag radix2 y) as [ex E]. specialize (E ltac:(lra)). rewrite Rabs_right in E by lra.
  assert (L : (ex - 1 < -1079)%Z) by (apply (lt_bpow radix2); apply Rle_lt_trans with (1 := proj1 E); apply Rle_lt_trans with (1 := B); apply bpow_lt; lia).
  unfold rnd. apply (round_N_small_pos radix2 (SpecFloat.fexp 53 1024) (fun x => negb (Z.even x)) y ex E). unfold SpecFloat.fexp, SpecFloat.emin. lia.
Qed.
Section Corr.
Variable m : libm.
Hypothesis ok : fair m.
Hypothesis ER : exp_rounded m.
Notation F := (Farith m).
(** exp of minus a number that is not negative *)
Lemma exp_part (t : b64) : fin t = true -> 0 <= B2R t -> fin (lm_exp m (Bo t)) = true /\ B2R (lm_exp m (Bo t)) = rnd (exp (- B2R t)).
Proof.
  intros Ft T0. assert (FO : fin (Bo t) = true) by (rewrite is_finite_Bopp; exact Ft). assert (V : B2R (Bo t) = - B2R t) by apply B2R_Bopp.
  split.
  - apply (exp_unit m ok). apply (le_fin (Bo t) zero64 FO eq_refl). rewrite V. cbn. lra.
  - rewrite (ER (Bo t) FO) by (rewrite V; lra). rewrite V. reflexivity.
Qed.
Lemma exp_only (t : b64) n T : (n <= 12)%nat -> acc n t T -> Rabs (B2R (lm_exp m (Bo t)) - exp (- T)) <= 16 * u53.
Proof.
  intros N [Ft C]. pose proof (close_nn _ _ _ C) as T0. destruct (exp_part t Ft T0) as [_ V]. rewrite V. pose proof u53_small.
  pose proof (slow_close _ _ n T (B2R t) slow_exp ltac:(lia) C) as S. cbv beta in S. destruct (exp_neg_le1 (B2R t) T0) as [E0 E1].
  pose proof (abs_err1 (exp (- B2R t)) ltac:(rewrite Rabs_right; lra)) as A.
  assert (NN : INR n <= 12) by (rewrite INR_IZR_INZ; apply IZR_le; lia). pose proof (pos_INR n).
  assert (6 / 5 * INR n * u53 <= 15 * u53) by nra.
  pose proof (Rabs_triang (rnd (exp (- B2R t)) - exp (- B2R t)) (exp (- B2R t) - exp (- T))) as Tr.
  replace (rnd (exp (- B2R t)) - exp (- B2R t) + (exp (- B2R t) - exp (- T))) with (rnd (exp (- B2R t)) - exp (- T)) in Tr by ring. lra.
Qed.
Lemma fin_prod (s pt : b64) : fin s = true -> 0 <= B2R s -> fin pt = true -> fin (Bm (lm_exp m (Bo s)) pt) = true.
Proof.
  intros Fs S0 Fp. destruct (exp_part s Fs S0) as [Fe Ve]. destruct (exp_neg_le1 (B2R s) S0) as [E0 E1].
  assert (EB : 0 <= B2R (lm_exp m (Bo s)) <= 1). { rewrite Ve. apply rnd_between; [apply fmt_0|apply fmt_1|]. lra. }
  pose proof (Bmult_correct 53 1024 Hprec Hmax mode_NE (lm_exp m (Bo s)) pt) as C. fold (Bm (lm_exp m (Bo s)) pt) in C.
  change (round radix2 (SpecFloat.fexp 53 1024) (round_mode mode_NE) (B2R (lm_exp m (Bo s)) * B2R pt)) with (rnd (B2R (lm_exp m (Bo s)) * B2R pt)) in C.
  assert (B : Rabs (rnd (B2R (lm_exp m (Bo s)) * B2R pt)) <= Rabs (B2R pt)).
  { assert (G : fmt (Rabs (B2R pt))) by (apply generic_format_abs, generic_format_B2R). apply Rabs_le. apply rnd_between; [apply generic_format_opp; exact G|exact G|].
    apply Rabs_le_inv. rewrite Rabs_mult, (Rabs_right (B2R (lm_exp m (Bo s)))) by lra. pose proof (Rabs_pos (B2R pt)). nra. }
  rewrite Rlt_bool_true in C by (apply Rle_lt_trans with (1 := B); apply abs_B2R_lt_emax). destruct C as (_ & A & _). rewrite A, Fe, Fp. reflexivity.
Qed.
(** exp(-s) times a polynomial *)
Lemma matern_acc (P : R -> R) f' (s pt : b64) S : slow (fun s => exp (- s) * P s) f' -> (forall x, 0 <= x -> P x <= exp x) -> acc 7 s S -> acc 3 pt (P (B2R s)) ->
  1 <= P (B2R s) <= 1 + B2R s + B2R s ^ 2 ->
  fin (Bm (lm_exp m (Bo s)) pt) = true /\ Rabs (B2R (Bm (lm_exp m (Bo s)) pt) - exp (- S) * P S) <= 16 * u53.
Proof.
  intros SL PE [Fs C] [Fp CP] PB. pose proof (close_nn _ _ _ C) as S0. split; [apply fin_prod; assumption|]. destruct (exp_part s Fs S0) as [Fe Ve].
  pose proof (slow_close _ _ 7 S (B2R s) SL ltac:(lia) C) as Q. cbv beta in Q. rewrite INR_IZR_INZ in Q. change (IZR (Z.of_nat 7)) with 7 in Q.
  set (t := B2R s) in *. set (e := lm_exp m (Bo s)) in *. pose proof u53_small as U. destruct (exp_neg_le1 t S0) as [E0 E1].
  assert (G : Rabs (B2R (Bm e pt) - exp (- t) * P t) <= 6 * u53).
  { assert (FT : 0 <= exp (- t) * P t) by nra.
    assert (PU : 0 <= B2R pt <= 2 * P t) by (destruct CP as (_ & A & B); pose proof (up_two 3 ltac:(lia)); destruct (dn_pos 3); split; nra).
    assert (SMALL : 300 < t -> exp (- t) * P t <= u53).
    { intros L. assert (B1 : P t <= 3 * t ^ 2) by nra. pose proof (exp_sq (t / 2) ltac:(lra)) as X. pose proof (exp_cancel t) as Y.
      assert (Z : exp (- t) * (exp (t / 2) * exp (t / 2)) = 1) by (rewrite <- exp_plus; replace (t / 2 + t / 2) with t by field; exact Y).
      pose proof (exp_cancel (t / 2)) as W. pose proof (exp_pos (t / 2)) as W0. pose proof (exp_pos (- (t / 2))) as W1.
      assert (E2 : exp (- t) = exp (- (t / 2)) * exp (- (t / 2))) by (rewrite <- exp_plus; f_equal; field).
      assert (B2 : exp (- t) * P t <= 7 * exp (- (t / 2))).
      { apply Rle_trans with (exp (- t) * (3 * t ^ 2)); [apply Rmult_le_compat_l; lra|].
        replace (exp (- t) * (3 * t ^ 2)) with (exp (- (t / 2)) * (exp (- (t / 2)) * (12 * (t / 2) ^ 2))) by (rewrite E2; field).
        rewrite (Rmult_comm 7). apply Rmult_le_compat_l; [lra|].
        apply Rle_trans with (exp (- (t / 2)) * (12 * (55 / 100 * exp (t / 2)))); [apply Rmult_le_compat_l; lra|].
        replace (exp (- (t / 2)) * (12 * (55 / 100 * exp (t / 2)))) with (12 * 55 / 100 * (exp (- (t / 2)) * exp (t / 2))) by field. rewrite W. lra. }
      pose proof (exp_m_le (t / 2) 100 ltac:(lia) ltac:(lra)) as B3.
      assert (B4 : bpow radix2 (- (100)) <= u53 / 8) by (rewrite u53_val; apply Rle_trans with (bpow radix2 (-60)); [apply bpow_le; lia|unfold bpow, radix2, Zpower_pos; simpl; lra]).
      lra. }
    destruct (Rle_dec t 400) as [L|L].
    - pose proof (exp_m_ge t 400 ltac:(lia) L) as X. change (- (2 * 400))%Z with (-800)%Z in X.
      assert (CE : close 1 (B2R e) (exp (- t))).
      { rewrite Ve. apply (close_round 0); [lia| |].
        - right. split; [apply Rle_trans with (2 := X); apply bpow_le; lia|]. apply Rle_trans with (1 := E1). change 1 with (bpow radix2 0). apply bpow_le. lia.
        - split; [lra|]. cbn. lra. }
      assert (SZ : sized (exp (- t) * P t)).
      { right. split.
        - apply Rle_trans with (bpow radix2 (-800)); [apply bpow_le; lia|]. nra.
        - apply Rle_trans with (bpow radix2 20); [|apply bpow_le; lia]. assert (B20 : bpow radix2 20 = 1048576) by reflexivity. rewrite B20.
          assert (P t <= 1048576) by nra. nra. }
      destruct (acc_mult 1 3 e pt _ _ ltac:(lia) SZ (Logic.conj Fe CE) (Logic.conj Fp CP)) as [_ (Z0 & A & B)].
      assert (FL : exp (- t) * P t <= 1) by (pose proof (exp_cancel t) as Y; pose proof (PE t S0); nra).
      pose proof (up_bound 5 ltac:(lia)) as UB. pose proof (dn_bound 5) as DB. rewrite INR_IZR_INZ in UB, DB. change (IZR (Z.of_nat 5)) with 5 in UB, DB.
      change (Datatypes.S (1 + 3)) with 5%nat in A, B. set (f := exp (- t) * P t) in *. set (c := B2R (Bm e pt)) in *. clearbody f c. apply Rabs_le. split; nra.
    - assert (L' : 400 < t) by lra. specialize (SMALL ltac:(lra)).
      assert (CB : 0 <= B2R (Bm e pt) <= bpow radix2 (-300)).
      { destruct (Rle_dec t 1100) as [M|M].
        - assert (EB : 0 <= B2R e <= bpow radix2 (-400)).
          { rewrite Ve. apply rnd_between; [apply fmt_0|apply fmt_pow; lia|]. split; [lra|]. apply (exp_m_le t 400); [lia|lra]. }
          apply (mult_in 0 (bpow radix2 (-300))); [apply fmt_0|apply fmt_pow; lia|pose proof (bpow_gt_0 radix2 1000); unfold big; lra|apply pow_big; lia|exact Fe|exact Fp|].
          split; [nra|]. apply Rle_trans with (bpow radix2 (-400) * bpow radix2 22); [|rewrite <- bpow_plus; apply bpow_le; lia].
          apply Rmult_le_compat; try lra. assert (B22 : bpow radix2 22 = 4194304) by reflexivity. rewrite B22. nra.
        - assert (EZ : B2R e = 0).
          { rewrite Ve. apply tiny_zero. split; [lra|]. apply Rle_trans with (bpow radix2 (- (1100))); [apply exp_m_le; [lia|lra]|apply bpow_le; lia]. }
          assert (IZ : is_zero e) by exact (zero_of e Fe EZ). destruct (mult_zero_l e pt IZ Fp) as [b ->]. pose proof (bpow_gt_0 radix2 (-300)). cbn [B2R]. lra. }
      assert (B4 : bpow radix2 (-300) <= u53) by (unfold u53; apply bpow_le; lia).
      apply Rabs_le. lra. }
  pose proof (Rabs_triang (B2R (Bm e pt) - exp (- t) * P t) (exp (- t) * P t - exp (- S) * P S)) as Tr.
  replace (B2R (Bm e pt) - exp (- t) * P t + (exp (- t) * P t - exp (- S) * P S)) with (B2R (Bm e pt) - exp (- S) * P S) in Tr by ring. lra.
Qed.
Lemma p32_le x : 0 <= x -> p32 x <= exp x. Proof. intros _. unfold p32. apply exp_ineq1_le. Qed.
Lemma p52_le x : 0 <= x -> p52 x <= exp x.
Proof.
  intros X. pose proof (exp_ineq1_le (x / 3)) as H. replace (exp x) with (exp (x / 3) * exp (x / 3) * exp (x / 3)) by (rewrite <- !exp_plus; f_equal; field).
  set (e := exp (x / 3)) in *. assert (E2 : (1 + x / 3) * (1 + x / 3) <= e * e) by nra.
  assert (E3 : (1 + x / 3) * (1 + x / 3) * (1 + x / 3) <= e * e * e) by (apply Rmult_le_compat; nra). unfold p52. assert (0 <= x * x * x) by (apply Rmult_le_pos; nra). nra.
Qed.
Lemma lit_close (x : b64) k e r : B2SF x = SpecFloat.S754_finite false k e -> 0 <= r -> dn * r <= IZR (Zpos k) * bpow radix2 e <= up * r -> acc 1 x r.
Proof.
  intros E R0 H. destruct x as [s|s| |s k' e' Q]; try discriminate E. injection E as -> -> ->. split; [reflexivity|]. split; [exact R0|]. rewrite !pow_1. exact H.
Qed.
Ltac lit_c := eapply lit_close; [vm_compute; reflexivity|lra|rewrite u53_val; unfold bpow, radix2, Zpower_pos; simpl; lra].
Lemma l4744 : acc 1 (Flit 4744 3) (4744 / 1000). Proof. lit_c. Qed.
Lemma l5918 : acc 1 (Flit 5918 3) (5918 / 1000). Proof. lit_c. Qed.
Lemma acc_self t : fin t = true -> 0 <= B2R t -> acc 0 t (B2R t). Proof. intros A B. apply acc_exact; [split; [exact A|reflexivity]|exact B]. Qed.
Lemma sized_in a b e : (-990 <= a)%Z -> (b <= 990)%Z -> bpow radix2 a <= e <= bpow radix2 b -> sized e.
Proof. intros A B H. apply (szd_sized a b); [exact A|exact B|right; exact H]. Qed.

(** the distance of an unrotated variogram *)
Variable v : variogram F.
Variable d : b64.
Variable D : R.
Hypothesis AD : acc 5 d D.
Hypothesis SD : szd (-402) 402 D.
Lemma szd_const a b c z y e : (0 < c) -> bpow radix2 z <= c <= bpow radix2 y -> szd a b e -> szd (z + a) (y + b) (c * e).
Proof. intros C Z E. apply szd_mult; [right; exact Z|exact E]. Qed.
Lemma b1_4 : bpow radix2 1 = 2 /\ bpow radix2 2 = 4 /\ bpow radix2 3 = 8. Proof. split; [|split]; reflexivity. Qed.
Lemma corr_exp : vt v = EXPONENTIAL -> Rabs (B2R (Corr1D v d) - exp (- 3 * D)) <= 16 * u53.
Proof.
  intros T. unfold Corr1D. rewrite T. cbn [fexp lit mul Farith]. rewrite m3_opp, Bmult_opp_l. replace (- 3 * D) with (- (3 * D)) by ring.
  destruct b1_4 as (B1 & B2 & B3). apply (exp_only _ 6); [lia|]. apply (acc_mult 0 5); [lia| |apply (acc_exact _ _ l3); lra|exact AD].
  apply (szd_sized (1 + -402) (2 + 402)); [lia|lia|]. apply szd_const; [lra|rewrite B1, B2; lra|exact SD].
Qed.
Lemma corr_gau : vt v = GAUSSIAN -> Rabs (B2R (Corr1D v d) - exp (- 3 * D ^ 2)) <= 16 * u53.
Proof.
  intros T. unfold Corr1D. rewrite T. cbn [fexp lit mul Farith]. rewrite m3_opp, !Bmult_opp_l. replace (- 3 * D ^ 2) with (- (3 * D * D)) by ring.
  destruct b1_4 as (B1 & B2 & B3). assert (S1 : szd (1 + -402) (2 + 402) (3 * D)) by (apply szd_const; [lra|rewrite B1, B2; lra|exact SD]).
  apply (exp_only _ 12); [lia|]. apply (acc_mult 6 5); [lia| | |exact AD].
  - apply (szd_sized (1 + -402 + -402) (2 + 402 + 402)); [lia|lia|]. apply szd_mult; assumption.
  - apply (acc_mult 0 5); [lia| |apply (acc_exact _ _ l3); lra|exact AD]. apply (szd_sized (1 + -402) (2 + 402)); [lia|lia|exact S1].
Qed.
Lemma sd_acc (c : b64) C : acc 1 c C -> 4 <= C <= 8 -> acc 7 (Bm c d) (C * D) /\ (B2R (Bm c d) = 0 \/ bpow radix2 (-401) <= B2R (Bm c d) <= bpow radix2 406).
Proof.
  intros A HC. destruct b1_4 as (B1 & B2 & B3). assert (S1 : szd (2 + -402) (3 + 402) (C * D)) by (apply szd_const; [lra|rewrite B2, B3; lra|exact SD]).
  assert (Q : acc 7 (Bm c d) (C * D)) by (apply (acc_mult 1 5); [lia|apply (szd_sized (2 + -402) (3 + 402)); [lia|lia|exact S1]|exact A|exact AD]).
  split; [exact Q|]. destruct Q as [_ (Z0 & L & U)]. destruct S1 as [E|[E1 E2]]; [left; rewrite E in *; lra|right].
  pose proof (dn_half 7 ltac:(lia)). pose proof (up_two 7 ltac:(lia)).
  change (2 + -402)%Z with (-401 + 1)%Z in E1. change 406%Z with (3 + 402 + 1)%Z. rewrite bp1 in *. pose proof (bpow_gt_0 radix2 (-401)). split; nra.
Qed.
Lemma pow_one z : (0 <= z)%Z -> 1 <= bpow radix2 z. Proof. intros. change 1 with (bpow radix2 0). apply bpow_le. assumption. Qed.
Lemma one_plus (s : b64) : fin s = true -> (B2R s = 0 \/ bpow radix2 (-401) <= B2R s <= bpow radix2 406) -> acc 1 (Bplus mode_NE (Flit 1 0) s) (p32 (B2R s)) /\ 1 <= p32 (B2R s) <= bpow radix2 407.
Proof.
  intros Fs H. assert (S0 : 0 <= B2R s) by (destruct H as [->|[H _]]; [lra|pose proof (bpow_gt_0 radix2 (-401)); lra]).
  assert (B : 1 <= p32 (B2R s) <= bpow radix2 407).
  { unfold p32. split; [lra|]. change 407%Z with (406 + 1)%Z. rewrite bp1. pose proof (pow_one 406 ltac:(lia)). destruct H as [->|H]; lra. }
  split; [|exact B]. apply (acc_plus 0); [lia| |apply (acc_exact _ _ l1); lra|apply acc_self; assumption].
  apply (sized_in 0 407); [lia|lia|exact B].
Qed.
Lemma corr_m32 : vt v = MATERN32 -> fin (Corr1D v d) = true /\ Rabs (B2R (Corr1D v d) - exp (- (4744 / 1000 * D)) * p32 (4744 / 1000 * D)) <= 16 * u53.
Proof.
  intros T. unfold Corr1D. rewrite T. cbn [fexp lit mul add neg Farith]. destruct (sd_acc _ _ l4744 ltac:(lra)) as [Q S].
  pose proof (close_nn _ _ _ (proj2 Q)) as S0. destruct (one_plus _ (proj1 Q) S) as [A B].
  apply (matern_acc p32 _ (Bm (Flit 4744 3) d) _ _ slow_32 p32_le Q); [apply (acc_weak 1); [lia|exact A]|]. unfold p32. nra.
Qed.
Lemma corr_m52 : vt v = MATERN52 -> fin (Corr1D v d) = true /\ Rabs (B2R (Corr1D v d) - exp (- (5918 / 1000 * D)) * p52 (5918 / 1000 * D)) <= 16 * u53.
Proof.
  intros T. unfold Corr1D. rewrite T. cbn [fexp lit mul add neg div Farith]. destruct (sd_acc _ _ l5918 ltac:(lra)) as [Q S].
  pose proof (close_nn _ _ _ (proj2 Q)) as S0. destruct (one_plus _ (proj1 Q) S) as [A B]. destruct b1_4 as (B1 & B2 & B3).
  set (s := Bm (Flit 5918 3) d) in *. apply (matern_acc p52 _ s _ _ slow_52 p52_le Q); [|unfold p52; split; nra].
  assert (Z : szd (-401) 406 (B2R s)) by exact S. pose proof (szd_mult _ _ _ _ _ _ Z Z) as Z2.
  assert (Z3 : szd (-802 + -2) (812 + -1) (B2R s * B2R s * / 3)).
  { rewrite Rmult_comm, (Z.add_comm (-802)), (Z.add_comm 812). apply szd_mult; [right|exact Z2]. unfold bpow, radix2, Zpower_pos. simpl. lra. }
  assert (A2 : acc 1 (Bm s s) (B2R s * B2R s)) by (apply (acc_mult 0 0); [lia|apply (szd_sized (-802) 812); [lia|lia|exact Z2]|apply acc_self; [apply Q|exact S0]|apply acc_self; [apply Q|exact S0]]).
  assert (A3 : acc 2 (Bdiv mode_NE (Bm s s) (Flit 3 0)) (B2R s * B2R s * / 3)).
  { apply (acc_div 1 0); [lia|lia|lra| |exact A2|apply (acc_exact _ _ l3); lra]. apply (szd_sized (-802 + -2) (812 + -1)); [lia|lia|exact Z3]. }
  apply (acc_plus 2); [lia| |apply (acc_weak 1); [lia|exact A]|exact A3].
  apply (sized_in 0 812); [lia|lia|]. change (1 + B2R s) with (p32 (B2R s)). pose proof (szd_nn _ _ _ Z3). split; [cbn [bpow]; lra|].
  change 812%Z with (811 + 1)%Z. rewrite bp1. assert (bpow radix2 407 <= bpow radix2 811) by (apply bpow_le; lia).
  destruct Z3 as [E|E]; [rewrite E; pose proof (bpow_gt_0 radix2 811); lra|]. change (812 + -1)%Z with 811%Z in E. lra.
Qed.
Lemma corr_sph : vt v = SPHERICAL -> Rabs (B2R (Corr1D v d) - sphf D) <= 16 * u53.
Proof.
  intros T. destruct AD as [Fd C]. pose proof (close_nn _ _ _ C) as D0. pose proof u53_small as U.
  assert (L : le64 zero64 d) by (apply (le_fin zero64 d eq_refl Fd); exact D0).
  pose proof (sph_corr m v d T L Fd) as A. destruct C as (DD & B1 & B2).
  pose proof (up_bound 5 ltac:(lia)) as UB. pose proof (dn_bound 5) as DB. rewrite INR_IZR_INZ in UB, DB. change (IZR (Z.of_nat 5)) with 5 in UB, DB.
  assert (G : Rabs (sphf (B2R d) - sphf D) <= 10 * u53).
  { destruct (Rle_dec D (3 / 2)) as [M|M].
    - destruct (Rle_dec D (11 / 10)) as [M'|M'].
      + apply Rle_trans with (1 := sphf_lip _ _ D0 DD). assert (Rabs (B2R d - D) <= 6 * D * u53) by (apply Rabs_le; split; nra). nra.
      + unfold sphf. destruct (Rlt_dec D 1), (Rlt_dec (B2R d) 1); try nra; rewrite Rminus_diag_eq, Rabs_R0 by reflexivity; lra.
    - unfold sphf. destruct (Rlt_dec D 1), (Rlt_dec (B2R d) 1); try nra; rewrite Rminus_diag_eq, Rabs_R0 by reflexivity; lra. }
  pose proof (Rabs_triang (B2R (Corr1D v d) - sphf (B2R d)) (sphf (B2R d) - sphf D)) as Tr.
  replace (B2R (Corr1D v d) - sphf (B2R d) + (sphf (B2R d) - sphf D)) with (B2R (Corr1D v d) - sphf D) in Tr by ring. lra.
Qed.
(** all of them *)
Definition powerless (t : vtype) : bool := match t with CONSTANT | EXPONENTIAL | SPHERICAL | GAUSSIAN | MATERN32 | MATERN52 => true | _ => false end.
Lemma corr_all p : powerless (vt v) = true -> very_close (Corr1D v d) (corr_fun (vt v) p D).
Proof.
  intros T. unfold very_close. rewrite <- u16.
  assert (U : plain (vt v) = true -> fin (Corr1D v d) = true).
  { intros P. apply (corr_unit m ok v d P); [intros G; rewrite G in T; discriminate T|]. destruct AD as [Fd C]. apply (le_fin zero64 d eq_refl Fd). exact (close_nn _ _ _ C). }
  destruct (vt v) eqn:E; try discriminate T; cbn [corr_fun].
  all: first [split; [apply U; reflexivity|]; first [exact (corr_exp E) | exact (corr_sph E) | exact (corr_gau E)] | idtac].
  - split; [apply U; reflexivity|]. unfold Corr1D. rewrite E. cbn [lit Farith]. rewrite (proj2 l1), Rminus_diag_eq, Rabs_R0 by reflexivity. pose proof u53_small. lra.
  - exact (corr_m32 E).
  - cbv zeta. pose proof (corr_m52 E) as Q. unfold p52 in Q. replace ((5918 / 1000 * D) ^ 2 / 3) with (5918 / 1000 * D * (5918 / 1000 * D) * / 3) by (unfold Rdiv; ring). exact Q.
Qed.
End Corr.
