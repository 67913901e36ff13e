(** Rounding errors of the steps of a simulation in double precision. *)
From Coq Require Import ZArith List Bool Lia Reals Lra Psatz.
From Flocq Require Import Core IEEE754.BinarySingleNaN.
From Verif Require Import Base Arith RealArith FloatArith M_Variogram M_Grid M_CovGrid M_Fft M_Field S_CovGrid S_Random S_CorrF P_NormF P_CorrF P_CorrF2 P_Accur P_Accur2
  P_Base P_Grid P_Bounds P_Overrun P_Dft P_DftList P_DftField P_Euclid P_FieldE S_FieldF.
Import ListNotations.
Open Scope R_scope.

Definition tn : R := bpow radix2 (-1074).
Lemma tn_pos : 0 < tn. Proof. apply bpow_gt_0. Qed.
Lemma bp2 z : 2 * bpow radix2 z = bpow radix2 (z + 1). Proof. rewrite bpow_plus. cbn. lra. Qed.
(** one rounding *)
Lemma rnd_err y : Rabs (rnd y - y) <= u53 * Rabs y + tn.
Proof.
  destruct (Relative.error_N_FLT radix2 (-1074) 53 eq_refl (fun x => negb (Z.even x)) y) as (e & n & A & B & _ & D).
  change (rnd y = y * (1 + e) + n) in D. rewrite D. replace (y * (1 + e) + n - y) with (y * e + n) by ring.
  eapply Rle_trans; [apply Rabs_triang|]. apply Rplus_le_compat.
  - rewrite Rabs_mult, Rmult_comm. apply Rmult_le_compat_r; [apply Rabs_pos|]. apply Rle_trans with (1 := A). rewrite u53_val. unfold bpow, radix2, Zpower_pos. simpl. lra.
  - apply Rle_trans with (1 := B). fold tn. pose proof tn_pos. lra.
Qed.
Definition top : R := bpow radix2 900.
Lemma top_ok y : Rabs y <= top -> Rlt_bool (Rabs (rnd y)) (bpow radix2 1024) = true.
Proof.
  intros H. apply Rabs_le_inv in H. apply (no_over (- top) top); [apply generic_format_opp|apply fmt_pow; lia|exact H| |]; [apply fmt_pow; lia| |].
  - apply Ropp_le_contravar. apply bpow_le. lia.
  - apply bpow_le. lia.
Qed.
Lemma mult_err (x y : b64) : fin x = true -> fin y = true -> Rabs (B2R x * B2R y) <= top ->
  fin (Bm x y) = true /\ Rabs (B2R (Bm x y) - B2R x * B2R y) <= u53 * Rabs (B2R x * B2R y) + tn.
Proof.
  intros Fx Fy H. pose proof (Bmult_correct 53 1024 Hprec Hmax mode_NE x y) as Q. change (round radix2 (SpecFloat.fexp 53 1024) (round_mode mode_NE) (B2R x * B2R y)) with (rnd (B2R x * B2R y)) in Q.
  rewrite (top_ok _ H) in Q. destruct Q as [V [F _]]. rewrite Fx, Fy in F. split; [exact F|]. rewrite V. apply rnd_err.
Qed.
Lemma mult_1 (x : b64) : fin x = true -> fin (Bm (Flit 1 0) x) = true /\ B2R (Bm (Flit 1 0) x) = B2R x.
Proof.
  intros Fa. destruct l1 as [F1 V1]. pose proof (Bmult_correct 53 1024 Hprec Hmax mode_NE (Flit 1 0) x) as Q.
  rewrite V1, Rmult_1_l in Q. change (round radix2 (SpecFloat.fexp 53 1024) (round_mode mode_NE) (B2R x)) with (rnd (B2R x)) in Q. rewrite (rnd_id (B2R x)) in Q by apply generic_format_B2R.
  assert (O : Rlt_bool (Rabs (B2R x)) (bpow radix2 1024) = true) by (apply Rlt_bool_true, abs_B2R_lt_emax). rewrite O in Q. destruct Q as [V [F _]].
  split; [rewrite F, F1, Fa; reflexivity|exact V].
Qed.
(** integers *)
Lemma of_exact z : (Z.abs z < 2 ^ 53)%Z -> exactly (Fof z 0) (IZR z).
Proof.
  intros H. pose proof (binary_normalize_correct 53 1024 Hprec Hmax mode_NE z 0 false) as Q. cbv zeta in Q.
  assert (E : F2R (Float radix2 z 0) = IZR z) by (unfold F2R; cbn [Fnum Fexp]; change (bpow radix2 0) with 1; ring). rewrite E in Q.
  change (round radix2 (SpecFloat.fexp 53 1024) (round_mode mode_NE) (IZR z)) with (rnd (IZR z)) in Q. rewrite (rnd_id _ (fmt_Z z H)) in Q.
  assert (O : Rlt_bool (Rabs (IZR z)) (bpow radix2 1024) = true).
  { apply Rlt_bool_true. rewrite <- abs_IZR. apply Rlt_trans with (IZR (2 ^ 53)); [apply IZR_lt, H|]. change (IZR (2 ^ 53)) with (bpow radix2 53). apply bpow_lt. lia. }
  rewrite O in Q. destruct Q as [V [F _]]. split; [exact F|exact V].
Qed.
(** the scale 1/sqrt(N) *)
Section M.
Variable m : libm.
Variables (f : fftlib) (o : Z -> outcome Z) (cl : Z -> Z -> Z).
Notation L := (Flib m f o cl).

Lemma scale_acc N : (0 < N)%nat -> (Z.of_nat N < 2 ^ 53)%Z -> acc 3 (@fwd_scale L N) (1 * / sqrt (INR N)).
Proof.
  intros HN HB. change (acc 3 (Bdiv mode_NE (Flit 1 0) (Bsqrt mode_NE (Bm (Flit 1 0) (Fof (Z.of_nat N) 0)))) (1 * / sqrt (INR N))).
  assert (I : IZR (Z.of_nat N) = INR N) by (symmetry; apply INR_IZR_INZ).
  assert (N1 : 1 <= INR N) by (change 1 with (INR 1); apply le_INR; lia).
  assert (N2 : INR N <= bpow radix2 53) by (rewrite <- I; change (bpow radix2 53) with (IZR (2 ^ 53)); apply IZR_le; lia).
  assert (S1 : 1 <= sqrt (INR N)) by (rewrite <- sqrt_1; apply sqrt_le_1; lra).
  assert (S2 : sqrt (INR N) <= bpow radix2 53). { apply Rle_trans with (INR N); [|exact N2]. rewrite <- (sqrt_sqrt (INR N)) at 2 by lra. nra. }
  assert (A : acc 0 (Bm (Flit 1 0) (Fof (Z.of_nat N) 0)) (INR N)).
  { apply acc_1mult, acc_exact; [|lra]. rewrite <- I. apply of_exact. lia. }
  assert (P : bpow radix2 (-990) <= 1) by (change 1 with (bpow radix2 0); apply bpow_le; lia).
  assert (B : acc 1 (Bsqrt mode_NE (Bm (Flit 1 0) (Fof (Z.of_nat N) 0))) (sqrt (INR N))).
  { apply (acc_sqrt 0); [lia| |exact A]. right. split; [lra|]. apply Rle_trans with (1 := S2). apply bpow_le. lia. }
  apply (acc_div 0 1); [lia|lia|lra| |apply acc_exact; [exact l1|lra]|exact B].
  right. rewrite Rmult_1_l. split.
  - apply Rle_trans with (/ bpow radix2 53); [rewrite <- bpow_opp; apply bpow_le; lia|]. apply Rinv_le; lra.
  - apply Rle_trans with (/ 1); [apply Rinv_le; lra|]. rewrite Rinv_1. change 1 with (bpow radix2 0). apply bpow_le. lia.
Qed.
Lemma scale_err N : (0 < N)%nat -> (Z.of_nat N < 2 ^ 53)%Z ->
  fin (@fwd_scale L N) = true /\ Rabs (B2R (@fwd_scale L N) - / sqrt (INR N)) <= 4 * u53 * / sqrt (INR N).
Proof.
  intros HN HB. destruct (scale_acc N HN HB) as [F C]. split; [exact F|]. destruct C as (_ & A & B). rewrite Rmult_1_l in A, B.
  assert (P : 0 < / sqrt (INR N)) by (apply Rinv_0_lt_compat, sqrt_lt_R0, lt_0_INR; lia).
  pose proof (up_bound 3 ltac:(lia)) as U. pose proof (dn_bound 3) as D. cbn [INR] in U, D. pose proof u53_small.
  assert (0 < u53) by apply bpow_gt_0. apply Rabs_le. split; nra.
Qed.
Lemma scaled_err N (a p : b64) : (0 < N)%nat -> (Z.of_nat N < 2 ^ 53)%Z -> fin a = true -> Rabs (B2R a) <= bpow radix2 800 ->
  p = Bm (@fwd_scale L N) a \/ p = Bm a (@fwd_scale L N) ->
  fin p = true /\ Rabs (B2R p - B2R a * / sqrt (INR N)) <= 8 * u53 * (Rabs (B2R a) * / sqrt (INR N)) + tn.
Proof.
  intros HN HB Fa Ha Hp. destruct (scale_err N HN HB) as [Fs Es]. set (s := @fwd_scale L N) in *.
  assert (N1 : 1 <= INR N) by (change 1 with (INR 1); apply le_INR; lia).
  assert (S1 : 1 <= sqrt (INR N)) by (rewrite <- sqrt_1; apply sqrt_le_1; lra).
  set (i := / sqrt (INR N)) in *. assert (I0 : 0 < i) by (apply Rinv_0_lt_compat; lra). assert (I1 : i <= 1) by (unfold i; rewrite <- Rinv_1; apply Rinv_le; lra).
  pose proof u53_small as US. assert (U0 : 0 < u53) by apply bpow_gt_0.
  pose proof (Rabs_pos (B2R a)) as PA.
  assert (Bs : Rabs (B2R s) <= 2). { replace (B2R s) with ((B2R s - i) + i) by ring. eapply Rle_trans; [apply Rabs_triang|]. rewrite (Rabs_right i) by lra. nra. }
  assert (T1 : Rabs (B2R a * B2R s) <= top). { rewrite Rabs_mult. apply Rle_trans with (bpow radix2 800 * 2); [apply Rmult_le_compat; auto using Rabs_pos|]. rewrite Rmult_comm, bp2. apply bpow_le. lia. }
  assert (G : fin (Bm a s) = true /\ Rabs (B2R (Bm a s) - B2R a * B2R s) <= u53 * Rabs (B2R a * B2R s) + tn) by (apply mult_err; auto).
  assert (G2 : fin (Bm s a) = true /\ Rabs (B2R (Bm s a) - B2R a * B2R s) <= u53 * Rabs (B2R a * B2R s) + tn). { rewrite (Rmult_comm (B2R a)). apply mult_err; auto. rewrite Rmult_comm. exact T1. }
  assert (G3 : fin p = true /\ Rabs (B2R p - B2R a * B2R s) <= u53 * Rabs (B2R a * B2R s) + tn) by (destruct Hp as [->| ->]; assumption).
  destruct G3 as [Fp Ep]. split; [exact Fp|].
  replace (B2R p - B2R a * i) with ((B2R p - B2R a * B2R s) + B2R a * (B2R s - i)) by ring. eapply Rle_trans; [apply Rabs_triang|].
  rewrite (Rabs_mult (B2R a) (B2R s - i)). rewrite Rabs_mult in Ep.
  assert (Q1 : Rabs (B2R s) <= 2 * i). { replace (B2R s) with ((B2R s - i) + i) by ring. eapply Rle_trans; [apply Rabs_triang|]. rewrite (Rabs_right i) by lra. nra. }
  assert (Q2 : Rabs (B2R a) * Rabs (B2R s) <= Rabs (B2R a) * (2 * i)) by (apply Rmult_le_compat_l; auto).
  assert (Q3 : Rabs (B2R a) * Rabs (B2R s - i) <= Rabs (B2R a) * (4 * u53 * i)) by (apply Rmult_le_compat_l; auto).
  assert (Q4 : u53 * (Rabs (B2R a) * Rabs (B2R s)) <= u53 * (Rabs (B2R a) * (2 * i))) by (apply Rmult_le_compat_l; lra).
  assert (0 <= u53 * (Rabs (B2R a) * i)) by (apply Rmult_le_pos; [lra|apply Rmult_le_pos; lra]). lra.
Qed.
(** the square root *)
Lemma sqrt_err (x : b64) : fin x = true -> 0 <= B2R x -> fin (Bsqrt mode_NE x) = true /\ Rabs (B2R (Bsqrt mode_NE x) - sqrt (B2R x)) <= u53 * sqrt (B2R x).
Proof.
  intros Fx H. pose proof (Bsqrt_correct 53 1024 Hprec Hmax mode_NE x) as [V [F _]]. split.
  - rewrite F. destruct x as [s|s| |s k q G]; try discriminate Fx; [reflexivity|]. destruct s; [|reflexivity]. exfalso.
    assert (B2R (B754_finite true k q G) < 0) by (apply F2R_lt_0; cbn; lia). lra.
  - rewrite V. change (round radix2 (SpecFloat.fexp 53 1024) (round_mode mode_NE) (sqrt (B2R x))) with (rnd (sqrt (B2R x))).
    destruct (Req_dec (B2R x) 0) as [Z|Z]; [rewrite Z, sqrt_0, (rnd_id 0 fmt_0), Rminus_0_r, Rabs_R0; lra|].
    assert (P : bpow radix2 (-1022) <= sqrt (B2R x)).
    { assert (Q : bpow radix2 (-1074) <= B2R x).
      { destruct x as [s|s| |s k q G]; try discriminate Fx; [exfalso; apply Z; reflexivity|].
        pose proof (abs_B2R_ge_emin 53 1024 (B754_finite s k q G) eq_refl) as E. rewrite Rabs_right in E by lra. exact E. }
      apply Rle_trans with (sqrt (bpow radix2 (-1074))); [|apply sqrt_le_1; auto; apply bpow_ge_0].
      change (-1074)%Z with (-537 + -537)%Z. rewrite bpow_plus, sqrt_square by apply bpow_ge_0. apply bpow_le. lia. }
    pose proof (sqrt_pos (B2R x)). destruct (rel_err (sqrt (B2R x))) as (d & D & E); [rewrite Rabs_right by lra; exact P|].
    rewrite E. replace (sqrt (B2R x) * (1 + d) - sqrt (B2R x)) with (d * sqrt (B2R x)) by ring. rewrite Rabs_mult, (Rabs_right (sqrt _)) by lra. apply Rmult_le_compat_r; auto.
Qed.
Lemma clip_err (z : b64 * b64) : fin (fst z) = true -> exists s, @clip_sqrt L z = (s, Flit 0 0) /\ fin s = true /\
  Rabs (B2R s - sqrt (Rmax (B2R (fst z)) 0)) <= u53 * sqrt (Rmax (B2R (fst z)) 0).
Proof.
  intros Fz. destruct l0 as [F0 V0].
  set (w := if Bltb (fst z) (Flit 0 0) then Flit 0 0 else fst z).
  assert (W : fin w = true /\ B2R w = Rmax (B2R (fst z)) 0).
  { unfold w. rewrite Bltb_correct, V0 by auto. destruct (Rlt_bool_spec (B2R (fst z)) 0) as [H|H]; [rewrite Rmax_right by lra|rewrite Rmax_left by lra]; auto. }
  destruct W as [Fw Vw].
  assert (E : @clip_sqrt L z = (Bsqrt mode_NE w, Flit 0 0)).
  { change (@clip_sqrt L z) with (@csqrt (Farith m) (w, Flit 0 0)). unfold csqrt. cbn [fst snd].
    change (feq (Farith m)) with (@Beqb 53 1024). change (lit (Farith m) 0 0) with (Flit 0 0). rewrite Beqb_correct, V0 by auto. rewrite Req_bool_true by reflexivity.
    change (flt (Farith m)) with (@Bltb 53 1024). rewrite Bltb_correct, V0, Rlt_bool_false by (auto; rewrite Vw; apply Rmax_r). reflexivity. }
  rewrite E. exists (Bsqrt mode_NE w). split; [reflexivity|]. rewrite <- Vw. apply sqrt_err; [exact Fw|]. rewrite Vw. apply Rmax_r.
Qed.
(** products with a filter value *)
Lemma minus_0 (a z : b64) : fin a = true -> is_zero z -> fin (Bminus mode_NE a z) = true /\ B2R (Bminus mode_NE a z) = B2R a.
Proof. intros Fa [s ->]. destruct a as [t|t| |t k q H]; try discriminate Fa; [destruct s, t; split; reflexivity|split; reflexivity]. Qed.
Lemma plus_0 (a z : b64) : fin a = true -> is_zero z -> fin (Bplus mode_NE a z) = true /\ B2R (Bplus mode_NE a z) = B2R a.
Proof. intros Fa [s ->]. destruct a as [t|t| |t k q H]; try discriminate Fa; [destruct s, t; split; reflexivity|split; reflexivity]. Qed.
Lemma zero_plus (a z : b64) : fin a = true -> is_zero z -> fin (Bplus mode_NE z a) = true /\ B2R (Bplus mode_NE z a) = B2R a.
Proof. intros Fa [s ->]. destruct a as [t|t| |t k q H]; try discriminate Fa; [destruct s, t; split; reflexivity|split; reflexivity]. Qed.
Lemma lit0_zero : is_zero (Flit 0 0). Proof. exists false. apply B2SF_inj. vm_compute. reflexivity. Qed.
Lemma cmul_err (s a b : b64) (p : b64 * b64) : fin s = true -> fin a = true -> fin b = true -> Rabs (B2R s * B2R a) <= top -> Rabs (B2R s * B2R b) <= top ->
  p = @cmul L (s, Flit 0 0) (a, b) \/ p = @cmul L (a, b) (s, Flit 0 0) ->
  fin (fst p) = true /\ fin (snd p) = true /\
  Rabs (B2R (fst p) - B2R s * B2R a) <= u53 * Rabs (B2R s * B2R a) + tn /\ Rabs (B2R (snd p) - B2R s * B2R b) <= u53 * Rabs (B2R s * B2R b) + tn.
Proof.
  intros Fs Fa Fb Ta Tb. pose proof lit0_zero as Z. set (z := Flit 0 0) in *.
  destruct (mult_err s a Fs Fa Ta) as [F1 E1]. destruct (mult_err s b Fs Fb Tb) as [F2 E2].
  assert (Ta' : Rabs (B2R a * B2R s) <= top) by (rewrite Rmult_comm; exact Ta). assert (Tb' : Rabs (B2R b * B2R s) <= top) by (rewrite Rmult_comm; exact Tb).
  destruct (mult_err a s Fa Fs Ta') as [F3 E3]. destruct (mult_err b s Fb Fs Tb') as [F4 E4]. rewrite (Rmult_comm (B2R a)) in E3. rewrite (Rmult_comm (B2R b)) in E4.
  intros [->| ->].
  - change (@cmul L (s, z) (a, b)) with (Bminus mode_NE (Bm s a) (Bm z b), Bplus mode_NE (Bm s b) (Bm z a)). cbn [fst snd].
    destruct (minus_0 _ _ F1 (mult_zero_l z b Z Fb)) as [G1 V1]. destruct (plus_0 _ _ F2 (mult_zero_l z a Z Fa)) as [G2 V2].
    split; [exact G1|]. split; [exact G2|]. rewrite V1, V2. split; assumption.
  - change (@cmul L (a, b) (s, z)) with (Bminus mode_NE (Bm a s) (Bm b z), Bplus mode_NE (Bm a z) (Bm b s)). cbn [fst snd].
    destruct (minus_0 _ _ F3 (mult_zero_r z b Z Fb)) as [G1 V1]. destruct (zero_plus _ _ F4 (mult_zero_r z a Z Fa)) as [G2 V2].
    split; [exact G1|]. split; [exact G2|]. rewrite V1, V2. split; assumption.
Qed.
End M.
