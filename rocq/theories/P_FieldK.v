(** A transform library that is accurate: the exact transforms, rounded. *)
From Coq Require Import ZArith List Bool Lia Reals Lra.
From Flocq Require Import Core IEEE754.BinarySingleNaN.
From Verif Require Import Base Arith RealArith FloatArith S_CovGrid S_CorrF P_NormF P_CorrF P_CorrF7 P_Base P_Dft P_DftList S_CovGrid P_Bounds P_Overrun P_Euclid S_FieldF P_FieldF P_FieldG P_FieldH.
Import ListNotations.
Open Scope R_scope.

Lemma near_err r : Rabs r <= bpow radix2 900 -> fin (near r) = true /\ Rabs (B2R (near r) - r) <= u53 * Rabs r + tn.
Proof.
  intros H. apply Rcomplements.Rabs_le_between in H. assert (B : bpow radix2 900 <= big) by (apply bpow_le; lia).
  destruct (near_val (- bpow radix2 900) (bpow radix2 900) r) as [A V]; try lra; [apply generic_format_opp|..]; try (apply fmt_pow; lia).
  split; [exact A|]. rewrite V. apply rnd_err.
Qed.
Definition cnear (z : R * R) : b64 * b64 := (near (fst z), near (snd z)).
Definition ex_fft : fftlib :=
  mkFft (fun n x => map cnear (Rr2c1 n (vals x))) (fun n0 n1 x => map cnear (Rr2c2 n0 n1 (vals x))) (fun n0 n1 n2 x => map cnear (Rr2c3 n0 n1 n2 (vals x)))
    (fun n X => map near (Rc2r1 n (cvals X))) (fun n0 n1 X => map near (Rc2r2 n0 n1 (cvals X))) (fun n0 n1 n2 X => map near (Rc2r3 n0 n1 n2 (cvals X))).
Lemma ex_sizes m o cl : fft_sizes (Flib m ex_fft o cl).
Proof.
  destruct (Rlib_sizes o cl) as (A & B & C & D & E & F).
  split; [|split; [|split; [|split; [|split]]]]; intros; cbn [r2c1 r2c2 r2c3 c2r1 c2r2 c2r3 Flib ex_fft f_r2c1 f_r2c2 f_r2c3 f_c2r1 f_c2r2 f_c2r3]; rewrite map_length.
  - apply A. - apply B. - apply C. - apply D. - apply E. - apply F.
Qed.

Section K.
Variable T : dsys.
Variable n : nat.
Hypothesis GT : good T.
Hypothesis Hn : (0 < n)%nat.
Notation S := (rows T n).
Notation N := (dN S).
Hypothesis HN : (Z.of_nat N < 2 ^ 53)%Z.
Lemma root_N : sqrt (INR N) <= bpow radix2 27.
Proof.
  rewrite <- (sqrt_square (bpow radix2 27)) by apply bpow_ge_0. apply sqrt_le_1_alt. rewrite <- bpow_plus. apply Rle_trans with (bpow radix2 53); [|apply bpow_le; lia].
  rewrite INR_IZR_INZ. change (bpow radix2 53) with (IZR (2 ^ 53)). apply IZR_le. lia.
Qed.
Lemma root_2N : sqrt (2 * INR N) <= bpow radix2 27.
Proof.
  rewrite <- (sqrt_square (bpow radix2 27)) by apply bpow_ge_0. apply sqrt_le_1_alt. rewrite <- bpow_plus. change (27 + 27)%Z with (53 + 1)%Z. rewrite <- bp2. apply Rmult_le_compat_l; [lra|].
  rewrite INR_IZR_INZ. change (bpow radix2 53) with (IZR (2 ^ 53)). apply IZR_le. lia.
Qed.
Lemma pad r : 0 <= r <= bpow radix2 27 -> r * tn <= tiny.
Proof.
  intros H. apply Rle_trans with (bpow radix2 27 * tn); [apply Rmult_le_compat_r; [apply bpow_ge_0|lra]|]. unfold tn, tiny. rewrite <- bpow_plus. apply bpow_le. lia.
Qed.
Lemma fwd_near (x : list b64) : rn N (nthR (vals x)) <= huge -> let Y := map cnear (gr2c T n (vals x)) in
  all_cfinite Y /\ fd T n (cvals Y) (gr2c T n (vals x)) <= bpow radix2 (-52) * (sqrt (INR N) * rn N (nthR (vals x))) + tiny.
Proof.
  intros HX Y. set (G := gr2c T n (vals x)) in *.
  assert (LG : length G = (dN T * (n / 2 + 1))%nat) by (unfold G, gr2c; rewrite map_length, seq_length; reflexivity).
  assert (FN : fn T n G = sqrt (INR N) * rn N (nthR (vals x))) by (apply fn_gr2c; auto). pose proof (rn_nn N (nthR (vals x))) as R0.
  assert (FB : fn T n G <= bpow radix2 900).
  { rewrite FN. apply Rle_trans with (bpow radix2 27 * bpow radix2 200); [apply Rmult_le_compat; [apply sqrt_pos|exact R0|apply root_N|exact HX]|rewrite <- bpow_plus; apply bpow_le; lia]. }
  assert (E : forall k, (k < N)%nat -> Rabs (fst (nth (qi T n k) G (0, 0))) <= bpow radix2 900 /\ Rabs (snd (nth (qi T n k) G (0, 0))) <= bpow radix2 900).
  { intros k Hk. rewrite fn_qi in FB by auto. destruct (cn_coord N (fun k => nth (qi T n k) G (0, 0)) k Hk) as [A B]. cbn beta in A, B. lra. }
  split.
  - intros z Hz. apply in_map_iff in Hz as (g & <- & Hg). apply (In_nth _ _ (0, 0)) in Hg as (q & Hq & <-). rewrite LG in Hq. destruct (qi_surj T n q Hn Hq) as (k & Hk & <-).
    destruct (E k Hk). split; apply near_err; assumption.
  - rewrite fd_qi by auto. rewrite <- FN.
    assert (V : forall q, (q < length G)%nat -> nth q (cvals Y) (0, 0) = (B2R (near (fst (nth q G (0, 0)))), B2R (near (snd (nth q G (0, 0)))))).
    { intros q Hq. unfold cvals, Y. rewrite map_map. rewrite (nth_indep _ (0, 0) ((fun z => (B2R (fst (cnear z)), B2R (snd (cnear z)))) (0, 0))) by (rewrite map_length; exact Hq).
      rewrite (map_nth (fun z => (B2R (fst (cnear z)), B2R (snd (cnear z))))). reflexivity. }
    eapply Rle_trans; [apply (cn_err N _ (fun k => nth (qi T n k) G (0, 0)) u53 tn)|].
    + apply bpow_ge_0.
    + apply bpow_ge_0.
    + intros k Hk. rewrite V by (rewrite LG; apply qi_lt; auto). unfold csub. cbn [fst snd]. destruct (E k Hk). split; apply near_err; assumption.
    + rewrite <- fn_qi by auto. apply Rplus_le_compat; [|apply pad; split; [apply sqrt_pos|apply root_2N]].
      apply Rmult_le_compat_r; [apply cn_nn|]. unfold u53. apply bpow_le. lia.
Qed.
Lemma bwd_near (X : list (b64 * b64)) : fn T n (cvals X) <= huge -> let y := map near (gc2r T n (cvals X)) in
  all_finite y /\ length y = N /\ rn N (fun j => nthR (vals y) j - nthR (gc2r T n (cvals X)) j) <= bpow radix2 (-52) * (sqrt (INR N) * fn T n (cvals X)) + tiny.
Proof.
  intros HX y. set (G := gc2r T n (cvals X)) in *.
  assert (LG : length G = N) by (unfold G, gc2r; rewrite map_length, seq_length; reflexivity).
  assert (FN : rn N (nthR G) <= 2 * (sqrt (INR N) * fn T n (cvals X))).
  { eapply Rle_trans; [apply gc2r_norm; auto|]. apply Rmult_le_compat_r; [apply Rmult_le_pos; [apply sqrt_pos|apply cn_nn]|]. rewrite <- (sqrt_square 2) at 2 by lra. apply sqrt_le_1_alt. lra. }
  assert (FB : rn N (nthR G) <= bpow radix2 900).
  { apply Rle_trans with (1 := FN). apply Rle_trans with (2 * (bpow radix2 27 * bpow radix2 200)).
    - apply Rmult_le_compat_l; [lra|]. apply Rmult_le_compat; [apply sqrt_pos|apply cn_nn|apply root_N|exact HX].
    - rewrite <- bpow_plus, bp2. apply bpow_le. lia. }
  assert (E : forall j, (j < N)%nat -> Rabs (nthR G j) <= bpow radix2 900) by (intros j Hj; pose proof (rn_coord N (nthR G) j Hj); lra).
  split; [|split].
  - intros z Hz. apply in_map_iff in Hz as (g & <- & Hg). apply (In_nth _ _ 0) in Hg as (q & Hq & <-). rewrite LG in Hq. apply near_err. exact (E q Hq).
  - unfold y. rewrite map_length. exact LG.
  - assert (V : forall q, (q < N)%nat -> nthR (vals y) q = B2R (near (nthR G q))).
    { intros q Hq. unfold nthR, vals, y. rewrite map_map. rewrite (nth_indep _ 0 ((fun z => B2R (near z)) 0)) by (rewrite map_length, LG; exact Hq). rewrite (map_nth (fun z => B2R (near z))). reflexivity. }
    eapply Rle_trans; [apply (rn_err N _ (nthR G) u53 tn)|].
    + apply bpow_ge_0.
    + apply bpow_ge_0.
    + intros j Hj. rewrite V by exact Hj. apply near_err. exact (E j Hj).
    + apply Rplus_le_compat; [|apply pad; split; [apply sqrt_pos|apply root_N]].
      apply Rle_trans with (u53 * (2 * (sqrt (INR N) * fn T n (cvals X)))); [apply Rmult_le_compat_l; [apply bpow_ge_0|exact FN]|].
      change (-52)%Z with (-53 + 1)%Z. rewrite <- bp2. unfold u53. right. ring.
Qed.
End K.

Lemma pos2 a b : (0 < a * b)%nat -> (0 < a)%nat /\ (0 < b)%nat. Proof. nia. Qed.
Lemma ex_accurate : accurate (bpow radix2 (-52)) ex_fft.
Proof.
  constructor; cbn [ex_fft f_r2c1 f_r2c2 f_r2c3 f_c2r1 f_c2r2 f_c2r3].
  - intros n x Hn HN Hx _ B. rewrite (len_rn (vals x) n) in * by (rewrite vlen; auto). rewrite sdist1_g, r2c1_g by auto.
    pose proof (fwd_near (cyc 1) n (cyc_good 1 ltac:(lia)) Hn) as Q. change (rows (cyc 1) n) with (sys1 n) in Q. rewrite dN1 in Q. apply Q; auto.
  - intros n0 n1 x Hn HN Hx _ B. destruct (pos2 _ _ Hn) as [H0 H1]. rewrite (len_rn (vals x) (n0 * n1)) in * by (rewrite vlen; auto). rewrite sdist2_g, r2c2_g by auto.
    pose proof (fwd_near (cyc n0) n1 (cyc_good n0 H0) H1) as Q. change (rows (cyc n0) n1) with (sys2 n0 n1) in Q. rewrite dN2 in Q. apply Q; auto.
  - intros n0 n1 n2 x Hn HN Hx _ B. destruct (pos2 _ _ Hn) as [H01 H2]. destruct (pos2 _ _ H01) as [H0 H1]. rewrite (len_rn (vals x) (n0 * n1 * n2)) in * by (rewrite vlen; auto). rewrite sdist3_g, r2c3_g by auto.
    pose proof (fwd_near (prod_sys (cyc n0) (cyc n1)) n2 (prod_good _ _ (cyc_good n0 H0) (cyc_good n1 H1)) H2) as Q. change (rows (prod_sys (cyc n0) (cyc n1)) n2) with (sys3 n0 n1 n2) in Q. rewrite dN3 in Q. apply Q; auto.
  - intros n X Hn HN HX _ B. rewrite sdist1_g, fd_nil in * by auto. rewrite c2r1_g by auto.
    pose proof (bwd_near (cyc 1) n (cyc_good 1 ltac:(lia)) Hn) as Q. change (rows (cyc 1) n) with (sys1 n) in Q. rewrite dN1 in Q. destruct (Q HN X B) as (Q1 & Q2 & Q3). split; [exact Q1|]. rewrite (dist_rn _ _ n) by (rewrite vlen; exact Q2). exact Q3.
  - intros n0 n1 X Hn HN HX _ B. destruct (pos2 _ _ Hn) as [H0 H1]. rewrite sdist2_g, fd_nil in * by auto. rewrite c2r2_g by auto.
    pose proof (bwd_near (cyc n0) n1 (cyc_good n0 H0) H1) as Q. change (rows (cyc n0) n1) with (sys2 n0 n1) in Q. rewrite dN2 in Q. destruct (Q HN X B) as (Q1 & Q2 & Q3). split; [exact Q1|]. rewrite (dist_rn _ _ (n0 * n1)) by (rewrite vlen; exact Q2). exact Q3.
  - intros n0 n1 n2 X Hn HN HX _ B. destruct (pos2 _ _ Hn) as [H01 H2]. destruct (pos2 _ _ H01) as [H0 H1]. rewrite sdist3_g, fd_nil in * by auto. rewrite c2r3_g by auto.
    pose proof (bwd_near (prod_sys (cyc n0) (cyc n1)) n2 (prod_good _ _ (cyc_good n0 H0) (cyc_good n1 H1)) H2) as Q. change (rows (prod_sys (cyc n0) (cyc n1)) n2) with (sys3 n0 n1 n2) in Q. rewrite dN3 in Q. destruct (Q HN X B) as (Q1 & Q2 & Q3). split; [exact Q1|]. rewrite (dist_rn _ _ (n0 * n1 * n2)) by (rewrite vlen; exact Q2). exact Q3.
Qed.
