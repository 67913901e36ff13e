(** Smoothing in double precision: fields, and concrete cases. *)
From Coq Require Import ZArith Bool String List Lia Reals Lra Psatz.
From Flocq Require Import Core IEEE754.BinarySingleNaN.
From Verif Require Import Base Arith RealArith FloatArith M_Variogram M_Grid M_CovGrid M_Fft M_Field S_CovGrid S_Vario S_Random P_NormF S_CorrF P_CorrF P_CorrF2 P_CorrF4 P_CorrF7 P_Accur P_Accur2
  S_Accur S_Reach S_Damp P_Base P_Grid P_Bounds P_Vario P_VarioMore P_VarioKernel P_VarioTables P_Reach P_Args2 S_FieldF S_FieldH P_FieldF P_FieldG P_FieldH P_FieldI P_FieldJ P_RBounds P_Damp P_Damp2 P_Damp3 P_Damp4 P_Damp5 P_VarioNames P_Vario.
Import ListNotations.
Open Scope R_scope.

Lemma damp_error_nn s r : 0 < B2R s -> 0 <= damp_error s r.
Proof.
  intros S. unfold damp_error. destruct (Rlt_dec (B2R s) (99999 / 100000)) as [L|L]; [|lra]. apply Rmult_le_pos; [|apply bpow_ge_0]. pose proof (ln_neg (B2R s) (Logic.conj S L)) as N.
  assert (0 <= spread (B2R s) (B2R r)) by (unfold spread, Rdiv; apply Rmult_le_pos; [apply pow2_ge_0|left; apply Rinv_0_lt_compat; exact N]). lra.
Qed.
Section F.
Variables (m : libm) (f : fftlib) (o : Z -> outcome Z) (cl : Z -> Z -> Z) (o' : Z -> outcome Z) (cl' : Z -> Z -> Z) (eps : R).
Notation L := (Flib m f o cl).
Notation L' := (Rlib o' cl').
Hypothesis HM : rounds_well m.
Hypothesis PO : pow_one m.
Hypothesis HA : accurate eps f.
Hypothesis HL : fft_sizes L.
Hypothesis He : bpow radix2 (-53) <= eps.
Variables (main perp depth : b64) (v : variogram (Farith m)) (w : variogram Rarith).
Hypothesis SC : straight_call m main perp depth v w.
Variables (sx sy sz : b64).
Hypothesis SX : smooth_args sx main.
Hypothesis SY : smooth_args sy (or_main64 main perp).
Hypothesis SZ : smooth_args sz (or_main64 main depth).
Notation e1 := (bpow radix2 (-46) + damp_error sx main).
Notation e2 := (bpow radix2 (-46) + damp_error sx main + damp_error sy (or_main64 main perp)).
Notation e3 := (bpow radix2 (-46) + damp_error sx main + damp_error sy (or_main64 main perp) + damp_error sz (or_main64 main depth)).
Lemma errs_nn : 0 <= e1 /\ 0 <= e2 /\ 0 <= e3.
Proof.
  pose proof (bpow_gt_0 radix2 (-46)). pose proof (damp_error_nn sx main (proj1 (proj2 SX))). pose proof (damp_error_nn sy (or_main64 main perp) (proj1 (proj2 SY))).
  pose proof (damp_error_nn sz (or_main64 main depth) (proj1 (proj2 SZ))). lra.
Qed.
Lemma c95_fields : eps + e3 <= 1 / 1000000 -> forall nx ny nz nxt nyt nzt (dx dy dz : b64) (noise : list b64),
  (0 < nxt)%nat -> (0 < nyt)%nat -> (0 < nzt)%nat -> (nx <= nxt)%nat -> (ny <= nyt)%nat -> (nz <= nzt)%nat -> (Z.of_nat (nxt * nyt * nzt) < 2 ^ 53)%Z ->
  spacing nxt dx -> spacing nyt dy -> spacing nzt dz -> all_finite noise -> len (vals noise) <= bpow radix2 100 ->
  (length noise = nxt -> near_field (fuzz eps e1 noise) (@field1d L v nx nxt dx sx noise) (@field1d L' w nx nxt (B2R dx) (B2R sx) (vals noise))) /\
  (length noise = (nxt * nyt)%nat -> near_field (fuzz eps e2 noise) (@field2d L v nx ny nxt nyt dx dy sx sy noise)
     (@field2d L' w nx ny nxt nyt (B2R dx) (B2R dy) (B2R sx) (B2R sy) (vals noise))) /\
  (length noise = (nxt * nyt * nzt)%nat -> near_field (fuzz eps e3 noise) (@field3d L v nx ny nz nxt nyt nzt dx dy dz sx sy sz noise)
     (@field3d L' w nx ny nz nxt nyt nzt (B2R dx) (B2R dy) (B2R dz) (B2R sx) (B2R sy) (B2R sz) (vals noise))).
Proof.
  intros Hs nx ny nz nxt nyt nzt dx dy dz noise Hx Hy Hz Lx Ly Lz HN Dx Dy Dz Fn Bn. destruct errs_nn as (E1 & E2 & E3).
  pose proof (damp_error_nn sx main (proj1 (proj2 SX))). pose proof (damp_error_nn sy (or_main64 main perp) (proj1 (proj2 SY))). pose proof (damp_error_nn sz (or_main64 main depth) (proj1 (proj2 SZ))).
  assert (0 < nxt * nyt)%nat by nia. pose proof (le_mul _ _ Hz HN) as HN2. pose proof (le_mul _ _ Hy HN2) as N1. pose proof (le_mul' _ _ Hx HN2) as N2. pose proof (le_mul' (nxt * nyt) _ ltac:(assumption) HN) as N3.
  destruct (c95_tables m HM PO main perp depth v w SC sx sy sz SX SY SZ nxt nyt nzt dx dy dz N1 N2 N3 Dx Dy Dz) as (T1 & T2 & T3).
  split; [|split]; intros Hl; unfold fuzz; rewrite Hl.
  - apply field1_near; auto. lra.
  - apply field2_near; auto. lra.
  - apply field3_near; auto.
Qed.
End F.

Lemma ok_inj {A} (a b : A) : Ok a = Ok b -> a = b. Proof. intros H. injection H. auto. Qed.
(** ** at a lag of one range *)
Section G.
Variable m : libm.
Hypothesis HM : rounds_well m.
Hypothesis PO : pow_one m.
Notation F := (Farith m).
Variables (main : b64) (r : R).
Hypothesis MV : exactly main r.
Hypothesis MO : bpow radix2 (-100) <= r.
Hypothesis MU : 5 * r <= bpow radix2 100.
Notation name := "exponential"%string.
Lemma call_exists : exists v w, @CreateVariogram F name main (Flit (-1) 0) (Flit (-1) 0) (Flit 0 0) (Flit 0 0) (Flit 15 1) = Ok v /\
  @CreateVariogram Rarith name r (-1) (-1) 0 0 (3 / 2) = Ok w /\ straight_call m main (Flit (-1) 0) (Flit (-1) 0) v w /\ vt w = EXPONENTIAL.
Proof.
  assert (A : is_ascii name) by (cbn [is_ascii]; repeat split; apply Nat.ltb_lt; reflexivity).
  destruct (@Create_total F name main (Flit (-1) 0) (Flit (-1) 0) (Flit 0 0) (Flit 0 0) (Flit 15 1) A) as (v & Ev & _).
  destruct (@Create_total Rarith name r (-1) (-1) 0 0 (3 / 2) A) as (w & Ew & Tw). assert (LT : lookup_type name = Some EXPONENTIAL) by reflexivity. rewrite LT in Tw. injection Tw as Tw.
  exists v, w. split; [exact Ev|]. split; [exact Ew|]. split; [|exact Tw]. destruct MV as [M1 M2]. assert (Q : exactly (Flit (-1) 0) (-1)) by lit_t. destruct Q as [Q1 Q2]. destruct l15 as [P1 P2].
  pose proof (bpow_gt_0 radix2 (-100)). exists name, (Flit 15 1). rewrite M2, Q2, P2. split; [exact Ev|]. split; [exact Ew|]. split; [exact P1|]. split; [lra|].
  assert (O : ordinary_arg (Flit (-1) 0)) by (right; split; [exact Q1|rewrite Q2; lra]).
  assert (OM : or_main r (-1) = r) by (unfold or_main; destruct (Rlt_dec (-1) 0); lra). rewrite OM.
  split; [split; [exact M1|rewrite M2; lra]|]. split; [exact O|]. split; [exact O|]. lra.
Qed.
Lemma sp5 : spacing 5 main.
Proof. destruct MV as [M1 M2]. split; [exact M1|]. rewrite M2. split; [exact MO|]. replace (INR 5) with 5 by (cbn; lra). exact MU. Qed.
Lemma exact_at w t : @CreateVariogram Rarith name r (-1) (-1) 0 0 (3 / 2) = Ok w -> vt w = EXPONENTIAL ->
  @FFTCovGrid1D Rarith w 5 r (1 / 2) = Ok t -> nth 1 t 0 = 1 / 2 * exp (-3) /\ @cov1_spec Rarith w 5 r 1 1 = exp (-3).
Proof.
  intros Ew Tw E. pose proof (bpow_gt_0 radix2 (-100)). destruct (created_corr _ _ _ _ _ _ _ _ Ew) as [_ C]; try lra.
  assert (V : var w = 1) by (destruct (created_new _ _ _ _ _ _ _ _ Ew) as (? & ? & -> & _); cbn; ring).
  assert (LG : @lag1 Rarith 5 1 r = r) by (unfold lag1; cbn; ring).
  assert (C1 : @cov1_spec Rarith w 5 r 1 1 = exp (-3)).
  { unfold cov1_spec. destruct (FindSmoothingFactors w 1 (lit Rarith 1 0) (lit Rarith 1 0)) as [[? ?] ?]. rewrite !(kernel_off 1) by lra. rewrite LG, V, corr1_2, corr2_3, C, Tw.
    assert (OM : or_main r (-1) = r) by (unfold or_main; destruct (Rlt_dec (-1) 0); lra). rewrite OM, ndist_iso by lra. replace (r ^ 2 + 0 ^ 2 + 0 ^ 2) with (r ^ 2) by ring.
    rewrite sqrt_pow2 by lra. cbn [corr_fun mul Rarith]. rewrite Rmult_1_l. f_equal. field. lra. }
  split; [|exact C1]. assert (E1 : exists t1, @FFTCovGrid1D Rarith w 5 r 1 = Ok t1 /\ nth 1 t1 0 = exp (-3)).
  { rewrite cov1_ok. eexists. split; [reflexivity|]. rewrite nth_map_seq by lia. exact C1. }
  destruct E1 as (t1 & E1 & V1). rewrite <- V1.
  exact (one_range_1d name r (-1) (-1) (3 / 2) w Ew ltac:(lra) ltac:(lra) ltac:(lra) ltac:(lra) ltac:(lra) (1 / 2) 5 r t t1 1 0 ltac:(lra) E E1 ltac:(lia) LG).
Qed.
Lemma exp3 : 36 / 1000 + 1 / 1000000 <= exp (-3) <= 56 / 1000.
Proof.
  replace (-3) with (- (3)) by lra. rewrite exp_Ropp. split.
  - pose proof exp_1_le_3 as H. pose proof (exp_pos 1). replace (exp 3) with (exp 1 ^ 3) by (rewrite <- (exp_mult_nat 3 1); f_equal; cbn; ring).
    assert (exp 1 ^ 3 <= 27) by (replace 27 with (3 ^ 3) by ring; apply pow_incr; lra). apply Rle_trans with (/ 27); [lra|]. apply Rinv_le_contravar; [apply pow_lt; lra|assumption].
  - pose proof (exp_lower 5 3 ltac:(lra)) as H. assert (T : 18 <= etaylor 5 3) by (unfold etaylor; cbn; lra). apply Rle_trans with (/ 18); [apply Rinv_le_contravar; lra|lra].
Qed.
Lemma entry_near v w : straight_call m main (Flit (-1) 0) (Flit (-1) 0) v w -> @cov1_spec Rarith w 5 r 1 1 = exp (-3) -> 36 / 1000 <= B2R (@cov1_spec F v 5 main (Flit 1 0) 1).
Proof.
  intros SC E. destruct (plain_entries m HM main _ _ v w SC 5 main eq_refl sp5 1%nat ltac:(lia)) as (_ & _ & A & _). destruct MV as [_ M2]. rewrite M2 in A.
  pose proof exp3. assert (B : bpow radix2 (-46) <= 1 / 1000000) by (replace (bpow radix2 (-46)) with (/ 70368744177664) by (cbn; lra); lra).
  rewrite E in A. apply Rabs_le_inv in A. lra.
Qed.
End G.
Section H.
Variable m : libm.
Hypothesis HM : rounds_well m.
Hypothesis PO : pow_one m.
Notation F := (Farith m).
Notation name := "exponential"%string.
Lemma l64th : exactly (Flit 15625 6) (1 / 64). Proof. lit_t. Qed.
Lemma l2p28 : exactly (Flit 268435456 0) 268435456. Proof. lit_t. Qed.
Lemma half_ok : fin (Flit 5 1) = true /\ 0 < B2R (Flit 5 1) < 99999 / 100000 /\ - ln (B2R (Flit 5 1)) = ln 2.
Proof.
  destruct l5 as [A B]. rewrite B. split; [exact A|]. split; [lra|]. replace (1 / 2) with (/ 2) by lra. rewrite ln_Rinv by lra. ring.
Qed.
Lemma b100 : bpow radix2 (-100) <= 1 / 64 /\ 5 * 268435456 <= bpow radix2 100.
Proof.
  split; [replace (1 / 64) with (bpow radix2 (-6)) by (cbn; lra); apply bpow_le; lia|]. apply Rle_trans with (bpow radix2 31); [|apply bpow_le; lia]. replace (bpow radix2 31) with 2147483648 by (cbn; lra). lra.
Qed.
Lemma c95_short_case : exists v w tF t, @CreateVariogram F name (Flit 15625 6) (Flit (-1) 0) (Flit (-1) 0) (Flit 0 0) (Flit 0 0) (Flit 15 1) = Ok v /\
  @CreateVariogram Rarith name (1 / 64) (-1) (-1) 0 0 (3 / 2) = Ok w /\
  @FFTCovGrid1D F v 5 (Flit 15625 6) (Flit 5 1) = Ok tF /\ @FFTCovGrid1D Rarith w 5 (1 / 64) (1 / 2) = Ok t /\
  nth 1 (vals tF) 0 = 0 /\ 18 / 1000 <= nth 1 t 0.
Proof.
  pose proof b100 as [B1 _]. assert (B2 : 5 * (1 / 64) <= bpow radix2 100) by (apply Rle_trans with (bpow radix2 0); [cbn; lra|apply bpow_le; lia]).
  destruct (call_exists m _ _ l64th B1 B2) as (v & w & Ev & Ew & SC & Tw). destruct half_ok as (H1 & H2 & H3). pose proof l64th as [M1 M2]. pose proof ln2_bounds.
  assert (SP : spread (B2R (Flit 5 1)) (B2R (Flit 15625 6)) <= 1 / 760).
  { unfold spread. rewrite H3, M2. apply Rmult_le_reg_r with (ln 2); [lra|]. unfold Rdiv at 1. rewrite Rmult_assoc, Rinv_l by lra. lra. }
  destruct (c95_short m HM _ _ _ v w SC (Flit 5 1) H1 H2 SP 5 _ eq_refl (sp5 _ _ l64th B1 B2)) as (tF & EF & ZF).
  assert (ER : exists t, @FFTCovGrid1D Rarith w 5 (1 / 64) (1 / 2) = Ok t) by (rewrite cov1_ok; eexists; reflexivity). destruct ER as (t & ER).
  exists v, w, tF, t. split; [exact Ev|]. split; [exact Ew|]. split; [exact EF|]. split; [exact ER|]. split.
  - rewrite (nth_indep _ 0 1); [apply ZF; lia|]. rewrite cov1_ok in EF. apply ok_inj in EF. rewrite <- EF. unfold vals. rewrite !map_length, seq_length. lia.
  - destruct (exact_at _ B1 w t Ew Tw ER) as [-> _]. pose proof exp3. lra.
Qed.
Lemma c95_long_case : exists v w tF t, @CreateVariogram F name (Flit 268435456 0) (Flit (-1) 0) (Flit (-1) 0) (Flit 0 0) (Flit 0 0) (Flit 15 1) = Ok v /\
  @CreateVariogram Rarith name 268435456 (-1) (-1) 0 0 (3 / 2) = Ok w /\
  @FFTCovGrid1D F v 5 (Flit 268435456 0) (Flit 5 1) = Ok tF /\ @FFTCovGrid1D Rarith w 5 268435456 (1 / 2) = Ok t /\
  36 / 1000 <= nth 1 (vals tF) 0 /\ nth 1 t 0 <= 28 / 1000.
Proof.
  pose proof b100 as [_ B2]. assert (B1 : bpow radix2 (-100) <= 268435456) by (apply Rle_trans with (bpow radix2 0); [apply bpow_le; lia|cbn; lra]).
  destruct (call_exists m _ _ l2p28 B1 B2) as (v & w & Ev & Ew & SC & Tw). destruct half_ok as (H1 & H2 & H3). pose proof l2p28 as [M1 M2]. pose proof ln2_bounds.
  assert (SP : bpow radix2 56 <= spread (B2R (Flit 5 1)) (B2R (Flit 268435456 0))).
  { unfold spread. rewrite H3, M2. apply Rmult_le_reg_r with (ln 2); [lra|]. unfold Rdiv at 1. rewrite Rmult_assoc, Rinv_l by lra. replace (bpow radix2 56) with 72057594037927936 by (cbn; lra). lra. }
  pose proof (sp5 _ _ l2p28 B1 B2) as S5.
  destruct (c95_long m HM PO _ _ _ v w SC (Flit 5 1) H1 H2 SP 5 _ eq_refl S5) as (tF & t1 & EF & E1 & EQ).
  assert (ER : exists t, @FFTCovGrid1D Rarith w 5 268435456 (1 / 2) = Ok t) by (rewrite cov1_ok; eexists; reflexivity). destruct ER as (t & ER).
  destruct (exact_at _ B1 w t Ew Tw ER) as [VT C1].
  exists v, w, tF, t. split; [exact Ev|]. split; [exact Ew|]. split; [exact EF|]. split; [exact ER|]. split.
  - rewrite EQ. rewrite cov1_ok in E1. apply ok_inj in E1. rewrite <- E1. unfold vals. rewrite map_map, nth_map_seq by lia. exact (entry_near m HM _ _ l2p28 B1 B2 v w SC C1).
  - rewrite VT. pose proof exp3. lra.
Qed.
End H.

(** ** a library *)
Lemma ex_lib_ok : rounds_well ex_lib /\ pow_one ex_lib.
Proof.
  destruct ex_rounded as (A & _ & B & C & D & _). split; [exact (Logic.conj A (Logic.conj C (Logic.conj B D)))|].
  intros x y Fx Fy X Y. cbn [lm_pow ex_lib]. destruct x as [s|s| |s k e H]; try discriminate Fx; [cbn in X; lra|].
  destruct (near_pow (B754_finite s k e H) y) as [E V]. split; [exact E|]. rewrite V, Y. set (q := B2R (B754_finite s k e H)) in *.
  assert (P : Rpow q 0 = 1) by (unfold Rpow; destruct (Rlt_dec 0 q); [apply Rpower_O; assumption|lra]). rewrite P, Rmin_left; [apply (rnd_id 1 fmt_1)|]. change 1 with (bpow radix2 0). apply bpow_le. lia.
Qed.
Lemma c95_example m : exists v w, straight_call m (Flit 250 0) (Flit (-1) 0) (Flit (-1) 0) v w /\ smooth_args (Flit 5 1) (Flit 250 0) /\
  or_main64 (Flit 250 0) (Flit (-1) 0) = Flit 250 0 /\ damp_error (Flit 5 1) (Flit 250 0) <= bpow radix2 (-30).
Proof.
  pose proof l250 as [M1 M2]. assert (B1 : bpow radix2 (-100) <= 250) by (apply Rle_trans with (bpow radix2 0); [apply bpow_le; lia|cbn; lra]).
  assert (B2 : 5 * 250 <= bpow radix2 100) by (apply Rle_trans with (bpow radix2 11); [cbn; lra|apply bpow_le; lia]).
  destruct (call_exists m _ _ l250 B1 B2) as (v & w & _ & _ & SC & _). exists v, w. split; [exact SC|]. destruct half_ok as (H1 & H2 & H3). pose proof ln2_bounds.
  assert (SP : 62500 <= spread (B2R (Flit 5 1)) (B2R (Flit 250 0)) <= 130000).
  { unfold spread. rewrite H3, M2. split; apply Rmult_le_reg_r with (ln 2); try lra; unfold Rdiv; rewrite Rmult_assoc, Rinv_l by lra; lra. }
  split; [|split; [reflexivity|]].
  - split; [exact H1|]. split; [lra|]. intros _. split; [lra|]. apply Rle_trans with (bpow radix2 17); [replace (bpow radix2 17) with 131072 by (cbn; lra); lra|apply bpow_le; lia].
  - unfold damp_error. destruct (Rlt_dec (B2R (Flit 5 1)) (99999 / 100000)); [|lra]. change (-30)%Z with (17 + -47)%Z. rewrite bpow_plus. apply Rmult_le_compat_r; [apply bpow_ge_0|]. replace (bpow radix2 17) with 131072 by (cbn; lra). lra.
Qed.
