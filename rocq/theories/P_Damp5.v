(** Smoothing in double precision: lengths that are too short or too long for it. *)
From Coq Require Import ZArith Bool List String Lia Reals Lra Psatz.
From Flocq Require Import Core IEEE754.BinarySingleNaN.
From Verif Require Import Base Arith RealArith FloatArith M_Variogram M_Grid M_CovGrid M_Fft M_Field S_CovGrid S_Vario S_Random P_NormF S_CorrF P_CorrF P_CorrF2 P_CorrF4 P_Accur P_Accur2 P_Accur3 P_Accur6 P_Accur9 P_Accur10 P_Accur11
  S_Accur S_Reach S_Damp P_Base P_Grid P_Bounds P_Vario P_VarioMore P_VarioKernel P_VarioTables P_Reach S_FieldF S_FieldH P_FieldF P_FieldG P_FieldH P_FieldI P_FieldJ P_RBounds P_Damp P_Damp2 P_Damp3 P_Damp4.
Import ListNotations.
Open Scope R_scope.

Lemma rnd_best y g : fmt g -> Rabs (rnd y - y) <= Rabs (g - y).
Proof. intros G. destruct (round_N_pt radix2 (SpecFloat.fexp 53 1024) (fun x => negb (Z.even x)) y) as [_ H]. apply H. exact G. Qed.
Lemma fmt_rnd y : fmt (rnd y). Proof. apply generic_format_round; [apply fexp_correct; exact Hprec|apply valid_rnd_N]. Qed.
Lemma rnd_to_1 y : 1 - 45 / 100 * u53 <= y <= 1 -> rnd y = 1.
Proof.
  intros H. pose proof u53_val as U. pose proof (rnd_best y 1 fmt_1) as B. rewrite (Rabs_pos_eq (1 - y)) in B by lra. apply Rabs_le_inv in B.
  assert (L : rnd y <= 1) by (rewrite <- (rnd_id 1 fmt_1); apply rnd_mono; lra). destruct (Req_dec (rnd y) 1) as [E|E]; [exact E|exfalso].
  destruct (half_grid (rnd y) (fmt_rnd y)) as (n & N & V). { rewrite U in *. lra. }
  assert (1 <= IZR n) by (apply IZR_le; lia). rewrite V in B. rewrite U in *. lra.
Qed.
Lemma rnd_to_0 y : 0 <= y < bpow radix2 (-1075) -> rnd y = 0.
Proof.
  intros H. pose proof (rnd_best y 0 fmt_0) as B. replace (0 - y) with (- y) in B by ring. rewrite Rabs_Ropp, (Rabs_pos_eq y) in B by lra. apply Rabs_le_inv in B.
  assert (P : 0 <= rnd y) by (apply rnd_nn; lra). destruct (Rle_lt_or_eq_dec _ _ P) as [Q|Q]; [exfalso|symmetry; exact Q].
  assert (L : bpow radix2 (-1074) <= rnd y). { apply (generic_format_ge_bpow radix2 (SpecFloat.fexp 53 1024)); [|exact Q|apply fmt_rnd]. intros e. unfold SpecFloat.fexp, SpecFloat.emin. lia. }
  change (-1074)%Z with (-1075 + 1)%Z in L. rewrite bpow_plus in L. change (bpow radix2 1) with 2 in L. lra.
Qed.
Section B.
Variable m : libm.
Hypothesis PR : pow_rounded m.
Hypothesis PO : pow_one m.
Notation F := (Farith m).
Lemma base_any (s r : b64) : fin s = true -> 0 < B2R s < 99999 / 100000 -> moderate r -> exists e, Rabs e <= 4 * u53 /\
  fin (base m s r) = true /\ B2R (base m s r) = rnd (exp (- ((1 + e) / spread (B2R s) (B2R r)))).
Proof.
  intros Fs Hs Mr. pose proof (mod_pos r Mr) as R0. pose proof (acc_fac r Mr) as A. pose proof (ln_neg _ Hs) as L0. pose proof u53_small as U.
  unfold base. set (q := Bdiv mode_NE (Flit 1 0) (Bm r r)) in *. assert (FP : 0 < fc r) by (rewrite fc_sq; apply Rinv_0_lt_compat; nra).
  destruct (acc_rel 3 q (fc r) ltac:(lia) A FP) as (e & E1 & E2). destruct A as [Fq _]. apply Rabs_le_inv in E1 as E1'. exists e. split; [exact E1|].
  set (h := spread (B2R s) (B2R r)) in *. assert (H0 : 0 < h) by (unfold h, spread, Rdiv; apply Rmult_lt_0_compat; [nra|apply Rinv_0_lt_compat; exact L0]).
  assert (FH : fc r * - ln (B2R s) = / h). { unfold h, spread. rewrite fc_sq. field. split; nra. }
  assert (Q0 : 0 < B2R q) by (rewrite E2; apply Rmult_lt_0_compat; lra).
  assert (ET : B2R q * ln (B2R s) = - ((1 + e) / h)). { rewrite E2. unfold Rdiv. rewrite <- FH. ring. }
  assert (T0 : 0 < (1 + e) / h) by (apply Rmult_lt_0_compat; [lra|apply Rinv_0_lt_compat; exact H0]).
  assert (B1 : 1 <= bpow radix2 1000) by (change 1 with (bpow radix2 0); apply bpow_le; lia).
  destruct (PR s q Fs Fq ltac:(lra) Q0) as [Fb Vb]. { rewrite Rpow_exp, ET by lra. apply Rle_trans with (exp 0); [left; apply exp_increasing; lra|rewrite exp_0; exact B1]. }
  rewrite Rpow_exp, ET, nearest_rnd in Vb by lra. split; assumption.
Qed.
Lemma base_long (s r : b64) : fin s = true -> 0 < B2R s < 99999 / 100000 -> moderate r -> bpow radix2 55 <= spread (B2R s) (B2R r) -> exactly (base m s r) 1.
Proof.
  intros Fs Hs Mr H. destruct (base_any s r Fs Hs Mr) as (e & E & Fb & Vb). split; [exact Fb|]. rewrite Vb. apply Rabs_le_inv in E. pose proof u53_val as U.
  set (h := spread (B2R s) (B2R r)) in *. pose proof (bpow_gt_0 radix2 55) as B0. assert (B55 : / bpow radix2 55 = u53 / 4) by (rewrite <- bpow_opp, U; cbn; lra).
  assert (IH : 0 < / h <= u53 / 4) by (split; [apply Rinv_0_lt_compat; lra|rewrite <- B55; apply Rinv_le_contravar; lra]).
  assert (TB : 0 < (1 + e) / h <= 3 / 10 * u53) by (unfold Rdiv; rewrite U in *; split; [apply Rmult_lt_0_compat; lra|nra]).
  apply rnd_to_1. pose proof (exp_ineq1_le (- ((1 + e) / h))). split; [lra|]. apply Rle_trans with (exp 0); [left; apply exp_increasing; lra|rewrite exp_0; lra].
Qed.
Lemma base_short (s r : b64) : fin s = true -> 0 < B2R s < 99999 / 100000 -> moderate r -> spread (B2R s) (B2R r) <= 1 / 760 -> exactly (base m s r) 0.
Proof.
  intros Fs Hs Mr H. destruct (base_any s r Fs Hs Mr) as (e & E & Fb & Vb). split; [exact Fb|]. rewrite Vb. apply Rabs_le_inv in E. pose proof u53_val as U. pose proof (mod_pos r Mr) as R0. pose proof (ln_neg _ Hs) as L0.
  set (h := spread (B2R s) (B2R r)) in *. assert (H0 : 0 < h) by (unfold h, spread, Rdiv; apply Rmult_lt_0_compat; [nra|apply Rinv_0_lt_compat; exact L0]).
  assert (IH : 760 <= / h) by (rewrite <- (Rinv_inv 760); apply Rinv_le_contravar; lra).
  assert (TB : 750 <= (1 + e) / h) by (unfold Rdiv; rewrite U in *; nra).
  apply rnd_to_0. split; [left; apply exp_pos|]. rewrite bpow_exp. destruct ln2_bounds as [_ B]. apply exp_increasing. change (ln (IZR radix2)) with (ln 2). change (IZR (-1075)) with (-1075). lra.
Qed.
Lemma factor_long (b l : b64) : exactly b 1 -> ordinary_lag l -> exactly (lm_pow m b (Bm l l)) 1.
Proof.
  intros [Fb Vb] Ol. destruct (Req_dec (B2R l) 0) as [Z|NZ].
  - destruct Ol as [Fl _]. destruct (prod_val l l Fl Fl) as [FD VD]; [rewrite Z, Rmult_0_l, Rabs_R0; apply bpow_ge_0|]. rewrite Z, Rmult_0_l, (rnd_id 0 fmt_0) in VD.
    destruct (PO b (Bm l l) Fb FD ltac:(lra) VD) as [A B]. split; assumption.
  - destruct (square_F l Ol NZ) as (FD & g & G1 & G2). apply Rabs_le_inv in G1. pose proof u53_small.
    assert (DP : 0 < B2R (Bm l l)) by (rewrite G2; apply Rmult_lt_0_compat; [nra|lra]). assert (B1 : 1 <= bpow radix2 1000) by (change 1 with (bpow radix2 0); apply bpow_le; lia).
    assert (E : Rpow (B2R b) (B2R (Bm l l)) = 1) by (rewrite Rpow_exp by lra; rewrite Vb, ln_1, Rmult_0_r; apply exp_0).
    destruct (PR b (Bm l l) Fb FD ltac:(lra) DP ltac:(lra)) as [A B]. split; [exact A|]. rewrite B, E. apply rnd_id, fmt_1.
Qed.
Lemma factor_short (b l : b64) : exactly b 0 -> ordinary_lag l -> B2R l <> 0 -> exactly (lm_pow m b (Bm l l)) 0.
Proof.
  intros [Fb Vb] Ol NZ. destruct (square_F l Ol NZ) as (FD & g & G1 & G2). apply Rabs_le_inv in G1. pose proof u53_small.
  assert (DP : 0 < B2R (Bm l l)) by (rewrite G2; apply Rmult_lt_0_compat; [nra|lra]).
  assert (E : Rpow (B2R b) (B2R (Bm l l)) = 0). { unfold Rpow. rewrite Vb. destruct (Rlt_dec 0 0); [lra|]. destruct (Req_EM_T (B2R (Bm l l)) 0); [lra|reflexivity]. }
  pose proof (bpow_ge_0 radix2 1000). destruct (PR b (Bm l l) Fb FD ltac:(lra) DP ltac:(lra)) as [A B]. split; [exact A|]. rewrite B, E. apply rnd_id, fmt_0.
Qed.
End B.

Section C.
Variable m : libm.
Hypothesis HM : rounds_well m.
Hypothesis PO : pow_one m.
Notation F := (Farith m).
Variables (main perp depth : b64) (v : variogram F) (w : variogram Rarith).
Hypothesis SC : straight_call m main perp depth v w.
Lemma c95_tables (sx sy sz : b64) : smooth_args sx main -> smooth_args sy (or_main64 main perp) -> smooth_args sz (or_main64 main depth) ->
  let ex := damp_error sx main in let ey := damp_error sy (or_main64 main perp) in let ez := damp_error sz (or_main64 main depth) in
  forall nx ny nz (dx dy dz : b64), (Z.of_nat nx < 2 ^ 53)%Z -> (Z.of_nat ny < 2 ^ 53)%Z -> (Z.of_nat nz < 2 ^ 53)%Z -> spacing nx dx -> spacing ny dy -> spacing nz dz ->
  near_table (bpow radix2 (-46) + ex) (@FFTCovGrid1D F v nx dx sx) (@FFTCovGrid1D Rarith w nx (B2R dx) (B2R sx)) /\
  near_table (bpow radix2 (-46) + ex + ey) (@FFTCovGrid2D F v nx dx ny dy sx sy) (@FFTCovGrid2D Rarith w nx (B2R dx) ny (B2R dy) (B2R sx) (B2R sy)) /\
  near_table (bpow radix2 (-46) + ex + ey + ez) (@FFTCovGrid3D F v nx dx ny dy nz dz sx sy sz) (@FFTCovGrid3D Rarith w nx (B2R dx) ny (B2R dy) nz (B2R dz) (B2R sx) (B2R sy) (B2R sz)).
Proof.
  intros X Y Z ex ey ez nx ny nz dx dy dz A B C D E G. destruct SC as (s & power & CF & CR & P1 & P2 & MO & PA & DA & KP & KD). split; [|split].
  - exact (smooth1 m HM PO s main perp depth power v w CF CR (Logic.conj P1 P2) MO PA DA KP KD sx X nx dx A D).
  - exact (smooth2 m HM PO s main perp depth power v w CF CR (Logic.conj P1 P2) MO PA DA KP KD sx sy X Y nx dx ny dy A B D E).
  - exact (smooth3 m HM PO s main perp depth power v w CF CR (Logic.conj P1 P2) MO PA DA KP KD sx sy sz X Y Z nx dx ny dy nz dz A B C D E G).
Qed.
Lemma plain_entries nx (dx : b64) : (Z.of_nat nx < 2 ^ 53)%Z -> spacing nx dx -> forall i, (i < nx)%nat -> fits (bpow radix2 (-46)) (@cov1_spec F v nx dx (Flit 1 0) i) (@cov1_spec Rarith w nx (B2R dx) 1 i).
Proof.
  intros A D. destruct SC as (s & power & CF & CR & P1 & P2 & MO & PA & DA & KP & KD). pose proof (tab1 m 0 _ HM dl46 v w (call m s main perp depth power v w CF CR (Logic.conj P1 P2) MO PA DA) nx dx A D) as TB.
  rewrite !cov1_ok in TB. exact (table_fits _ _ _ TB).
Qed.
Lemma smoothed_entry nx (dx sx : b64) i : exists x, axis x main (B2R main) /\ @cov1_spec F v nx dx sx i = @kernel F sx (base m sx x) (@lag1 F nx i dx) (@cov1_spec F v nx dx (Flit 1 0) i).
Proof.
  destruct SC as (s & power & CF & CR & P1 & P2 & MO & PA & DA & KP & KD). destruct (lengths m HM s main perp depth power v w CF CR MO PA DA KP KD) as (x & y & z & EF & AX & _ & _ & _).
  exists x. split; [exact AX|]. unfold cov1_spec. rewrite !(factors_F m v _ _ _ _ _ _ EF). cbv iota beta. symmetry. f_equal.
Qed.
Lemma same_main (x : b64) : axis x main (B2R main) -> forall s, 0 < s < 99999 / 100000 -> spread s (B2R x) <= spread s (B2R main) /\ (1 - 1 / 100000) * spread s (B2R main) <= spread s (B2R x).
Proof.
  intros (M & P & _ & [L H]) s S. pose proof (ln_neg s S) as L0. assert (IL : 0 < / - ln s) by (apply Rinv_0_lt_compat; exact L0). unfold spread, Rdiv. split.
  - apply Rmult_le_compat_r; [lra|nra].
  - rewrite <- Rmult_assoc. apply Rmult_le_compat_r; [lra|nra].
Qed.
Lemma c95_long (sx : b64) : fin sx = true -> 0 < B2R sx < 99999 / 100000 -> bpow radix2 56 <= spread (B2R sx) (B2R main) ->
  forall nx (dx : b64), (Z.of_nat nx < 2 ^ 53)%Z -> spacing nx dx -> exists t t1, @FFTCovGrid1D F v nx dx sx = Ok t /\ @FFTCovGrid1D F v nx dx (Flit 1 0) = Ok t1 /\ vals t = vals t1.
Proof.
  intros Fs Hs Hh nx dx A D. rewrite !cov1_ok. do 2 eexists. split; [reflexivity|]. split; [reflexivity|]. unfold vals. rewrite !map_map. apply map_ext_in. intros i Hi. apply in_seq in Hi.
  pose proof (plain_entries nx dx A D i ltac:(lia)) as (Fc & Bc & _). destruct (smoothed_entry nx dx sx i) as (x & AX & ->). destruct (same_main x AX _ Hs) as [_ SL]. set (c := @cov1_spec F v nx dx (Flit 1 0) i) in *.
  assert (E : @kernel F sx (base m sx x) (@lag1 F nx i dx) c = Bm c (lm_pow m (base m sx x) (Bm (@lag1 F nx i dx) (@lag1 F nx i dx)))).
  { unfold kernel. change (flt F sx (lit F 99999 5)) with (Bltb sx (Flit 99999 5)). rewrite (proj2 (test_on sx Fs) (proj2 Hs)). reflexivity. }
  rewrite E. pose proof (proj2 (proj2 (proj2 HM))) as PR.
  assert (B5 : bpow radix2 55 <= spread (B2R sx) (B2R x)). { change 56%Z with (55 + 1)%Z in Hh. rewrite bpow_plus in Hh. change (bpow radix2 1) with 2 in Hh. pose proof (bpow_gt_0 radix2 55). lra. }
  destruct (lag1_near m nx i dx ltac:(lia) A D) as [Ol _]. destruct (factor_long m PR PO (base m sx x) (@lag1 F nx i dx) (base_long m PR sx x Fs Hs (proj1 AX) B5) Ol) as [Ff Vf].
  assert (B3 : 2 <= bpow radix2 300) by (change 2 with (bpow radix2 1); apply bpow_le; lia). rewrite b20 in Bc.
  destruct (prod_val c _ Fc Ff) as [_ V]; rewrite Vf, Rmult_1_r in *; [lra|]. rewrite V. apply rnd_id, fmt_B.
Qed.
Lemma lag1_nz nx i (dx : b64) : (0 < i < nx)%nat -> (Z.of_nat nx < 2 ^ 53)%Z -> spacing nx dx -> B2R (@lag1 F nx i dx) <> 0.
Proof.
  intros Hi A D. destruct (lag1_near m nx i dx ltac:(lia) A D) as [_ E]. pose proof D as (_ & L & _). pose proof (bpow_gt_0 radix2 (-100)).
  assert (P : @lag1 Rarith nx i (B2R dx) <> 0).
  { unfold lag1. destruct (2 * i <? nx)%nat.
    - change (IZR (Z.of_nat i) * B2R dx <> 0). assert (0 < IZR (Z.of_nat i)) by (apply IZR_lt; lia). nra.
    - change (B2R dx * IZR (Z.of_nat nx - Z.of_nat i) <> 0). assert (0 < IZR (Z.of_nat nx - Z.of_nat i)) by (apply IZR_lt; lia). nra. }
  intros Z. rewrite Z in E. replace (0 - @lag1 Rarith nx i (B2R dx)) with (- @lag1 Rarith nx i (B2R dx)) in E by ring. rewrite Rabs_Ropp in E. pose proof (Rabs_pos_lt _ P). pose proof u53_small. nra.
Qed.
Lemma c95_short (sx : b64) : fin sx = true -> 0 < B2R sx < 99999 / 100000 -> spread (B2R sx) (B2R main) <= 1 / 760 ->
  forall nx (dx : b64), (Z.of_nat nx < 2 ^ 53)%Z -> spacing nx dx -> exists t, @FFTCovGrid1D F v nx dx sx = Ok t /\ forall i, (0 < i < nx)%nat -> nth i (vals t) 1 = 0.
Proof.
  intros Fs Hs Hh nx dx A D. rewrite cov1_ok. eexists. split; [reflexivity|]. intros i Hi. unfold vals. rewrite map_map, nth_map_seq by lia.
  pose proof (plain_entries nx dx A D i ltac:(lia)) as (Fc & Bc & _). destruct (smoothed_entry nx dx sx i) as (x & AX & ->). destruct (same_main x AX _ Hs) as [SL _]. set (c := @cov1_spec F v nx dx (Flit 1 0) i) in *.
  assert (E : @kernel F sx (base m sx x) (@lag1 F nx i dx) c = Bm c (lm_pow m (base m sx x) (Bm (@lag1 F nx i dx) (@lag1 F nx i dx)))).
  { unfold kernel. change (flt F sx (lit F 99999 5)) with (Bltb sx (Flit 99999 5)). rewrite (proj2 (test_on sx Fs) (proj2 Hs)). reflexivity. }
  rewrite E. pose proof (proj2 (proj2 (proj2 HM))) as PR.
  destruct (lag1_near m nx i dx ltac:(lia) A D) as [Ol _]. destruct (factor_short m PR (base m sx x) (@lag1 F nx i dx) (base_short m PR sx x Fs Hs (proj1 AX) ltac:(lra)) Ol (lag1_nz nx i dx Hi A D)) as [Ff Vf].
  destruct (prod_val c _ Fc Ff) as [_ V]; rewrite Vf, Rmult_0_r in *; [rewrite Rabs_R0; apply bpow_ge_0|]. rewrite V. apply rnd_id, fmt_0.
Qed.
End C.
