(** Smoothing in double precision: tables and fields of variograms along the axes; lengths that are too short or too long. *)
From Coq Require Import ZArith Bool List String Lia Reals Lra Psatz.
From Flocq Require Import Core IEEE754.BinarySingleNaN.
From Verif Require Import Base Arith RealArith FloatArith M_Variogram M_Grid M_CovGrid M_Fft M_Field S_CovGrid S_Vario S_Random P_NormF S_CorrF P_CorrF P_CorrF2 P_CorrF4 P_Accur P_Accur2 P_Accur3 P_Accur6 P_Accur9 P_Accur10 P_Accur11
  S_Accur S_Reach S_Damp P_Base P_Grid P_Bounds P_Vario P_VarioMore P_VarioKernel P_VarioTables P_Reach S_FieldF S_FieldH P_FieldF P_FieldG P_FieldH P_FieldI P_FieldJ P_RBounds P_Damp P_Damp2 P_Damp3.
Import ListNotations.
Open Scope R_scope.

Section T.
Variable m : libm.
Hypothesis HM : rounds_well m.
Hypothesis PO : pow_one m.
Notation F := (Farith m).
Variables (s : string) (main perp depth power : b64) (v : variogram F) (w : variogram Rarith).
Hypothesis CF : @CreateVariogram F s main perp depth (Flit 0 0) (Flit 0 0) power = Ok v.
Hypothesis CR : @CreateVariogram Rarith s (B2R main) (B2R perp) (B2R depth) 0 0 (B2R power) = Ok w.
Hypothesis PW : fin power = true /\ 0 < B2R power <= 2.
Hypothesis MO : ordinary main.
Notation ry := (if Bltb perp (Flit 0 0) then main else perp).
Notation rz := (if Bltb depth (Flit 0 0) then main else depth).
Hypothesis PA : ordinary_arg perp.
Hypothesis DA : ordinary_arg depth.
Hypothesis KP : or_main (B2R main) (B2R perp) <= 1000 * B2R main.
Hypothesis KD : or_main (B2R main) (B2R depth) <= 1000 * B2R main.
Lemma call : same_call m (bpow radix2 (-46)) v w.
Proof.
  exists s, main, perp, depth, (Flit 0 0), (Flit 0 0), power. split; [exact CF|]. split; [rewrite zero_B; exact CR|]. destruct PW. repeat (split; [assumption|]). left. repeat split.
Qed.
Definition axis (r p : b64) (r' : R) : Prop := moderate r /\ 0 < r' /\ Rabs (B2R r - r') <= 4 * u53 * r' /\ (1 - 1 / 1000000) * B2R p <= B2R r <= B2R p.
Lemma side_axis (p r : b64) : ordinary p -> fin r = true -> B2R r = B2R (Bm p (lm_sin m quarter)) -> axis r p (B2R p * sin qt).
Proof.
  intros O Fr E. destruct (side_F m (proj1 (proj2 HM)) p O) as (_ & A & B & C). rewrite <- E in A, B, C. destruct sin_qt as [S1 _]. destruct O as (_ & L & H). pose proof (bpow_gt_0 radix2 (-100)).
  split; [|split; [apply Rmult_lt_0_compat; lra|split; assumption]]. split; [exact Fr|]. split.
  - apply Rle_trans with (bpow radix2 (-100) * bpow radix2 (-1)); [rewrite <- bpow_plus; apply bpow_le; lia|]. replace (bpow radix2 (-1)) with (1 / 2) by (cbn; lra). nra.
  - apply Rle_trans with (bpow radix2 100); [lra|apply bpow_le; lia].
Qed.
Lemma lengths : exists x y z, @FindVariogramRanges F v = (x, y, z) /\ axis x main (B2R main) /\ axis y ry (B2R ry * sin qt) /\ axis z rz (B2R rz * sin qt) /\
  @FindVariogramRanges Rarith w = (B2R main, B2R ry * sin qt, B2R rz * sin qt).
Proof.
  destruct (created_unrotated m s main perp depth power v CF) as (v0 & -> & AZ & DP & EX & EY & EZ & _ & _). clear CF.
  destruct (ord_arg main perp MO PA) as (M2 & V2 & NZ2). destruct (ord_arg main depth MO DA) as (M3 & V3 & NZ3). pose proof (mod_pos _ (ord_mod _ MO)) as P1.
  pose proof (ranges_F m (proj1 (proj2 HM)) v0) as Q. rewrite EX, EY, EZ in Q. rewrite <- V2 in KP. rewrite <- V3 in KD. destruct (Q AZ DP MO M2 M3 KP KD) as (x & y & z & E & Fx & Vx & [Fy Vy] & [Fz Vz]). clear Q.
  exists x, y, z. split; [exact E|]. split; [|split; [apply side_axis; auto|split; [apply side_axis; auto|]]].
  - pose proof (ord_mod _ MO) as (_ & L & H). split; [split; [exact Fx|rewrite Vx; split; assumption]|]. split; [exact P1|]. rewrite Vx. split; [|lra]. rewrite Rminus_diag_eq, Rabs_R0 by reflexivity. rewrite u53_val. nra.
  - destruct (created_new _ _ _ _ _ _ _ _ CR) as (t & p' & -> & _). pose proof (or_main_nz (B2R main) (B2R perp) P1 NZ2). pose proof (or_main_nz (B2R main) (B2R depth) P1 NZ3).
    replace (radians 0) with 0 by (unfold radians; lra). rewrite ranges_straight by (rewrite ?V2, ?V3 in *; lra). rewrite V2, V3. reflexivity.
Qed.
Lemma unit_fits (d : R) (c : b64) c' : d <= bpow radix2 (-46) -> fin c = true -> Rabs (B2R c - c') <= d -> Rabs c' <= 1 -> fits d c c'.
Proof.
  intros D A B C. split; [exact A|]. split; [|split; assumption]. assert (bpow radix2 (-46) <= bpow radix2 (-20)) by (apply bpow_le; lia).
  replace (B2R c) with (B2R c - c' + c') by ring. apply Rle_trans with (1 := Rabs_triang _ _). lra.
Qed.
Lemma table_fits n (g : nat -> b64) (r : nat -> R) : near_table (bpow radix2 (-46)) (Ok (map g (seq 0 n))) (Ok (map r (seq 0 n))) -> forall i, (i < n)%nat -> fits (bpow radix2 (-46)) (g i) (r i).
Proof.
  intros (xF & x & EF & E & FI & H) i Hi. injection EF as <-. injection E as <-. rewrite map_length, seq_length in H. destruct (H i Hi) as [A B]. unfold vals in A. rewrite map_map, !nth_map_seq in A by exact Hi. rewrite nth_map_seq in B by exact Hi.
  apply unit_fits; [lra| |exact A|exact B]. apply FI. apply in_map. apply in_seq. lia.
Qed.
Lemma fits_table n (g : nat -> b64) (r : nat -> R) d : (forall i, (i < n)%nat -> fits d (g i) (r i)) -> near_table d (Ok (map g (seq 0 n))) (Ok (map r (seq 0 n))).
Proof.
  intros H. exists (map g (seq 0 n)), (map r (seq 0 n)). split; [reflexivity|]. split; [reflexivity|]. split.
  - intros a Ha. apply in_map_iff in Ha as (i & <- & Hi). apply in_seq in Hi. apply H. lia.
  - rewrite map_length, seq_length. intros j Hj. unfold vals. rewrite map_map, !nth_map_seq by auto. destruct (H j Hj) as (_ & _ & A & B). split; assumption.
Qed.
Lemma kernel_axis (sp r p lF c : b64) r' l' c' d : smooth_args sp p -> axis r p r' -> nearby lF l' -> fits d c c' ->
  fits (d + damp_error sp p) (@kernel F sp (base m sp r) lF c) (@kernel Rarith (B2R sp) (Rpow (B2R sp) (1 / (r' * r'))) l' c').
Proof. intros S (A & B & C & D) N H. apply (kernel_near m (proj2 (proj2 (proj2 HM))) PO sp r p lF c r' l' c' d); assumption. Qed.
Lemma factors_F x y z (sx sy sz : b64) : @FindVariogramRanges F v = (x, y, z) -> @FindSmoothingFactors F v sx sy sz = (base m sx x, base m sy y, base m sz z).
Proof. intros E. unfold FindSmoothingFactors. rewrite E. reflexivity. Qed.
Lemma offF b l (c : b64) : @kernel F (Flit 1 0) b l c = c. Proof. unfold kernel. rewrite (no_smooth_F m). reflexivity. Qed.
Lemma offR b l c : @kernel Rarith 1 b l c = c. Proof. apply kernel_off. lra. Qed.
Ltac offs := cbv iota beta; repeat match goal with |- context [@kernel F (Flit 1 0) ?b ?l ?c] => let E := fresh in assert (E : @kernel F (Flit 1 0) b l c = c) by exact (offF b l c); rewrite E; clear E end;
  repeat match goal with |- context [@kernel Rarith 1 ?b ?l ?c] => let E := fresh in assert (E : @kernel Rarith 1 b l c = c) by exact (offR b l c); rewrite E; clear E end.
Variables (sx sy sz : b64).
Hypothesis SX : smooth_args sx main.
Hypothesis SY : smooth_args sy ry.
Hypothesis SZ : smooth_args sz rz.
Lemma dl46 : 0 + bpow radix2 (-46) <= 1 / 1000000.
Proof. rewrite Rplus_0_l. replace (bpow radix2 (-46)) with (/ 70368744177664) by (cbn; lra). lra. Qed.
Lemma smooth1 n (dx : b64) : (Z.of_nat n < 2 ^ 53)%Z -> spacing n dx ->
  near_table (bpow radix2 (-46) + damp_error sx main) (@FFTCovGrid1D F v n dx sx) (@FFTCovGrid1D Rarith w n (B2R dx) (B2R sx)).
Proof.
  intros Hn Hd. destruct lengths as (x & y & z & EF & AX & _ & _ & ER). pose proof (tab1 m 0 _ HM dl46 v w call n dx Hn Hd) as TB. rewrite !cov1_ok in *. pose proof (table_fits _ _ _ TB) as H.
  apply fits_table. intros i Hi. specialize (H i Hi). revert H. unfold cov1_spec. rewrite !(factors_F _ _ _ _ _ _ EF), !(factors_R w _ _ _ _ _ _ ER). offs.
  intros H. apply kernel_axis; auto. apply lag1_near; auto.
Qed.
Lemma smooth2 nx (dx : b64) ny (dy : b64) : (Z.of_nat nx < 2 ^ 53)%Z -> (Z.of_nat ny < 2 ^ 53)%Z -> spacing nx dx -> spacing ny dy ->
  near_table (bpow radix2 (-46) + damp_error sx main + damp_error sy ry) (@FFTCovGrid2D F v nx dx ny dy sx sy) (@FFTCovGrid2D Rarith w nx (B2R dx) ny (B2R dy) (B2R sx) (B2R sy)).
Proof.
  intros Hn Hk Hd He. destruct lengths as (x & y & z & EF & AX & AY & _ & ER). pose proof (tab2 m 0 _ HM dl46 v w call nx dx ny dy Hn Hk Hd He) as TB. rewrite !cov2_ok in *. pose proof (table_fits _ _ _ TB) as H.
  apply fits_table. intros q Hq. specialize (H q Hq). revert H. cbv beta. pose proof (GetIndex_GetIJ nx ny q Hq) as G. destruct (GetIJ nx ny q) as [i j]. destruct G as (Hi & Hj & _).
  unfold cov2_spec. rewrite !(factors_F _ _ _ _ _ _ EF), !(factors_R w _ _ _ _ _ _ ER). offs.
  intros H. apply kernel_axis; auto; [apply lag_near; auto|]. apply kernel_axis; auto. apply lag_near; auto.
Qed.
Lemma smooth3 nx (dx : b64) ny (dy : b64) nz (dz : b64) : (Z.of_nat nx < 2 ^ 53)%Z -> (Z.of_nat ny < 2 ^ 53)%Z -> (Z.of_nat nz < 2 ^ 53)%Z -> spacing nx dx -> spacing ny dy -> spacing nz dz ->
  near_table (bpow radix2 (-46) + damp_error sx main + damp_error sy ry + damp_error sz rz) (@FFTCovGrid3D F v nx dx ny dy nz dz sx sy sz) (@FFTCovGrid3D Rarith w nx (B2R dx) ny (B2R dy) nz (B2R dz) (B2R sx) (B2R sy) (B2R sz)).
Proof.
  intros Hn Hk Hl Hd He Hf. destruct lengths as (x & y & z & EF & AX & AY & AZ & ER). pose proof (tab3 m 0 _ HM dl46 v w call nx dx ny dy nz dz Hn Hk Hl Hd He Hf) as TB. rewrite !cov3_ok in *. pose proof (table_fits _ _ _ TB) as H.
  apply fits_table. intros q Hq. specialize (H q Hq). revert H. cbv beta. pose proof (GetIndex_GetIJK nx ny nz q Hq) as G. destruct (GetIJK nx ny q) as [[i j] k]. destruct G as (Hi & Hj & Hg & _).
  unfold cov3_spec. rewrite !(factors_F _ _ _ _ _ _ EF), !(factors_R w _ _ _ _ _ _ ER). offs.
  intros H. apply kernel_axis; auto; [apply lag_near; auto|]. apply kernel_axis; auto; [apply lag_near; auto|]. apply kernel_axis; auto. apply lag_near; auto.
Qed.
End T.
