(** Smoothed tables against unsmoothed ones; symmetric tables. *)
From Coq Require Import ZArith QArith Qreals List Bool String Ascii Lia Reals Lra Psatz.
From Verif Require Import Base Arith RealArith M_Variogram M_Grid M_CovGrid S_CovGrid S_Vario P_Base P_Bounds P_RBounds P_QBounds P_Cov P_Vario P_VarioNames P_VarioMore P_VarioKernel.
Import ListNotations.
Open Scope R_scope.

Lemma factors_R (v : variogram Rarith) rx ry rz sx sy sz : @FindVariogramRanges Rarith v = (rx, ry, rz) ->
  @FindSmoothingFactors Rarith v sx sy sz = (Rpow sx (1 / (rx * rx)), Rpow sy (1 / (ry * ry)), Rpow sz (1 / (rz * rz))).
Proof. intros E. unfold FindSmoothingFactors. rewrite E. rewrite lit1. reflexivity. Qed.

(** a created variogram: correlations are non-negative, ranges positive *)
Definition sane (v : variogram Rarith) : Prop :=
  var v = 1 /\ (forall x y z, 0 <= @GetCorr3 Rarith v x y z) /\
  exists rx ry rz, @FindVariogramRanges Rarith v = (rx, ry, rz) /\ 0 < rx /\ 0 < ry /\ 0 < rz.
Lemma created_sane s main perp depth a d pw v : @CreateVariogram Rarith s main perp depth a d pw = Ok v ->
  0 < main -> perp <> 0 -> depth <> 0 -> 0 < pw -> sane v.
Proof.
  intros E Hm Hp Hd Hw. split; [|split].
  - destruct (created_new _ _ _ _ _ _ _ _ E) as (t & pw' & -> & _). cbn. ring.
  - intros. apply (c36_3d _ _ _ _ _ _ _ _ E Hm Hp Hd Hw).
  - pose proof (or_main_nz main perp Hm Hp). pose proof (or_main_nz main depth Hm Hd).
    destruct (created_new _ _ _ _ _ _ _ _ E) as (t & pw' & -> & _).
    destruct (@FindVariogramRanges Rarith (new_variogram t pw' main (or_main main perp) (or_main main depth) (radians a) (radians d) 1)) as [[x y] z] eqn:F.
    exists x, y, z. split; auto. exact (ranges_pos _ _ _ _ _ _ _ _ _ _ _ Hm H H0 F).
Qed.
Lemma sane_corr2 v x y : sane v -> 0 <= @GetCorr2 Rarith v x y.
Proof. intros (_ & H & _). rewrite corr2_3. apply H. Qed.
Lemma sane_corr1 v x : sane v -> 0 <= @GetCorr1 Rarith v x.
Proof. intros H. rewrite corr1_2. apply sane_corr2. auto. Qed.

Lemma cov1_le v nx dx s i : sane v -> 0 < s ->
  0 <= @cov1_spec Rarith v nx dx s i <= @cov1_spec Rarith v nx dx 1 i.
Proof.
  intros Hv Hs. pose proof Hv as (V & _ & rx & ry & rz & E & Hx & Hy & Hz). unfold cov1_spec.
  rewrite !(factors_R v rx ry rz _ _ _ E). rewrite V. rewrite (kernel_off 1) by lra. apply kernel_le; auto; [lra|].
  change (0 <= 1 * @GetCorr1 Rarith v (lag1 nx i dx)). rewrite Rmult_1_l. apply sane_corr1. auto.
Qed.
Lemma cov2_le v nx dx ny dy sx sy i j : sane v -> 0 < sx -> 0 < sy ->
  0 <= @cov2_spec Rarith v nx dx ny dy sx sy i j <= @cov2_spec Rarith v nx dx ny dy 1 1 i j.
Proof.
  intros Hv Hsx Hsy. pose proof Hv as (V & _ & rx & ry & rz & E & Hx & Hy & Hz). unfold cov2_spec.
  rewrite !(factors_R v rx ry rz _ _ _ E). rewrite V. rewrite !(kernel_off 1) by lra.
  assert (C : 0 <= mul Rarith 1 (@GetCorr2 Rarith v (lag nx i dx) (lag ny j dy))).
  { change (0 <= 1 * @GetCorr2 Rarith v (lag nx i dx) (lag ny j dy)). rewrite Rmult_1_l. apply sane_corr2. auto. }
  set (c := mul Rarith 1 (@GetCorr2 Rarith v (lag nx i dx) (lag ny j dy))) in *. clearbody c.
  pose proof (kernel_le sx rx (@lag Rarith nx i dx) c Hsx ltac:(lra) C) as K1.
  pose proof (kernel_le sy ry (@lag Rarith ny j dy) _ Hsy ltac:(lra) (proj1 K1)) as K2.
  split; [exact (proj1 K2)|]. eapply Rle_trans; [exact (proj2 K2)|exact (proj2 K1)].
Qed.
Lemma cov3_le v nx dx ny dy nz dz sx sy sz i j k : sane v -> 0 < sx -> 0 < sy -> 0 < sz ->
  0 <= @cov3_spec Rarith v nx dx ny dy nz dz sx sy sz i j k <= @cov3_spec Rarith v nx dx ny dy nz dz 1 1 1 i j k.
Proof.
  intros Hv Hsx Hsy Hsz. pose proof Hv as (V & H3 & rx & ry & rz & E & Hx & Hy & Hz). unfold cov3_spec.
  rewrite !(factors_R v rx ry rz _ _ _ E). rewrite V. rewrite !(kernel_off 1) by lra.
  assert (C : 0 <= mul Rarith 1 (@GetCorr3 Rarith v (lag nx i dx) (lag ny j dy) (lag nz k dz))).
  { change (0 <= 1 * @GetCorr3 Rarith v (lag nx i dx) (lag ny j dy) (lag nz k dz)). rewrite Rmult_1_l. apply H3. }
  set (c := mul Rarith 1 (@GetCorr3 Rarith v (lag nx i dx) (lag ny j dy) (lag nz k dz))) in *. clearbody c.
  pose proof (kernel_le sx rx (@lag Rarith nx i dx) c Hsx ltac:(lra) C) as K1.
  pose proof (kernel_le sy ry (@lag Rarith ny j dy) _ Hsy ltac:(lra) (proj1 K1)) as K2.
  pose proof (kernel_le sz rz (@lag Rarith nz k dz) _ Hsz ltac:(lra) (proj1 K2)) as K3.
  split; [exact (proj1 K3)|]. eapply Rle_trans; [exact (proj2 K3)|]. eapply Rle_trans; [exact (proj2 K2)|exact (proj2 K1)].
Qed.

(** tables *)
Lemma tab1_le v nx dx s t t1 i z : sane v -> 0 < s -> @FFTCovGrid1D Rarith v nx dx s = Ok t -> @FFTCovGrid1D Rarith v nx dx 1 = Ok t1 ->
  (i < nx)%nat -> 0 <= nth i t z <= nth i t1 z /\ (i = 0%nat -> nth i t z = nth i t1 z).
Proof.
  intros Hv Hs E E1 Hi. destruct (@c31_1d Rarith v nx dx s) as (t' & E' & _ & H). rewrite E in E'. injection E' as <-.
  destruct (@c31_1d Rarith v nx dx 1) as (t' & E' & _ & H1). rewrite E1 in E'. injection E' as <-.
  rewrite H, H1 by auto. split; [apply cov1_le; auto|]. intros ->. unfold cov1_spec.
  destruct (FindSmoothingFactors v s _ _) as [[? ?] ?], (FindSmoothingFactors v 1 _ _) as [[? ?] ?].
  rewrite !lag1_0 by auto. rewrite !kernel_0. reflexivity.
Qed.
Lemma tab2_le v nx dx ny dy sx sy t t1 i j z : sane v -> 0 < sx -> 0 < sy ->
  @FFTCovGrid2D Rarith v nx dx ny dy sx sy = Ok t -> @FFTCovGrid2D Rarith v nx dx ny dy 1 1 = Ok t1 ->
  (i < nx)%nat -> (j < ny)%nat ->
  0 <= nth (i + nx * j) t z <= nth (i + nx * j) t1 z /\ (i = 0%nat -> j = 0%nat -> nth (i + nx * j) t z = nth (i + nx * j) t1 z).
Proof.
  intros Hv Hs Hs' E E1 Hi Hj. destruct (@c31_2d Rarith v nx dx ny dy sx sy) as (t' & E' & _ & H). rewrite E in E'. injection E' as <-.
  destruct (@c31_2d Rarith v nx dx ny dy 1 1) as (t' & E' & _ & H1). rewrite E1 in E'. injection E' as <-.
  rewrite H, H1 by auto. split; [apply cov2_le; auto|]. intros -> ->. unfold cov2_spec.
  destruct (FindSmoothingFactors v sx sy _) as [[? ?] ?], (FindSmoothingFactors v 1 1 _) as [[? ?] ?].
  rewrite !lag_0 by auto. rewrite !kernel_0. reflexivity.
Qed.
Lemma tab3_le v nx dx ny dy nz dz sx sy sz t t1 i j k z : sane v -> 0 < sx -> 0 < sy -> 0 < sz ->
  @FFTCovGrid3D Rarith v nx dx ny dy nz dz sx sy sz = Ok t -> @FFTCovGrid3D Rarith v nx dx ny dy nz dz 1 1 1 = Ok t1 ->
  (i < nx)%nat -> (j < ny)%nat -> (k < nz)%nat ->
  0 <= nth (i + nx * j + nx * ny * k) t z <= nth (i + nx * j + nx * ny * k) t1 z /\
  (i = 0%nat -> j = 0%nat -> k = 0%nat -> nth (i + nx * j + nx * ny * k) t z = nth (i + nx * j + nx * ny * k) t1 z).
Proof.
  intros Hv Hs Hs' Hs'' E E1 Hi Hj Hk. destruct (@c31_3d Rarith v nx dx ny dy nz dz sx sy sz) as (t' & E' & _ & H). rewrite E in E'. injection E' as <-.
  destruct (@c31_3d Rarith v nx dx ny dy nz dz 1 1 1) as (t' & E' & _ & H1). rewrite E1 in E'. injection E' as <-.
  rewrite H, H1 by auto. split; [apply cov3_le; auto|]. intros -> -> ->. unfold cov3_spec.
  destruct (FindSmoothingFactors v sx sy sz) as [[? ?] ?], (FindSmoothingFactors v 1 1 1) as [[? ?] ?].
  rewrite !lag_0 by auto. rewrite !kernel_0. reflexivity.
Qed.

(** ** at one range along x, without rotation *)
Lemma created_straight s main perp depth pw v : @CreateVariogram Rarith s main perp depth 0 0 pw = Ok v ->
  0 < main -> perp <> 0 -> depth <> 0 -> perp <= 1000 * main -> depth <= 1000 * main ->
  var v = 1 /\ @FindVariogramRanges Rarith v = (main, or_main main perp * sin qt, or_main main depth * sin qt).
Proof.
  intros E Hm Hp Hd Bp Bd. destruct (created_new _ _ _ _ _ _ _ _ E) as (t & pw' & -> & _). split; [cbn; ring|].
  assert (R0 : radians 0 = 0) by exact (Rmult_0_l _). rewrite R0. 
  pose proof (or_main_nz main perp Hm Hp). pose proof (or_main_nz main depth Hm Hd).
  apply ranges_straight; auto; split; auto; unfold or_main; destruct (Rlt_dec _ _); lra.
Qed.

Section One.
Variables (s : string) (main perp depth pw : R) (v : variogram Rarith).
Hypothesis (E : @CreateVariogram Rarith s main perp depth 0 0 pw = Ok v) (Hm : 0 < main) (Hp : perp <> 0) (Hd : depth <> 0)
  (Bp : perp <= 1000 * main) (Bd : depth <= 1000 * main).

Lemma kernel_at_range sp r c lg : 0 < sp < 99999 / 100000 -> 0 < r -> lg * lg = r * r -> @kernel Rarith sp (Rpow sp (1 / (r * r))) lg c = sp * c.
Proof. intros Hs Hr Hl. rewrite kernel_on by lra. rewrite Hl, factor_range by lra. apply Rmult_comm. Qed.

Lemma one_range_1d sp nx dx t t1 i z : 0 < sp < 99999 / 100000 ->
  @FFTCovGrid1D Rarith v nx dx sp = Ok t -> @FFTCovGrid1D Rarith v nx dx 1 = Ok t1 -> (i < nx)%nat ->
  @lag1 Rarith nx i dx = main -> nth i t z = sp * nth i t1 z.
Proof.
  intros Hs E0 E1 Hi Hl. destruct (@c31_1d Rarith v nx dx sp) as (t' & E' & _ & H). rewrite E0 in E'. injection E' as <-.
  destruct (@c31_1d Rarith v nx dx 1) as (t' & E' & _ & H1). rewrite E1 in E'. injection E' as <-.
  rewrite H, H1 by auto. destruct (created_straight _ _ _ _ _ _ E Hm Hp Hd Bp Bd) as [V F]. unfold cov1_spec.
  rewrite !(factors_R _ _ _ _ _ _ _ F), V, Hl, kernel_at_range by auto. rewrite kernel_off by lra. reflexivity.
Qed.
Lemma one_range_2d sp sy nx dx ny dy t t1 i z : 0 < sp < 99999 / 100000 -> (0 < ny)%nat ->
  @FFTCovGrid2D Rarith v nx dx ny dy sp sy = Ok t -> @FFTCovGrid2D Rarith v nx dx ny dy 1 1 = Ok t1 -> (i < nx)%nat ->
  Rabs (@lag Rarith nx i dx) = main -> nth i t z = sp * nth i t1 z.
Proof.
  intros Hs Hny E0 E1 Hi Hl. destruct (@c31_2d Rarith v nx dx ny dy sp sy) as (t' & E' & _ & H). rewrite E0 in E'. injection E' as <-.
  destruct (@c31_2d Rarith v nx dx ny dy 1 1) as (t' & E' & _ & H1). rewrite E1 in E'. injection E' as <-.
  specialize (H i 0%nat z Hi Hny). specialize (H1 i 0%nat z Hi Hny). rewrite Nat.mul_0_r, Nat.add_0_r in H, H1.
  rewrite H, H1. destruct (created_straight _ _ _ _ _ _ E Hm Hp Hd Bp Bd) as [V F]. unfold cov2_spec.
  rewrite !(factors_R _ _ _ _ _ _ _ F), V, !lag_0 by auto. rewrite !kernel_0, kernel_at_range; auto.
  - rewrite kernel_off by lra. reflexivity.
  - pose proof (Rsqr_abs (@lag Rarith nx i dx)) as Q. unfold Rsqr in Q. rewrite Q, Hl. reflexivity.
Qed.
Lemma one_range_3d sp sy sz nx dx ny dy nz dz t t1 i z : 0 < sp < 99999 / 100000 -> (0 < ny)%nat -> (0 < nz)%nat ->
  @FFTCovGrid3D Rarith v nx dx ny dy nz dz sp sy sz = Ok t -> @FFTCovGrid3D Rarith v nx dx ny dy nz dz 1 1 1 = Ok t1 -> (i < nx)%nat ->
  Rabs (@lag Rarith nx i dx) = main -> nth i t z = sp * nth i t1 z.
Proof.
  intros Hs Hny Hnz E0 E1 Hi Hl. destruct (@c31_3d Rarith v nx dx ny dy nz dz sp sy sz) as (t' & E' & _ & H). rewrite E0 in E'. injection E' as <-.
  destruct (@c31_3d Rarith v nx dx ny dy nz dz 1 1 1) as (t' & E' & _ & H1). rewrite E1 in E'. injection E' as <-.
  specialize (H i 0%nat 0%nat z Hi Hny Hnz). specialize (H1 i 0%nat 0%nat z Hi Hny Hnz). rewrite !Nat.mul_0_r, !Nat.add_0_r in H, H1.
  rewrite H, H1. destruct (created_straight _ _ _ _ _ _ E Hm Hp Hd Bp Bd) as [V F]. unfold cov3_spec.
  rewrite !(factors_R _ _ _ _ _ _ _ F), V, !lag_0 by auto. rewrite !kernel_0, kernel_at_range; auto.
  - rewrite kernel_off by lra. reflexivity.
  - pose proof (Rsqr_abs (@lag Rarith nx i dx)) as Q. unfold Rsqr in Q. rewrite Q, Hl. reflexivity.
Qed.

(** along y the factor is off by less than a power 1.000001, and never right *)
Lemma one_range_y sp sx nx dx ny dy t t1 j z : 0 < sp < 99999 / 100000 -> (0 < nx)%nat ->
  @FFTCovGrid2D Rarith v nx dx ny dy sx sp = Ok t -> @FFTCovGrid2D Rarith v nx dx ny dy 1 1 = Ok t1 -> (j < ny)%nat ->
  Rabs (@lag Rarith ny j dy) = or_main main perp ->
  exists f, nth (nx * j) t z = f * nth (nx * j) t1 z /\ Rpower sp (1000001 / 1000000) < f < sp.
Proof.
  intros Hs Hnx E0 E1 Hj Hl. destruct (@c31_2d Rarith v nx dx ny dy sx sp) as (t' & E' & _ & H). rewrite E0 in E'. injection E' as <-.
  destruct (@c31_2d Rarith v nx dx ny dy 1 1) as (t' & E' & _ & H1). rewrite E1 in E'. injection E' as <-.
  specialize (H 0%nat j z Hnx Hj). specialize (H1 0%nat j z Hnx Hj). rewrite Nat.add_0_l in H, H1.
  rewrite H, H1. destruct (created_straight _ _ _ _ _ _ E Hm Hp Hd Bp Bd) as [V F]. unfold cov2_spec.
  rewrite !(factors_R _ _ _ _ _ _ _ F), V, !lag_0 by auto. rewrite !kernel_0. rewrite (kernel_off 1) by lra. rewrite kernel_on by lra.
  pose proof (or_main_nz main perp Hm Hp) as Hr.
  pose proof (Rsqr_abs (@lag Rarith ny j dy)) as Q. unfold Rsqr in Q. rewrite Hl in Q.
  rewrite factor, Q by lra. eexists. split; [apply Rmult_comm|]. destruct sin_qt as [S1 S2].
  set (r := or_main main perp) in *.
  replace (1 / (r * sin qt * (r * sin qt)) * (r * r)) with (/ (sin qt ^ 2)) by (field; lra).
  assert (I : 1 < / (sin qt ^ 2) < 1000001 / 1000000).
  { split; [rewrite <- Rinv_1; apply Rinv_lt_contravar; lra|]. 
    rewrite <- (Rinv_involutive (1000001 / 1000000)) by lra. apply Rinv_lt_contravar; [|lra].
    apply Rmult_lt_0_compat; [apply Rinv_0_lt_compat; lra|lra]. }
  assert (L : ln sp < 0) by (rewrite <- ln_1; apply ln_increasing; lra).
  split.
  - unfold Rpower. apply exp_increasing. nra.
  - rewrite <- (Rpower_1 sp) at 2 by lra. unfold Rpower. apply exp_increasing. nra.
Qed.
End One.

(** ** symmetric tables *)
Lemma tab2_mirror (v : variogram Rarith) nx dx ny dy sx sy t i j z :
  @FFTCovGrid2D Rarith v nx dx ny dy sx sy = Ok t -> (i < nx)%nat -> (j < ny)%nat ->
  (2 * i <> nx)%nat /\ (2 * j <> ny)%nat \/ txy v = 0 ->
  nth (mirror nx i + nx * mirror ny j) t z = nth (i + nx * j) t z.
Proof.
  intros E Hi Hj H. destruct (@c31_2d Rarith v nx dx ny dy sx sy) as (t' & E' & _ & G). rewrite E in E'. injection E' as <-.
  rewrite !G by (auto using mirror_lt). destruct H as [[H1 H2]|H]; [apply cov2_mirror|apply cov2_mirror_straight]; auto.
Qed.
Lemma tab3_mirror (v : variogram Rarith) nx dx ny dy nz dz sx sy sz t i j k z :
  @FFTCovGrid3D Rarith v nx dx ny dy nz dz sx sy sz = Ok t -> (i < nx)%nat -> (j < ny)%nat -> (k < nz)%nat ->
  (2 * i <> nx)%nat /\ (2 * j <> ny)%nat /\ (2 * k <> nz)%nat \/ txy v = 0 /\ txz v = 0 /\ tyz v = 0 ->
  nth (mirror nx i + nx * mirror ny j + nx * ny * mirror nz k) t z = nth (i + nx * j + nx * ny * k) t z.
Proof.
  intros E Hi Hj Hk H. destruct (@c31_3d Rarith v nx dx ny dy nz dz sx sy sz) as (t' & E' & _ & G). rewrite E in E'. injection E' as <-.
  rewrite !G by (auto using mirror_lt). destruct H as [(H1 & H2 & H3)|(H1 & H2 & H3)]; [apply cov3_mirror|apply cov3_mirror_straight]; auto.
Qed.
(** no cross terms without rotation *)
Lemma straight_terms s main perp depth pw v : @CreateVariogram Rarith s main perp depth 0 0 pw = Ok v -> txy v = 0 /\ txz v = 0 /\ tyz v = 0.
Proof.
  intros E. destruct (created_new _ _ _ _ _ _ _ _ E) as (t & pw' & -> & _). 
  assert (R0 : radians 0 = 0) by exact (Rmult_0_l _). rewrite R0. cbn. rewrite sin_0, cos_0. repeat split; ring.
Qed.

(** the half-size row of a rotated variogram *)
Lemma half_row : exists v t, @CreateVariogram Rarith "exponential" 2 1 1 45 0 1 = Ok v /\ @FFTCovGrid2D Rarith v 4 1 4 1 1 1 = Ok t /\
  nth (2 + 4 * 1) t 0 <> nth (2 + 4 * mirror 4 1) t 0.
Proof.
  destruct (@Create_total Rarith "exponential" 2 1 1 45 0 1) as (v & Ev & Tv); [cbn [is_ascii]; repeat split; apply Nat.ltb_lt; reflexivity|].
  assert (L : lookup_type "exponential" = Some EXPONENTIAL) by reflexivity. rewrite L in Tv. injection Tv as Tv.
  destruct (@c31_2d Rarith v 4 1 4 1 1 1) as (t & E & _ & H). exists v, t. split; [exact Ev|]. split; [exact E|].
  rewrite !H by (cbn; lia). unfold cov2_spec. destruct (FindSmoothingFactors v 1 1 (lit Rarith 1 0)) as [[? ?] ?].
  rewrite !(kernel_off 1) by lra. intros G. 
  destruct (created_corr _ _ _ _ _ _ _ _ Ev) as [_ C]; try lra.
  assert (V : var v = 1) by (destruct (created_new _ _ _ _ _ _ _ _ Ev) as (? & ? & -> & _); cbn; ring).
  rewrite V, !corr2_3, !C, Tv in G. cbn [corr_fun mul Rarith] in G. rewrite !Rmult_1_l in G. apply exp_inj in G.
  apply (Rmult_eq_reg_l (-3)) in G; [|lra]. unfold ndist in G. apply sqrt_inj in G; try apply sq3.
  assert (L2 : @lag Rarith 4 2 1 = -2) by (unfold lag; cbn; ring). assert (L1 : @lag Rarith 4 1 1 = 1) by (unfold lag; cbn; ring).
  assert (L3 : @lag Rarith 4 (mirror 4 1) 1 = -1) by (unfold lag; cbn; ring). rewrite L1, L2, L3 in G.
  assert (OM : or_main 2 1 = 1) by (unfold or_main; destruct (Rlt_dec 1 0); lra). rewrite OM in G.
  assert (R0 : radians 0 = 0) by exact (Rmult_0_l _). rewrite R0 in G.
  unfold dot, main_axis, perp_axis, third_axis in G. rewrite cos_0, sin_0 in G.
  assert (Cd : 0 < cos (radians 45)).
  { pose proof PI_bounds. pose proof Degree_bounds as D. apply cos_gt_0; unfold radians; generalize dependent (@Degree Rarith); intros; cbn in *; lra. }
  assert (Cs : 0 < sin (radians 45)).
  { pose proof PI_bounds. pose proof Degree_bounds as D. apply sin_gt_0; unfold radians; generalize dependent (@Degree Rarith); intros; cbn in *; lra. }
  revert G Cd Cs. generalize (cos (radians 45)) (sin (radians 45)). intros c s G Hc Hs. 
  assert (X : 0 < c * s) by nra. apply (f_equal (fun u => u * 4)) in G. field_simplify in G. nra.
Qed.

(** ** as stated *)
Lemma smoothing_le s main perp depth a d pw v : @CreateVariogram Rarith s main perp depth a d pw = Ok v ->
  0 < main -> perp <> 0 -> depth <> 0 -> 0 < pw ->
  forall nx dx ny dy nz dz sx sy sz, 0 < sx -> 0 < sy -> 0 < sz ->
  (forall t t1 i z, @FFTCovGrid1D Rarith v nx dx sx = Ok t -> @FFTCovGrid1D Rarith v nx dx 1 = Ok t1 -> (i < nx)%nat ->
     0 <= nth i t z <= nth i t1 z /\ (i = 0%nat -> nth i t z = nth i t1 z)) /\
  (forall t t1 i j z, @FFTCovGrid2D Rarith v nx dx ny dy sx sy = Ok t -> @FFTCovGrid2D Rarith v nx dx ny dy 1 1 = Ok t1 ->
     (i < nx)%nat -> (j < ny)%nat ->
     0 <= nth (i + nx * j) t z <= nth (i + nx * j) t1 z /\ (i = 0%nat -> j = 0%nat -> nth (i + nx * j) t z = nth (i + nx * j) t1 z)) /\
  (forall t t1 i j k z, @FFTCovGrid3D Rarith v nx dx ny dy nz dz sx sy sz = Ok t -> @FFTCovGrid3D Rarith v nx dx ny dy nz dz 1 1 1 = Ok t1 ->
     (i < nx)%nat -> (j < ny)%nat -> (k < nz)%nat ->
     0 <= nth (i + nx * j + nx * ny * k) t z <= nth (i + nx * j + nx * ny * k) t1 z /\
     (i = 0%nat -> j = 0%nat -> k = 0%nat -> nth (i + nx * j + nx * ny * k) t z = nth (i + nx * j + nx * ny * k) t1 z)).
Proof.
  intros E Hm Hp Hd Hw nx dx ny dy nz dz sx sy sz Hx Hy Hz. pose proof (created_sane _ _ _ _ _ _ _ _ E Hm Hp Hd Hw) as S.
  split; [|split]; intros.
  - exact (tab1_le v nx dx sx t t1 i z S Hx H H0 H1).
  - exact (tab2_le v nx dx ny dy sx sy t t1 i j z S Hx Hy H H0 H1 H2).
  - exact (tab3_le v nx dx ny dy nz dz sx sy sz t t1 i j k z S Hx Hy Hz H H0 H1 H2 H3).
Qed.
Lemma smoothing_one_range s main perp depth pw v : @CreateVariogram Rarith s main perp depth 0 0 pw = Ok v ->
  0 < main -> perp <> 0 -> depth <> 0 -> perp <= 1000 * main -> depth <= 1000 * main ->
  forall sp, 0 < sp < 99999 / 100000 -> forall sy sz nx dx ny dy nz dz i z, (i < nx)%nat -> (0 < ny)%nat -> (0 < nz)%nat ->
  (forall t t1, @FFTCovGrid1D Rarith v nx dx sp = Ok t -> @FFTCovGrid1D Rarith v nx dx 1 = Ok t1 ->
     @lag1 Rarith nx i dx = main -> nth i t z = sp * nth i t1 z) /\
  (forall t t1, @FFTCovGrid2D Rarith v nx dx ny dy sp sy = Ok t -> @FFTCovGrid2D Rarith v nx dx ny dy 1 1 = Ok t1 ->
     Rabs (@lag Rarith nx i dx) = main -> nth i t z = sp * nth i t1 z) /\
  (forall t t1, @FFTCovGrid3D Rarith v nx dx ny dy nz dz sp sy sz = Ok t -> @FFTCovGrid3D Rarith v nx dx ny dy nz dz 1 1 1 = Ok t1 ->
     Rabs (@lag Rarith nx i dx) = main -> nth i t z = sp * nth i t1 z).
Proof.
  intros E Hm Hp Hd Bp Bd sp Hs sy sz nx dx ny dy nz dz i z Hi Hny Hnz. split; [|split]; intros.
  - exact (one_range_1d s main perp depth pw v E Hm Hp Hd Bp Bd sp nx dx t t1 i z Hs H H0 Hi H1).
  - exact (one_range_2d s main perp depth pw v E Hm Hp Hd Bp Bd sp sy nx dx ny dy t t1 i z Hs Hny H H0 Hi H1).
  - exact (one_range_3d s main perp depth pw v E Hm Hp Hd Bp Bd sp sy sz nx dx ny dy nz dz t t1 i z Hs Hny Hnz H H0 Hi H1).
Qed.

(** a concrete case: isotropic exponential variogram of range 2, parameter 1/2, a 5 by 5 grid of spacing 2, one cell along y *)
Lemma one_range_y_case : exists v t t1, @CreateVariogram Rarith "exponential" 2 2 2 0 0 1 = Ok v /\
  @FFTCovGrid2D Rarith v 5 2 5 2 1 (1 / 2) = Ok t /\ @FFTCovGrid2D Rarith v 5 2 5 2 1 1 = Ok t1 /\
  @lag Rarith 5 1 2 = 2 /\ nth 5 t 0 < 1 / 2 * nth 5 t1 0.
Proof.
  destruct (@Create_total Rarith "exponential" 2 2 2 0 0 1) as (v & Ev & Tv); [cbn [is_ascii]; repeat split; apply Nat.ltb_lt; reflexivity|].
  assert (L : lookup_type "exponential" = Some EXPONENTIAL) by reflexivity. rewrite L in Tv. injection Tv as Tv.
  destruct (@c31_2d Rarith v 5 2 5 2 1 (1 / 2)) as (t & E & _ & _). destruct (@c31_2d Rarith v 5 2 5 2 1 1) as (t1 & E1 & _ & H1).
  assert (L1 : @lag Rarith 5 1 2 = 2) by (unfold lag; cbn; ring).
  assert (OM : or_main 2 2 = 2) by (unfold or_main; destruct (Rlt_dec 2 0); lra).
  exists v, t, t1. repeat (split; [assumption|]).
  destruct (one_range_y "exponential" 2 2 2 1 v Ev ltac:(lra) ltac:(lra) ltac:(lra) ltac:(lra) ltac:(lra)
              (1 / 2) 1 5 2 5 2 t t1 1 0 ltac:(lra) ltac:(lia) E E1 ltac:(lia)) as (f & F & B).
  { rewrite L1, OM. apply Rabs_right. lra. }
  change (5 * 1)%nat with 5%nat in F. rewrite F. apply Rmult_lt_compat_r; [|lra].
  specialize (H1 0%nat 1%nat 0 ltac:(lia) ltac:(lia)). change (0 + 5 * 1)%nat with 5%nat in H1. rewrite H1. unfold cov2_spec.
  destruct (FindSmoothingFactors v 1 1 (lit Rarith 1 0)) as [[? ?] ?]. rewrite !(kernel_off 1) by lra.
  destruct (created_corr _ _ _ _ _ _ _ _ Ev) as [_ C]; try lra.
  assert (V : var v = 1) by (destruct (created_new _ _ _ _ _ _ _ _ Ev) as (? & ? & -> & _); cbn; ring).
  rewrite V, corr2_3, C, Tv. cbn [corr_fun mul Rarith]. rewrite Rmult_1_l. apply exp_pos.
Qed.
