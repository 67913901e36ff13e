(** The smoothing kernel and the symmetry of the covariance tables. *)
From Coq Require Import ZArith QArith Qreals List Bool String Ascii Lia Reals Lra Psatz.
From Verif Require Import Base Arith RealArith M_Variogram M_Grid M_CovGrid S_CovGrid S_Vario P_Base P_Bounds P_RBounds P_QBounds P_Cov P_Vario P_VarioNames P_VarioMore.
Import ListNotations.
Open Scope R_scope.

(** ** pi *)
Lemma PI_bounds : 31415 / 10000 < PI < 31416 / 10000.
Proof.
  pose proof (PI_2_3_7_ineq 3) as [L U]. unfold tg_alt, PI_2_3_7_tg, Ratan_seq in L, U. simpl in L, U. split; lra.
Qed.
Definition qt : R := 157 / 100.
Lemma cos_qt : 0 < cos qt < 8 / 10000.
Proof.
  pose proof PI_bounds. unfold qt. rewrite cos_sin. replace (PI / 2 + 157 / 100) with (PI - (PI / 2 - 157 / 100)) by field.
  rewrite sin_PI_x. split; [apply sin_gt_0; lra|]. apply Rlt_trans with (PI / 2 - 157 / 100); [apply sin_lt_x; lra|lra].
Qed.
Lemma sin_qt : 0 < sin qt < 1 /\ 1 - 64 / 100000000 < sin qt ^ 2 < 1.
Proof.
  pose proof PI_bounds. pose proof cos_qt as C. pose proof (sc2 qt) as S.
  assert (P : 0 < sin qt) by (apply sin_gt_0; unfold qt; lra).
  assert (C2 : 0 < cos qt ^ 2 < 64 / 100000000) by nra. split; [|lra]. split; auto. nra.
Qed.

Lemma fmax_R (a b : R) : @fmax Rarith a b = Rmax a b.
Proof. unfold fmax. cbn. unfold Rltb, Rmax. destruct (Rlt_dec a b), (Rle_dec a b); auto; lra. Qed.

Lemma ranges_R t pw rx ry rz a d std :
  @FindVariogramRanges Rarith (@new_variogram Rarith t pw rx ry rz a d std) =
  (Rmax (Rmax (Rabs (rx * cos d * cos a)) (Rabs (ry * cos (a + qt)))) (Rabs (rz * cos (d + qt) * cos a)),
   Rmax (Rmax (Rabs (rx * cos d * sin a)) (Rabs (ry * sin (a + qt)))) (Rabs (rz * cos (d + qt) * sin a)),
   Rmax (Rmax (Rabs (rx * sin d)) 0) (Rabs (rz * sin (d + qt)))).
Proof.
  unfold FindVariogramRanges. rewrite !fmax_R. cbn [new_variogram EstimateFactors azimuth dip range_x range_y range_z].
  assert (E : div Rarith (lit Rarith 314 2) (lit Rarith 2 0) = qt) by (unfold qt; cbn; field). rewrite E.
  assert (Z : lit Rarith 0 0 = 0) by (cbn; field). rewrite Z. reflexivity.
Qed.

Lemma Rmax_pos_l a b : 0 < a -> 0 < Rmax a b.
Proof. intros. apply Rlt_le_trans with a; auto. apply Rmax_l. Qed.
Lemma Rmax_pos_r a b : 0 < b -> 0 < Rmax a b.
Proof. intros. apply Rlt_le_trans with b; auto. apply Rmax_r. Qed.
Lemma mult_nz a b : a <> 0 -> b <> 0 -> a * b <> 0.
Proof. intros. apply Rmult_integral_contrapositive_currified; auto. Qed.
Lemma sc_nz a : sin a = 0 -> cos a <> 0.
Proof. intros H E. pose proof (sc2 a) as S. rewrite H, E in S. lra. Qed.

Lemma ranges_pos t pw rx ry rz a d std x y z : 0 < rx -> 0 < ry -> 0 < rz ->
  @FindVariogramRanges Rarith (@new_variogram Rarith t pw rx ry rz a d std) = (x, y, z) -> 0 < x /\ 0 < y /\ 0 < z.
Proof.
  intros Hx Hy Hz. rewrite ranges_R. intros [= <- <- <-]. destruct sin_qt as [Sq _].
  assert (SQ : sin qt <> 0) by lra.
  repeat split.
  - destruct (Req_dec (cos a) 0) as [Ca|Ca].
    + apply Rmax_pos_l, Rmax_pos_r, Rabs_pos_lt, mult_nz; [lra|]. rewrite cos_plus, Ca. intros E.
      assert (sin a * sin qt <> 0) by (apply mult_nz; auto; intros F; exact (sc_nz a F Ca)). lra.
    + destruct (Req_dec (cos d) 0) as [Cd|Cd].
      * apply Rmax_pos_r, Rabs_pos_lt, mult_nz; auto. apply mult_nz; [lra|]. rewrite cos_plus, Cd. intros E.
        assert (sin d * sin qt <> 0) by (apply mult_nz; auto; intros F; exact (sc_nz d F Cd)). lra.
      * apply Rmax_pos_l, Rmax_pos_l, Rabs_pos_lt, mult_nz; auto. apply mult_nz; lra.
  - destruct (Req_dec (sin a) 0) as [Ca|Ca].
    + apply Rmax_pos_l, Rmax_pos_r, Rabs_pos_lt, mult_nz; [lra|]. rewrite sin_plus, Ca. intros E.
      assert (cos a * sin qt <> 0) by (apply mult_nz; auto; exact (sc_nz a Ca)). lra.
    + destruct (Req_dec (cos d) 0) as [Cd|Cd].
      * apply Rmax_pos_r, Rabs_pos_lt, mult_nz; auto. apply mult_nz; [lra|]. rewrite cos_plus, Cd. intros E.
        assert (sin d * sin qt <> 0) by (apply mult_nz; auto; intros F; exact (sc_nz d F Cd)). lra.
      * apply Rmax_pos_l, Rmax_pos_l, Rabs_pos_lt, mult_nz; auto. apply mult_nz; lra.
  - destruct (Req_dec (sin d) 0) as [Cd|Cd].
    + apply Rmax_pos_r, Rabs_pos_lt, mult_nz; [lra|]. rewrite sin_plus, Cd. intros E.
      assert (cos d * sin qt <> 0) by (apply mult_nz; auto; exact (sc_nz d Cd)). lra.
    + apply Rmax_pos_l, Rmax_pos_l, Rabs_pos_lt, mult_nz; auto. lra.
Qed.

(** the ranges the code finds for variograms along the axes *)
Lemma ranges_straight t pw rx ry rz std : 0 < rx -> 0 < ry <= 1000 * rx -> 0 < rz <= 1000 * rx ->
  @FindVariogramRanges Rarith (@new_variogram Rarith t pw rx ry rz 0 0 std) = (rx, ry * sin qt, rz * sin qt).
Proof.
  intros Hx Hy Hz. rewrite ranges_R, !Rplus_0_l, cos_0, sin_0, !Rmult_1_r, !Rmult_0_r, Rabs_R0.
  destruct sin_qt as [Sq _]. pose proof cos_qt as C.
  rewrite (Rabs_right rx), (Rabs_right (ry * cos qt)), (Rabs_right (rz * cos qt)), (Rabs_right (ry * sin qt)), (Rabs_right (rz * sin qt)) by nra.
  f_equal; [f_equal|].
  - rewrite (Rmax_left rx) by nra. apply Rmax_left. nra.
  - rewrite (Rmax_right 0) by nra. apply Rmax_left. nra.
  - rewrite (Rmax_left 0) by lra. apply Rmax_right. nra.
Qed.

(** ** powers *)
Lemma Rpow_pos x y : 0 < x -> Rpow x y = Rpower x y.
Proof. intros. unfold Rpow. destruct (Rlt_dec 0 x); lra. Qed.
Lemma Rpower_le_1 s y : 0 < s <= 1 -> 0 <= y -> 0 < Rpower s y <= 1.
Proof.
  intros [H0 H1] Hy. split; [apply exp_pos|]. unfold Rpower. rewrite <- exp_0. apply exp_le_mono.
  assert (ln s <= 0); [|nra]. rewrite <- ln_1. destruct H1 as [H1| ->]; [left; apply ln_increasing; auto|lra].
Qed.
(** the factor for a lag *)
Lemma factor s r dd : 0 < s -> Rpow (Rpow s (1 / (r * r))) (dd * dd) = Rpower s (1 / (r * r) * (dd * dd)).
Proof. intros H. rewrite (Rpow_pos s) by auto. rewrite Rpow_pos by apply exp_pos. apply Rpower_mult. Qed.
Lemma factor_range s r : 0 < s -> r <> 0 -> Rpow (Rpow s (1 / (r * r))) (r * r) = s.
Proof. intros H Hr. rewrite factor by auto. replace (1 / (r * r) * (r * r)) with 1 by (field; auto). apply Rpower_1. auto. Qed.

(** the kernel with parameter [s] *)
Lemma kernel_on s b dd c : s < 99999 / 100000 -> @kernel Rarith s b dd c = c * Rpow b (dd * dd).
Proof. intros H. unfold kernel. cbn. unfold Rltb. destruct (Rlt_dec s (99999 / 100000)); [reflexivity|lra]. Qed.
Lemma kernel_off s b dd c : 99999 / 100000 <= s -> @kernel Rarith s b dd c = c.
Proof. intros H. unfold kernel. cbn. unfold Rltb. destruct (Rlt_dec s (99999 / 100000)); [lra|reflexivity]. Qed.
Lemma kernel_le s r dd c : 0 < s -> r <> 0 -> 0 <= c -> 0 <= @kernel Rarith s (Rpow s (1 / (r * r))) dd c <= c.
Proof.
  intros Hs Hr Hc. destruct (Rlt_or_le s (99999 / 100000)) as [H|H]; [|rewrite kernel_off by auto; lra].
  rewrite kernel_on by auto. rewrite factor by auto.
  assert (P : 0 < Rpower s (1 / (r * r) * (dd * dd)) <= 1).
  { apply Rpower_le_1; [lra|]. assert (0 < r * r) by nra. assert (0 <= dd * dd) by nra. 
    apply Rmult_le_pos; auto. unfold Rdiv. rewrite Rmult_1_l. left. apply Rinv_0_lt_compat. auto. }
  nra.
Qed.
Lemma lit1 : lit Rarith 1 0 = 1.
Proof. cbn. field. Qed.

(** ** symmetry of the 1D table, whatever the arithmetic *)
Lemma lag1_mirror (A : Arith) (Hc : forall a b : num A, mul A a b = mul A b a) n i (d : num A) : (0 < i < n)%nat -> lag1 n (n - i) d = lag1 n i d.
Proof.
  intros H. unfold lag1. destruct (Nat.ltb_spec (2 * i) n), (Nat.ltb_spec (2 * (n - i)) n); try lia.
  - rewrite Hc. do 2 f_equal. lia.
  - rewrite Hc. do 2 f_equal. lia.
  - do 2 f_equal. lia.
Qed.
Lemma table1_mirror (A : Arith) (Hc : forall a b : num A, mul A a b = mul A b a) (v : variogram A) nx dx s t i z :
  FFTCovGrid1D v nx dx s = Ok t -> (0 < i < nx)%nat -> nth (nx - i) t z = nth i t z.
Proof.
  intros E Hi. destruct (c31_1d v nx dx s) as (t' & E' & _ & H). rewrite E in E'. injection E' as <-.
  rewrite !H by lia. unfold cov1_spec. rewrite lag1_mirror by auto. reflexivity.
Qed.

(** ** symmetry of the 2D and 3D tables *)
Lemma wrapped_mirror n i : (i < n)%nat -> (2 * i <> n)%nat -> wrapped n (mirror n i) = (- wrapped n i)%Z.
Proof.
  intros H H2. unfold mirror. destruct i.
  - rewrite Nat.sub_0_r, Nat.mod_same by lia. unfold wrapped. destruct (Nat.ltb_spec (2 * 0) n); lia.
  - rewrite Nat.mod_small by lia. unfold wrapped. destruct (Nat.ltb_spec (2 * S i) n), (Nat.ltb_spec (2 * (n - S i)) n); lia.
Qed.
Lemma lag_mirror n i (d : R) : (i < n)%nat -> (2 * i <> n)%nat -> @lag Rarith n (mirror n i) d = - @lag Rarith n i d.
Proof. intros. unfold lag. rewrite wrapped_mirror by auto. cbn. rewrite opp_IZR. ring. Qed.
Lemma kernel_even s b dd c : @kernel Rarith s b (- dd) c = @kernel Rarith s b dd c.
Proof. unfold kernel. destruct (flt Rarith s (lit Rarith 99999 5)); auto. cbn. replace (- dd * - dd) with (dd * dd) by ring. reflexivity. Qed.
Lemma corr2_even (v : variogram Rarith) x y : @GetCorr2 Rarith v (- x) (- y) = @GetCorr2 Rarith v x y.
Proof. unfold GetCorr2. f_equal. unfold Distance2. cbn. f_equal. ring. Qed.
Lemma corr3_even (v : variogram Rarith) x y z : @GetCorr3 Rarith v (- x) (- y) (- z) = @GetCorr3 Rarith v x y z.
Proof. unfold GetCorr3. f_equal. unfold Distance3. cbn. f_equal. ring. Qed.
Lemma corr1_even (v : variogram Rarith) x : @GetCorr1 Rarith v (- x) = @GetCorr1 Rarith v x.
Proof. unfold GetCorr1. f_equal. unfold Distance1. cbn. f_equal. ring. Qed.

Lemma mirror_lt n i : (i < n)%nat -> (mirror n i < n)%nat.
Proof. intros. apply Nat.mod_upper_bound. lia. Qed.

Lemma cov2_mirror (v : variogram Rarith) nx dx ny dy sx sy i j : (i < nx)%nat -> (j < ny)%nat -> (2 * i <> nx)%nat -> (2 * j <> ny)%nat ->
  @cov2_spec Rarith v nx dx ny dy sx sy (mirror nx i) (mirror ny j) = @cov2_spec Rarith v nx dx ny dy sx sy i j.
Proof.
  intros. unfold cov2_spec. destruct (FindSmoothingFactors v sx sy (lit Rarith 1 0)) as [[bx b_] ?].
  rewrite !lag_mirror by auto. rewrite !kernel_even, corr2_even. reflexivity.
Qed.
Lemma cov3_mirror (v : variogram Rarith) nx dx ny dy nz dz sx sy sz i j k : (i < nx)%nat -> (j < ny)%nat -> (k < nz)%nat ->
  (2 * i <> nx)%nat -> (2 * j <> ny)%nat -> (2 * k <> nz)%nat ->
  @cov3_spec Rarith v nx dx ny dy nz dz sx sy sz (mirror nx i) (mirror ny j) (mirror nz k) = @cov3_spec Rarith v nx dx ny dy nz dz sx sy sz i j k.
Proof.
  intros. unfold cov3_spec. destruct (FindSmoothingFactors v sx sy sz) as [[bx b_] ?].
  rewrite !lag_mirror by auto. rewrite !kernel_even, corr3_even. reflexivity.
Qed.
(** the half-size row: lag -n/2 stands for n/2 too *)
Lemma wrapped_half n i : (i < n)%nat -> (2 * i)%nat = n -> mirror n i = i.
Proof. intros. unfold mirror. rewrite Nat.mod_small by lia. lia. Qed.
(** without rotation all cells are symmetric *)
Lemma Rabs_lag_mirror n i (d : R) : (i < n)%nat -> @lag Rarith n (mirror n i) d * @lag Rarith n (mirror n i) d = @lag Rarith n i d * @lag Rarith n i d.
Proof.
  intros H. destruct (Nat.eq_dec (2 * i) n) as [E|E]; [rewrite wrapped_half by auto; reflexivity|].
  rewrite lag_mirror by auto. ring.
Qed.
Lemma kernel_sq s b x y c : x * x = y * y -> @kernel Rarith s b x c = @kernel Rarith s b y c.
Proof. intros H. unfold kernel. destruct (flt Rarith s (lit Rarith 99999 5)); auto. cbn. rewrite H. reflexivity. Qed.
Lemma corr2_sq (v : variogram Rarith) x y x' y' : txy v = 0 -> x * x = x' * x' -> y * y = y' * y' -> @GetCorr2 Rarith v x y = @GetCorr2 Rarith v x' y'.
Proof. intros H Hx Hy. unfold GetCorr2. f_equal. unfold Distance2. cbn in *. rewrite H, !Rmult_assoc, Hx, Hy. f_equal. ring. Qed.
Lemma corr3_sq (v : variogram Rarith) x y z x' y' z' : txy v = 0 -> txz v = 0 -> tyz v = 0 ->
  x * x = x' * x' -> y * y = y' * y' -> z * z = z' * z' -> @GetCorr3 Rarith v x y z = @GetCorr3 Rarith v x' y' z'.
Proof. intros H1 H2 H3 Hx Hy Hz. unfold GetCorr3. f_equal. unfold Distance3. cbn in *. rewrite H1, H2, H3, !Rmult_assoc, Hx, Hy, Hz. f_equal. ring. Qed.
Lemma cov2_mirror_straight (v : variogram Rarith) nx dx ny dy sx sy i j : txy v = 0 -> (i < nx)%nat -> (j < ny)%nat ->
  @cov2_spec Rarith v nx dx ny dy sx sy (mirror nx i) (mirror ny j) = @cov2_spec Rarith v nx dx ny dy sx sy i j.
Proof.
  intros H Hi Hj. unfold cov2_spec. destruct (FindSmoothingFactors v sx sy (lit Rarith 1 0)) as [[bx b_] ?].
  rewrite (corr2_sq v _ _ _ _ H (Rabs_lag_mirror nx i dx Hi) (Rabs_lag_mirror ny j dy Hj)).
  rewrite (kernel_sq _ _ _ _ _ (Rabs_lag_mirror nx i dx Hi)), (kernel_sq _ _ _ _ _ (Rabs_lag_mirror ny j dy Hj)). reflexivity.
Qed.
Lemma cov3_mirror_straight (v : variogram Rarith) nx dx ny dy nz dz sx sy sz i j k : txy v = 0 -> txz v = 0 -> tyz v = 0 ->
  (i < nx)%nat -> (j < ny)%nat -> (k < nz)%nat ->
  @cov3_spec Rarith v nx dx ny dy nz dz sx sy sz (mirror nx i) (mirror ny j) (mirror nz k) = @cov3_spec Rarith v nx dx ny dy nz dz sx sy sz i j k.
Proof.
  intros H1 H2 H3 Hi Hj Hk. unfold cov3_spec. destruct (FindSmoothingFactors v sx sy sz) as [[bx b_] ?].
  rewrite (corr3_sq v _ _ _ _ _ _ H1 H2 H3 (Rabs_lag_mirror nx i dx Hi) (Rabs_lag_mirror ny j dy Hj) (Rabs_lag_mirror nz k dz Hk)).
  rewrite (kernel_sq _ _ _ _ _ (Rabs_lag_mirror nx i dx Hi)), (kernel_sq _ _ _ _ _ (Rabs_lag_mirror ny j dy Hj)), (kernel_sq _ _ _ _ _ (Rabs_lag_mirror nz k dz Hk)).
  reflexivity.
Qed.
