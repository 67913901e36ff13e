(** Changing the unit of length changes nothing. *)
From Coq Require Import ZArith Bool List String Lia Reals Lra Psatz.
From Verif Require Import Base Arith M_Variogram M_Padding M_FftSize M_Grid M_CovGrid M_Dsfmt M_Random M_Field M_Api RealArith S_Api S_CovGrid S_Sizes S_Vario S_Special P_Base P_Bounds P_Vario.
Import ListNotations.
Open Scope R_scope.
Ltac reqn := match goal with |- ?a = ?b => change (@eq R a b) end.

Section U.
Variable k : R.
Hypothesis Hk : 0 < k.

Lemma lt_scale x : Rltb (k * x) 0 = Rltb x 0.
Proof. unfold Rltb. destruct (Rlt_dec (k * x) 0), (Rlt_dec x 0); auto; nra. Qed.
Lemma max_scale (x y : R) : @fmax Rarith (k * x) (k * y) = k * @fmax Rarith x y.
Proof. unfold fmax. cbn. unfold Rltb. destruct (Rlt_dec (k * x) (k * y)), (Rlt_dec x y); auto; nra. Qed.
Lemma inv_k2 x : 1 / (k * x * (k * x)) = / (k * k) * (1 / (x * x)).
Proof. unfold Rdiv. rewrite !Rinv_mult. ring. Qed.

(** the same variogram with ranges times k *)
Definition stretched (v v' : variogram Rarith) : Prop :=
  exists t p rx ry rz az dp sd, v = @new_variogram Rarith t p rx ry rz az dp sd /\ v' = @new_variogram Rarith t p (k * rx) (k * ry) (k * rz) az dp sd.
Lemma stretch_main main r : k * (if flt Rarith r (lit Rarith 0 0) then main else r) = (if flt Rarith (k * r) (lit Rarith 0 0) then k * main else k * r).
Proof. cbn. replace (0 / 1) with 0 by field. rewrite lt_scale. destruct (Rltb r 0); reflexivity. Qed.
Lemma created_stretched s main perp depth a d pw v v' : @CreateVariogram Rarith s main perp depth a d pw = Ok v ->
  @CreateVariogram Rarith s (k * main) (k * perp) (k * depth) a d pw = Ok v' -> stretched v v'.
Proof.
  unfold CreateVariogram. rewrite <- !stretch_main. destruct (Uppercase s) as [u| | |]; cbn [bind]; try discriminate.
  unfold Create. destruct (type_of_name u); try discriminate; intros [= <-] [= <-]; unfold stretched; do 8 eexists; split; reflexivity.
Qed.
Section V.
Variables v v' : variogram Rarith.
Hypothesis HV : stretched v v'.

Lemma kk (x : R) : k * x * (k * x) = k * k * (x * x).
Proof. ring. Qed.
Lemma dist3_scale x y z : @Distance3 Rarith v' (k * x) (k * y) (k * z) = @Distance3 Rarith v x y z.
Proof.
  destruct HV as (t & p & rx & ry & rz & az & dp & sd & -> & ->). unfold Distance3, new_variogram, EstimateFactors. cbn -[IZR]. f_equal.
  replace (1 / 1) with 1 by field. rewrite !inv_k2.
  set (f1 := 1 / (rx * rx)). set (f2 := 1 / (ry * ry)). set (f3 := 1 / (rz * rz)). reqn. field. lra.
Qed.
Lemma dist2_scale x y : @Distance2 Rarith v' (k * x) (k * y) = @Distance2 Rarith v x y.
Proof. rewrite !any_Distance2_3, <- dist3_scale. do 2 f_equal. reqn. ring. Qed.
Lemma dist1_scale x : @Distance1 Rarith v' (k * x) = @Distance1 Rarith v x.
Proof. rewrite !any_Distance1_2, <- dist2_scale. f_equal. reqn. ring. Qed.
Lemma corr_same x : @Corr1D Rarith v' x = @Corr1D Rarith v x.
Proof. destruct HV as (t & p & rx & ry & rz & az & dp & sd & -> & ->). reflexivity. Qed.
Lemma var_same : var v' = var v.
Proof. destruct HV as (t & p & rx & ry & rz & az & dp & sd & -> & ->). reflexivity. Qed.

(** smoothing *)
Lemma Rpow_scale s e q : Rpow (Rpow s (/ (k * k) * e)) (k * k * q) = Rpow (Rpow s e) q.
Proof.
  assert (K : 0 < k * k) by nra. assert (KI : 0 < / (k * k)) by (apply Rinv_0_lt_compat; auto).
  destruct (Rlt_dec 0 s) as [H|H].
  - assert (E : forall y, Rpow s y = Rpower s y) by (intros; unfold Rpow; destruct (Rlt_dec 0 s); [reflexivity|contradiction]).
    rewrite !E. assert (E' : forall x y, Rpow (Rpower s x) y = Rpower s (x * y)).
    { intros. unfold Rpow. destruct (Rlt_dec 0 (Rpower s x)) as [_|X]; [apply Rpower_mult|exfalso; apply X, exp_pos]. }
    rewrite !E'. f_equal. field. lra.
  - assert (E : forall y, Rpow s y = if Req_EM_T y 0 then 1 else 0) by (intros; unfold Rpow; destruct (Rlt_dec 0 s); [contradiction|reflexivity]).
    rewrite !E. assert (X : (if Req_EM_T (/ (k * k) * e) 0 then 1 else 0) = (if Req_EM_T e 0 then 1 else 0)).
    { destruct (Req_EM_T (/ (k * k) * e) 0) as [X|X], (Req_EM_T e 0) as [Y|Y]; auto; [|exfalso; apply X; rewrite Y; ring].
      exfalso. apply Y. apply Rmult_integral in X as [X|X]; [lra|auto]. }
    rewrite X. destruct (Req_EM_T e 0).
    + unfold Rpow. destruct (Rlt_dec 0 1); [|lra]. unfold Rpower. rewrite ln_1, !Rmult_0_r. reflexivity.
    + unfold Rpow. destruct (Rlt_dec 0 0); [lra|]. destruct (Req_EM_T (k * k * q) 0) as [Y|Y], (Req_EM_T q 0) as [Z|Z]; auto; [|exfalso; apply Y; rewrite Z; ring].
      exfalso. apply Z. apply Rmult_integral in Y as [Y|Y]; [lra|auto].
Qed.
Lemma abs_scale x : Rabs (k * x) = k * Rabs x.
Proof. rewrite Rabs_mult, (Rabs_right k) by lra. reflexivity. Qed.
Lemma ranges_scale : @FindVariogramRanges Rarith v' = let '(x, y, z) := @FindVariogramRanges Rarith v in (k * x, k * y, k * z).
Proof.
  destruct HV as (t & p & rx & ry & rz & az & dp & sd & -> & ->). unfold FindVariogramRanges.
  cbn [new_variogram EstimateFactors azimuth dip range_x range_y range_z fabs fcos fsin mul add div lit Rarith].
  rewrite !Rmult_assoc, !abs_scale, !max_scale. do 2 f_equal.
  assert (Z : forall x : R, @fmax Rarith (k * x) (0 / IZR (10 ^ 0)) = k * @fmax Rarith x (0 / IZR (10 ^ 0))).
  { intros x. rewrite <- max_scale. f_equal. unfold Rdiv. reqn. ring. }
  rewrite Z, max_scale. reflexivity.
Qed.
Lemma kernel_scale param r dd c : @kernel Rarith param (Rpow param (1 / 1 / (k * r * (k * r)))) (k * dd) c = @kernel Rarith param (Rpow param (1 / 1 / (r * r))) dd c.
Proof.
  unfold kernel. destruct (flt _ _ _); auto. cbn. reqn. f_equal. replace (1 / 1) with 1 by field. rewrite inv_k2, kk. apply Rpow_scale.
Qed.

Lemma lag_scale n i (d : R) : @lag Rarith n i (k * d) = k * @lag Rarith n i d.
Proof. unfold lag. cbn. reqn. ring. Qed.
Lemma lag1_scale n i (d : R) : @lag1 Rarith n i (k * d) = k * @lag1 Rarith n i d.
Proof. unfold lag1. destruct (2 * i <? n)%nat; cbn; reqn; ring. Qed.

Lemma cov1_scale n dx sx i : @cov1_spec Rarith v' n (k * dx) sx i = @cov1_spec Rarith v n dx sx i.
Proof.
  unfold cov1_spec, FindSmoothingFactors. rewrite ranges_scale. destruct (FindVariogramRanges v) as [[rx ry] rz]. cbn [fpow div mul lit Rarith].
  rewrite lag1_scale. rewrite kernel_scale. unfold GetCorr1. rewrite corr_same, var_same, dist1_scale. reflexivity.
Qed.
Lemma cov2_scale nx ny dx dy sx sy i j : @cov2_spec Rarith v' nx (k * dx) ny (k * dy) sx sy i j = @cov2_spec Rarith v nx dx ny dy sx sy i j.
Proof.
  unfold cov2_spec, FindSmoothingFactors. rewrite ranges_scale. destruct (FindVariogramRanges v) as [[rx ry] rz]. cbn [fpow div mul lit Rarith].
  rewrite !lag_scale. rewrite !kernel_scale. unfold GetCorr2. rewrite corr_same, var_same, dist2_scale. reflexivity.
Qed.
Lemma cov3_scale nx ny nz dx dy dz sx sy sz i j l :
  @cov3_spec Rarith v' nx (k * dx) ny (k * dy) nz (k * dz) sx sy sz i j l = @cov3_spec Rarith v nx dx ny dy nz dz sx sy sz i j l.
Proof.
  unfold cov3_spec, FindSmoothingFactors. rewrite ranges_scale. destruct (FindVariogramRanges v) as [[rx ry] rz]. cbn [fpow div mul lit Rarith].
  rewrite !lag_scale. rewrite !kernel_scale. unfold GetCorr3. rewrite corr_same, var_same, dist3_scale. reflexivity.
Qed.
Lemma table1 n dx sx : @FFTCovGrid1D Rarith v' n (k * dx) sx = @FFTCovGrid1D Rarith v n dx sx.
Proof. rewrite !cov1_ok. f_equal. apply map_ext. intros. apply cov1_scale. Qed.
Lemma table2 nx ny dx dy sx sy : @FFTCovGrid2D Rarith v' nx (k * dx) ny (k * dy) sx sy = @FFTCovGrid2D Rarith v nx dx ny dy sx sy.
Proof. rewrite !cov2_ok. f_equal. apply map_ext. intros q. destruct (GetIJ nx ny q). apply cov2_scale. Qed.
Lemma table3 nx ny nz dx dy dz sx sy sz : @FFTCovGrid3D Rarith v' nx (k * dx) ny (k * dy) nz (k * dz) sx sy sz = @FFTCovGrid3D Rarith v nx dx ny dy nz dz sx sy sz.
Proof. rewrite !cov3_ok. f_equal. apply map_ext. intros q. destruct (GetIJK nx ny q) as [[? ?] ?]. apply cov3_scale. Qed.

(** padding *)
Lemma pad_scale n r dx : @FindGaussianFieldPadding Rarith v' n (k * r) (k * dx) = @FindGaussianFieldPadding Rarith v n r dx.
Proof.
  assert (E : @GetMinimumRangeToGridRatio Rarith v' = @GetMinimumRangeToGridRatio Rarith v) by (destruct HV as (t & p & rx & ry & rz & az & dp & sd & -> & ->); reflexivity).
  unfold FindGaussianFieldPadding. rewrite E. set (g := GetMinimumRangeToGridRatio v).
  assert (E0 : forall x : R, k * x / (k * dx) = x / dx).
  { intros x. unfold Rdiv. rewrite Rinv_mult. replace (k * x * (/ k * / dx)) with (x * / dx * (k * / k)) by ring. rewrite Rinv_r by lra. ring. }
  assert (E1 : mul Rarith g (k * r) / (k * dx) = mul Rarith g r / dx) by (rewrite <- E0; f_equal; cbn; reqn; ring).
  assert (E2 : (k * r) / (k * dx) = r / dx) by apply E0.
  cbn [div sub Rarith]. rewrite E1, E2. reflexivity.
Qed.
Lemma padding_scale nx dx ny dy nz dz dy' dz' : (ny <= 1)%Z \/ dy' = k * dy -> (ny <= 1)%Z \/ (nz <= 1)%Z \/ dz' = k * dz ->
  @FindNDimPadding Rarith v' nx (k * dx) ny dy' nz dz' = @FindNDimPadding Rarith v nx dx ny dy nz dz.
Proof.
  intros Hy Hz. unfold FindNDimPadding.
  assert (E : range_x v' = k * range_x v /\ range_y v' = k * range_y v /\ range_z v' = k * range_z v /\ azimuth v' = azimuth v)
    by (destruct HV as (t & p & rx & ry & rz & az & dp & sd & -> & ->); repeat split).
  destruct E as (-> & -> & -> & ->). destruct (Z.leb_spec ny 1).
  - rewrite pad_scale. reflexivity.
  - destruct Hy as [Hy| ->]; [lia|]. rewrite max_scale. set (rx := fmax (range_x v) (range_y v)).
    assert (ER : (if feq Rarith (azimuth v) (lit Rarith 0 0) then k * range_y v else k * rx) = k * (if feq Rarith (azimuth v) (lit Rarith 0 0) then range_y v else rx)) by (destruct (feq _ _ _); reflexivity).
    cbn [Rarith num] in ER |- *. rewrite ER. destruct (Z.leb_spec nz 1).
    + rewrite !pad_scale. reflexivity.
    + destruct Hz as [Hz|[Hz| ->]]; [lia|lia|]. rewrite !pad_scale. reflexivity.
Qed.

(** simulations *)
Variables (o : Z -> outcome Z) (cl : Z -> Z -> Z) (rec : recursion) (fuel : nat).
Notation L := (Rlib o cl).
Lemma sim1_scale nx dx padx sx st : @Simulate1D L rec fuel v' nx (k * dx) padx sx st = @Simulate1D L rec fuel v nx dx padx sx st.
Proof.
  unfold Simulate1D, sizes1, field1d. pose proof (padding_scale nx dx 1 (lit Rarith (-1) 0) 1 (lit Rarith (-1) 0) (lit Rarith (-1) 0) (lit Rarith (-1) 0)) as P.
  cbn [arith Rlib] in *. rewrite P by (left; lia). destruct (bind (FindNDimPadding v nx dx 1 _ 1 _) _) as [z| | |]; cbn [bind]; auto.
  destruct (narrow z) as [m| | |]; cbn [bind]; auto. rewrite table1. reflexivity.
Qed.
Lemma sim2_scale nx dx ny dy padx pady sx sy st : @Simulate2D L rec fuel v' nx (k * dx) ny (k * dy) padx pady sx sy st = @Simulate2D L rec fuel v nx dx ny dy padx pady sx sy st.
Proof.
  unfold Simulate2D, sizes2, field2d. pose proof (padding_scale nx dx ny dy 1 (lit Rarith (-1) 0) (k * dy) (lit Rarith (-1) 0)) as P.
  cbn [arith Rlib] in *. rewrite P by (try (right; left; lia); right; reflexivity). destruct (bind (FindNDimPadding v nx dx ny dy 1 _) _) as [[z z']| | |]; cbn [bind]; auto.
  destruct (narrow z) as [m| | |]; cbn [bind]; auto. destruct (narrow z') as [m'| | |]; cbn [bind]; auto. rewrite table2. reflexivity.
Qed.
Lemma sim3_scale nx dx ny dy nz dz padx pady padz sx sy sz st : @Simulate3D L rec fuel v' nx (k * dx) ny (k * dy) nz (k * dz) padx pady padz sx sy sz st = @Simulate3D L rec fuel v nx dx ny dy nz dz padx pady padz sx sy sz st.
Proof.
  unfold Simulate3D, sizes3, field3d. pose proof (padding_scale nx dx ny dy nz dz (k * dy) (k * dz)) as P.
  cbn [arith Rlib] in *. rewrite P by (try (right; right; reflexivity); right; reflexivity). destruct (bind (FindNDimPadding v nx dx ny dy nz dz) _) as [[[z z'] z'']| | |]; cbn [bind]; auto.
  destruct (narrow z) as [m| | |]; cbn [bind]; auto. destruct (narrow z') as [m'| | |]; cbn [bind]; auto. destruct (narrow z'') as [m''| | |]; cbn [bind]; auto. rewrite table3. reflexivity.
Qed.
Lemma lt0_scale (x : option R) : flt L (opt (option_map (Rmult k) x) (lit L (-1) 0)) (lit L 0 0) = flt L (opt x (lit L (-1) 0)) (lit L 0 0).
Proof. destruct x; [|reflexivity]. cbn [option_map opt]. cbn. replace (0 / 1) with 0 by field. apply lt_scale. Qed.
Lemma any_scale nx dx ny dy nz dz padx pady padz sx sy sz st :
  @SimulateAny L rec fuel v' nx (k * dx) ny (opt (option_map (Rmult k) dy) (lit L (-1) 0)) nz (opt (option_map (Rmult k) dz) (lit L (-1) 0)) padx pady padz sx sy sz st
  = @SimulateAny L rec fuel v nx dx ny (opt dy (lit L (-1) 0)) nz (opt dz (lit L (-1) 0)) padx pady padz sx sy sz st.
Proof.
  unfold SimulateAny. assert (N : flt L (lit L (-1) 0) (lit L 0 0) = true) by (cbn; unfold Rltb; destruct (Rlt_dec (-1 / 1) (0 / 1)); [reflexivity|lra]).
  unfold dimension. pose proof (lt0_scale dy) as Y. pose proof (lt0_scale dz) as Z. 
  destruct (flt L (opt dy (lit L (-1) 0)) (lit L 0 0)) eqn:EY; rewrite Y.
  { rewrite orb_true_r. apply sim1_scale. }
  destruct dy as [y|]; [|cbn [opt] in EY; congruence]. cbn [option_map opt].
  destruct (ny <=? 1)%Z; cbn [orb]; [apply sim1_scale|].
  destruct (flt L (opt dz (lit L (-1) 0)) (lit L 0 0)) eqn:EZ; rewrite Z.
  { rewrite orb_true_r. apply sim2_scale. }
  destruct dz as [z|]; [|cbn [opt] in EZ; congruence]. cbn [option_map opt].
  destruct (nz <=? 1)%Z; cbn [orb]; [apply sim2_scale|apply sim3_scale].
Qed.
Lemma advanced_scale t (d : dims L) (a : adv L) st : step rec fuel t (CAdvanced (v' : variogram L) (scale_dims k d) a) st = step rec fuel t (CAdvanced (v : variogram L) d a) st.
Proof.
  unfold step, args. cbn [scale_dims d_nx d_dx d_ny d_dy d_nz d_dz]. destruct (as_size (d_nx d)); cbn [bind]; auto.
  destruct (as_size (opt (d_ny d) 1%Z)); cbn [bind]; auto. destruct (as_size (opt (d_nz d) 1%Z)); cbn [bind]; auto.
  destruct (adv_args a) as [[[[[[px py] pz] sx] sy] sz]| | |]; auto. unfold do_simulate. rewrite any_scale. reflexivity.
Qed.
Lemma simulate_scale t (d : dims L) st : step rec fuel t (CSimulate (v' : variogram L) (scale_dims k d)) st = step rec fuel t (CSimulate (v : variogram L) d) st.
Proof.
  unfold step, args. cbn [scale_dims d_nx d_dx d_ny d_dy d_nz d_dz]. destruct (as_size (d_nx d)); cbn [bind]; auto.
  destruct (as_size (opt (d_ny d) 1%Z)); cbn [bind]; auto. destruct (as_size (opt (d_nz d) 1%Z)); cbn [bind]; auto.
  unfold do_simulate. rewrite any_scale. reflexivity.
Qed.
Lemma size_scale t (d : dims L) st : spaced d -> step rec fuel t (CSize (v' : variogram L) (scale_dims k d)) st = step rec fuel t (CSize (v : variogram L) d) st.
Proof.
  intros [HY HZ]. unfold step, args. cbn [scale_dims d_nx d_dx d_ny d_dy d_nz d_dz].
  unfold as_size. destruct (fits_size (d_nx d)); cbn [bind]; auto.
  destruct (fits_size (opt (d_ny d) 1%Z)); cbn [bind]; auto. destruct (fits_size (opt (d_nz d) 1%Z)); cbn [bind]; auto.
  f_equal. unfold FindGridSizeAfterPadding.
  match goal with |- context [@FindNDimPadding ?A v' ?a ?b ?c ?d' ?e ?f] => assert (P : @FindNDimPadding A v' a b c d' e f = @FindNDimPadding A v (d_nx d) (d_dx d) (opt (d_ny d) 1%Z) (opt (d_dy d) (lit A (-1) 0)) (opt (d_nz d) 1%Z) (opt (d_dz d) (lit A (-1) 0))) end.
  2: { rewrite P. reflexivity. }
  apply padding_scale.
  - destruct HY as [H|H]; [left; exact H|right]. destruct (d_dy d); [reflexivity|contradiction].
  - right. destruct HZ as [H|H]; [left; exact H|right]. destruct (d_dz d); [reflexivity|contradiction].
Qed.
Lemma corr3_scale x y z : @GetCorr3 Rarith v' (k * x) (k * y) (k * z) = @GetCorr3 Rarith v x y z.
Proof. unfold GetCorr3. rewrite dist3_scale. apply corr_same. Qed.
End V.
End U.

Lemma sign_opt k (main : R) (r : option R) : 0 < k ->
  k * (if flt Rarith (opt r (lit Rarith (-1) 0)) (lit Rarith 0 0) then main else opt r (lit Rarith (-1) 0))
  = (if flt Rarith (opt (option_map (Rmult k) r) (lit Rarith (-1) 0)) (lit Rarith 0 0) then k * main else opt (option_map (Rmult k) r) (lit Rarith (-1) 0)).
Proof.
  intros Hk. destruct r as [r|]; cbn [option_map opt].
  - apply (stretch_main k Hk main r).
  - cbn. replace (-1 / 1) with (-1) by field. replace (0 / 1) with 0 by field. unfold Rltb.
    destruct (Rlt_dec (-1) 0); [reflexivity|lra].
Qed.
Lemma vario_stretched (o : Z -> outcome Z) (cl : Z -> Z -> Z) k s main perp depth azi dp pw (v v' : variogram (Rlib o cl)) rec fuel t st : 0 < k ->
  let c : call (Rlib o cl) := @CVariogram (Rlib o cl) s main perp depth azi dp pw in
  fst (step rec fuel t c st) = Ok (@VVariogram (Rlib o cl) v) -> fst (step rec fuel t (scale_call k c) st) = Ok (@VVariogram (Rlib o cl) v') -> stretched k v v'.
Proof.
  intros Hk c. unfold c. cbn [step scale_call fst]. unfold CreateVariogram, omap. destruct (Uppercase s) as [u| | |]; cbn [bind]; try discriminate.
  change (lit (Rlib o cl)) with (lit Rarith). change (flt (Rlib o cl)) with (flt Rarith).
  match goal with |- ?A -> ?B -> _ => intros H1 H2 end.
  pose proof (sign_opt k main perp Hk) as E1. pose proof (sign_opt k main depth Hk) as E2.
  match type of H2 with context [@Create _ _ _ _ ?b ?c' _ _ _] => change (Rlib o cl) with (Rlib o cl) in H2; replace b with (k * (if flt Rarith (opt perp (lit Rarith (-1) 0)) (lit Rarith 0 0) then main else opt perp (lit Rarith (-1) 0))) in H2;
    replace c' with (k * (if flt Rarith (opt depth (lit Rarith (-1) 0)) (lit Rarith 0 0) then main else opt depth (lit Rarith (-1) 0))) in H2 end.
  unfold Create in *. destruct (type_of_name u); try discriminate; injection H1 as <-; injection H2 as <-; unfold stretched; do 8 eexists; split; reflexivity.
Qed.
