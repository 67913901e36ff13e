(** C81: the variance of 1D fields. *)
From Coq Require Import ZArith Bool String Lia Reals Lra Psatz List.
From Flocq Require Import Core.Raux.
From Verif Require Import Base Arith RealArith M_Variogram M_Padding M_CovGrid M_Fft M_Dsfmt M_Random M_Field M_Api S_Api S_Room S_Sizes S_CovGrid S_Vario S_Spectrum P_Base P_Cov P_Vario P_VarioNames P_VarioMore P_VarioKernel
  P_Bounds P_Overrun P_Padding P_Dft P_DftList P_DftField P_DftCov P_DftMain P_DftRound P_Convex P_Images P_Images2 P_DftProps.
Import ListNotations.
Open Scope R_scope.

Section U.
Variables (o : Z -> outcome Z) (cl : Z -> Z -> Z).
Notation L := (Rlib o cl).
Definition gaus : variogram L := @new_variogram Rarith GAUSSIAN (lit Rarith 0 0) (1 / 2) (18 / 5) (1 / 2) (radians 90) (radians 0) (lit Rarith 1 0).
Lemma gaus_created : @CreateVariogram Rarith "gaussian" (1 / 2) (18 / 5) (1 / 2) 90 0 1 = Ok gaus.
Proof.
  unfold CreateVariogram, gaus. change (Uppercase "gaussian") with (Ok "GAUSSIAN"%string). cbn [bind].
  assert (E : forall r : R, 0 <= r -> flt Rarith r (lit Rarith 0 0) = false).
  { intros r Hr. cbn. unfold Rltb. destruct (Rlt_dec r (0 / 1)); auto; lra. }
  rewrite !E by lra. reflexivity.
Qed.
Lemma gaus_size rec fuel t st : fst (step rec fuel t (CSize gaus (dims3 o cl 3 1 1)) st) = Ok (VSizes [4%Z]).
Proof.
  assert (X : exists N, fst (step rec fuel t (CSize gaus (dims3 o cl 3 1 1)) st) = Ok (VSizes [N])).
  { cbn [step fst]. destruct (args_dims3 o cl 3 1 1) as (dx & dy & dz & E & -> & -> & ->); try lia. rewrite E. cbn [bind].
    unfold FindGridSizeAfterPadding, FindNDimPadding. cbn [Z.leb Z.compare Pos.compare Pos.compare_cont].
    assert (X : exists p, @FindGaussianFieldPadding L gaus 3 (1 / 2) 1 = Ok p) by (apply (FGP_total gaus 3 (1 / 2) 1); try lra; try lia; try (cbn; lra)).
    destruct X as [p Ep].
    change (range_x gaus) with (1 / 2). rewrite Ep. cbn [bind omap]. eauto. }
  destruct X as [N E]. rewrite E. do 3 f_equal.
  assert (H : size_rule (GetMinimumRangeToGridRatio gaus) (range_used o cl gaus 1 0) (spacing o cl (dims3 o cl 3 1 1) 0) (cells (dims3 o cl 3 1 1) 0) N).
  { refine (size_exact o cl rec fuel t gaus (dims3 o cl 3 1 1) st [N] _ _ _ _ E 0%nat _); try (cbn; lra); try (cbn; lia).
    intros j Hj. cbn in Hj. assert (j = 0)%nat as -> by lia. cbn. split; [lra|lia]. }
  destruct H as [-> _]. change (cells (dims3 o cl 3 1 1) 0) with 3%Z.
  replace (range_used o cl gaus 1 0 / spacing o cl (dims3 o cl 3 1 1) 0) with (1 / 2) by (cbn; lra).
  replace (GetMinimumRangeToGridRatio gaus * range_used o cl gaus 1 0 / spacing o cl (dims3 o cl 3 1 1) 0 - IZR 3) with (667 / 200 - 3) by (cbn; lra).
  rewrite (Zfloor_imp 0) by (cbn; lra). rewrite Ztrunc_floor by lra. rewrite (Zfloor_imp 0) by (cbn; lra). reflexivity.
Qed.

Lemma cos90_small : Rabs (cos (radians 90)) <= 1 / 1000.
Proof.
  pose proof PI_bounds as P. pose proof Degree_bounds as D.
  assert (B : Rabs (PI / 2 - radians 90) <= 1 / 1000) by (unfold radians; generalize dependent (@Degree Rarith); intros; cbn in *; apply Rabs_le; lra).
  rewrite <- sin_shift. apply Rabs_le_inv in B. apply Rabs_le.
  destruct (Rle_dec 0 (PI / 2 - radians 90)) as [H|H].
  - assert (X : 0 <= sin (PI / 2 - radians 90)) by (apply sin_ge_0; lra).
    pose proof (Rle_or_lt (PI / 2 - radians 90) 0) as [Y|Y].
    + assert (Z0 : PI / 2 - radians 90 = 0) by lra. rewrite Z0, sin_0. lra.
    + pose proof (sin_lt_x _ Y). lra.
  - assert (Y : 0 < - (PI / 2 - radians 90)) by lra. pose proof (sin_lt_x _ Y) as Q. rewrite sin_neg in Q.
    assert (X : 0 <= sin (- (PI / 2 - radians 90))) by (apply sin_ge_0; lra). rewrite sin_neg in X. lra.
Qed.
(** the correlation at a lag x *)
Lemma gaus_corr : exists u, 77 / 1000 <= u <= 78 / 1000 /\ forall x, @GetCorr1 Rarith gaus x = exp (- 3 * (x ^ 2 * u)).
Proof.
  pose proof (corr1_lin _ _ _ _ _ _ _ _ gaus_created ltac:(lra) ltac:(lra) ltac:(lra) ltac:(lra)) as CL.
  pose proof cos90_small as C. apply Rabs_le_inv in C. pose proof (sc2 (radians 90)) as S.
  exists ((cos (radians 90) / (1 / 2)) ^ 2 + (sin (radians 90) / (18 / 5)) ^ 2).
  revert CL. rewrite radians_0. intros CL.
  assert (EM : forall r, 0 <= r -> or_main (1 / 2) r = r) by (intros r Hr; unfold or_main; destruct (Rlt_dec r 0); lra).
  split.
  - clear CL. revert C S. generalize (cos (radians 90)) (sin (radians 90)). intros c s C S. nra.
  - intros x. rewrite CL, !EM by lra. change (vt gaus) with GAUSSIAN. cbn [corr_fun]. f_equal. f_equal.
    unfold ndist, dot, main_axis, perp_axis, third_axis. rewrite cos_0, sin_0.
    rewrite Rpow_mult_distr, <- (Rsqr_pow2 (Rabs x)), <- Rsqr_abs, <- (Rsqr_pow2 (sqrt _)), Rsqr_sqrt, Rsqr_pow2; [field|].
    pose proof (pow2_ge_0 (cos (radians 90))). pose proof (pow2_ge_0 (sin (radians 90))). nra.
Qed.
Lemma exp_between t : 231 / 1000 <= t <= 234 / 1000 -> 78 / 100 <= exp (- t) <= 81 / 100.
Proof.
  intros H. assert (E : exp (- t) = exp (- t / 8) ^ 8) by (cbn [pow]; rewrite Rmult_1_r, <- !exp_plus; f_equal; field).
  assert (A : 1 - t / 8 <= exp (- t / 8)) by (pose proof (exp_ineq1_le (- t / 8)); lra).
  assert (B : exp (- t / 8) <= / (1 + t / 8)).
  { replace (- t / 8) with (- (t / 8)) by field. rewrite exp_Ropp. apply Rinv_le_contravar; [lra|apply exp_ineq1_le]. }
  rewrite E. split.
  - apply Rle_trans with ((9707 / 10000) ^ 8); [lra|]. apply pow_incr. lra.
  - assert (B' : / (1 + t / 8) <= 1 / (1 + 28 / 1000)) by (unfold Rdiv; rewrite Rmult_1_l; apply Rinv_le_contravar; lra).
    apply Rle_trans with ((1 / (1 + 28 / 1000)) ^ 8); [apply pow_incr; lra|lra].
Qed.

Lemma gaus_mass : 188 / 1000 <= mass1 4 (@cov1_spec Rarith gaus 4 1 1).
Proof.
  destruct gaus_corr as (u & Hu & U).
  assert (T : forall j m, (j < 4)%nat -> m = INR (Nat.min j (4 - j)) -> @cov1_spec Rarith gaus 4 1 1 j = exp (- 3 * (m ^ 2 * u))).
  { intros j m Hj ->. unfold cov1_spec. destruct (FindSmoothingFactors _ _ _ _) as [[? ?] ?]. rewrite kernel_off by lra.
    change (mul Rarith) with Rmult. rewrite (var_1 _ _ _ _ _ _ _ _ gaus_created), Rmult_1_l, U. f_equal. f_equal. f_equal. f_equal.
    unfold lag1. destruct j as [|[|[|[|]]]]; [..|lia]; cbn; lra. }
  set (c := @cov1_spec Rarith gaus 4 1 1) in *.
  assert (S2 : spectral1 4 c 2 <= - (188 / 1000)).
  { unfold spectral1. cbn [rsum]. rewrite (T 0%nat 0), (T 1%nat 1), (T 2%nat 2), (T 3%nat 1) by (lia || (cbn; lra)).
    unfold wave1. cbn [INR].
    replace (2 * PI * ((1 + 1) * 0 / (1 + 1 + 1 + 1))) with 0 by field. replace (2 * PI * ((1 + 1) * 1 / (1 + 1 + 1 + 1))) with PI by field.
    replace (2 * PI * ((1 + 1) * (1 + 1) / (1 + 1 + 1 + 1))) with (2 * PI) by field. replace (2 * PI * ((1 + 1) * (1 + 1 + 1) / (1 + 1 + 1 + 1))) with (PI + 2 * PI) by field.
    rewrite cos_0, cos_PI, cos_2PI, cos_plus, cos_PI, sin_PI, cos_2PI.
    replace (- 3 * (0 ^ 2 * u)) with 0 by ring. rewrite exp_0.
    pose proof (exp_between (3 * u) ltac:(lra)) as X. replace (- 3 * (1 ^ 2 * u)) with (- (3 * u)) by ring.
    assert (E4 : exp (- 3 * (2 ^ 2 * u)) = exp (- (3 * u)) ^ 4) by (cbn [pow]; rewrite !Rmult_1_r, <- !exp_plus; f_equal; ring). rewrite E4.
    revert X. generalize (exp (- (3 * u))). intros x X.
    assert (Q : 0 <= (x - 78 / 100) * (81 / 100 - x)) by (apply Rmult_le_pos; lra). nra. }
  unfold mass1. cbn [rsum]. set (s0 := spectral1 4 c 0). set (s1 := spectral1 4 c 1). set (s3 := spectral1 4 c 3).
  pose proof (Rmax_r (- s0) 0). pose proof (Rmax_r (- s1) 0). pose proof (Rmax_r (- s3) 0). pose proof (Rmax_l (- spectral1 4 c 2) 0). lra.
Qed.
End U.

Lemma c81_refuted (o : Z -> outcome Z) (cl : Z -> Z -> Z) : exists v : variogram (Rlib o cl), @CreateVariogram Rarith "gaussian" (1 / 2) (18 / 5) (1 / 2) 90 0 1 = Ok v /\
  (forall rec fuel t st, exists d : dims (Rlib o cl), d_nx d = 3%Z /\ d_dx d = 1 /\ fst (step rec fuel t (CSize v d) st) = Ok (VSizes [4%Z])) /\
  forall (W : Type) (E : (W -> R) -> R) (noise : W -> list R), expectation E -> white E 4 noise ->
  exists field : W -> list R, (forall w, @field1d (Rlib o cl) v 3 4 1 1 (noise w) = Ok (field w) /\ length (field w) = 3%nat) /\
    forall i, (i < 3)%nat -> 1 + 47 / 1000 <= E (fun w => nth i (field w) 0 * nth i (field w) 0).
Proof.
  exists (gaus o cl). split; [apply gaus_created|split].
  - intros. exists (dims3 o cl 3 1 1). split; [reflexivity|split; [reflexivity|apply gaus_size]].
  - intros W E noise HE HW.
    destruct (c29f_1 o cl (gaus o cl) _ _ _ _ _ _ _ (gaus_created o cl) ltac:(lra) ltac:(lra) ltac:(lra) ltac:(lra) 3 4 1 1 ltac:(lia) ltac:(lia) W E noise HE HW) as (field & F & V & _).
    exists field. split; [exact F|]. intros i Hi. destruct (V i Hi) as (-> & _). pose proof (gaus_mass o cl) as M. 
    replace (INR 4) with 4 by (cbn; lra). lra.
Qed.

Section V.
Variables (o : Z -> outcome Z) (cl : Z -> Z -> Z) (v : variogram (Rlib o cl)) (s : string) (main perp depth azi dp pw : R).
Hypothesis HC : @CreateVariogram Rarith s main perp depth azi dp pw = Ok v.
Hypotheses (Hm : 0 < main) (Hp : perp <> 0) (Hd : depth <> 0) (Hw : 0 < pw).
Lemma c81_convex nx n (dx sx : R) : (vt v = EXPONENTIAL \/ vt v = SPHERICAL \/ vt v = CONSTANT \/ vt v = GENERAL_EXPONENTIAL /\ pw <= 1) ->
  (0 < n)%nat -> (nx <= n)%nat -> 99999 / 100000 <= sx ->
  forall (W : Type) (E : (W -> R) -> R) (noise : W -> list R), expectation E -> white E n noise ->
  exists field : W -> list R, (forall w, @field1d (Rlib o cl) v nx n dx sx (noise w) = Ok (field w) /\ length (field w) = nx) /\
    forall i, (i < nx)%nat -> E (fun w => nth i (field w) 0 * nth i (field w) 0) = 1.
Proof.
  intros HT Hn Hx Hs W E noise HE HW.
  destruct (c29f_1 o cl v _ _ _ _ _ _ _ HC Hm Hp Hd Hw nx n dx sx Hn Hx W E noise HE HW) as (field & F & V & _).
  exists field. split; [exact F|]. intros i Hi. destruct (V i Hi) as (_ & _ & I). apply I. 
  apply (c27 _ _ _ _ _ _ _ _ HC Hm Hp Hd Hw); auto.
Qed.
End V.
