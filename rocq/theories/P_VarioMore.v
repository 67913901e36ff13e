(** Correlation of created variograms, rotation, smoothing kernel, setters. *)
From Coq Require Import ZArith QArith Qreals List Bool String Ascii Lia Reals Lra Psatz.
From Verif Require Import Base Arith RealArith M_Variogram M_Grid M_CovGrid S_CovGrid S_Vario P_Base P_Bounds P_RBounds P_QBounds P_Cov P_Vario P_VarioNames.
Import ListNotations.
Open Scope R_scope.

Lemma corr_fun_power t p p' : (t = GENERAL_EXPONENTIAL -> p = p') -> corr_fun t p = corr_fun t p'.
Proof. intros H. destruct t; try reflexivity. rewrite H; reflexivity. Qed.

Lemma or_main_nz main r : 0 < main -> r <> 0 -> 0 < or_main main r.
Proof. intros. unfold or_main. destruct (Rlt_dec r 0); lra. Qed.

(** corr of a created object *)
Lemma created_corr s main perp depth a d pw v : @CreateVariogram Rarith s main perp depth a d pw = Ok v ->
  0 < main -> perp <> 0 -> depth <> 0 -> 0 < pw ->
  vt v <> N_TYPES /\
  forall x y z, @GetCorr3 Rarith v x y z
    = corr_fun (vt v) pw (ndist main (or_main main perp) (or_main main depth) (radians a) (radians d) (x, y, z)).
Proof.
  intros E Hm Hp Hd Hw. destruct (created_new _ _ _ _ _ _ _ _ E) as (t & pw' & Ev & Hn & Hpw & Ht & _).
  split; [congruence|]. intros x y z. unfold GetCorr3. rewrite Corr1D_fun by apply sqrt_pos.
  rewrite Ev at 3. pose proof (or_main_nz main perp Hm Hp). pose proof (or_main_nz main depth Hm Hd).
  rewrite Distance3_ndist by lra. 
  rewrite (corr_fun_power (vt v) (vpower v) pw); auto. rewrite Ht. intros ->. rewrite <- (Hpw eq_refl), Ev. reflexivity.
Qed.

Lemma corr2_3 (v : variogram Rarith) x y : @GetCorr2 Rarith v x y = @GetCorr3 Rarith v x y 0.
Proof. unfold GetCorr2, GetCorr3. rewrite any_Distance2_3. reflexivity. Qed.
Lemma corr1_2 (v : variogram Rarith) x : @GetCorr1 Rarith v x = @GetCorr2 Rarith v x 0.
Proof. unfold GetCorr2, GetCorr1. rewrite any_Distance1_2. reflexivity. Qed.

Lemma c36_3d s main perp depth a d pw v : @CreateVariogram Rarith s main perp depth a d pw = Ok v ->
  0 < main -> perp <> 0 -> depth <> 0 -> 0 < pw ->
  @GetCorr3 Rarith v 0 0 0 = 1 /\
  (forall x y z, 0 <= @GetCorr3 Rarith v x y z <= 1) /\
  (forall x y z, @GetCorr3 Rarith v (- x) (- y) (- z) = @GetCorr3 Rarith v x y z) /\
  (forall k x y z, 1 <= k -> @GetCorr3 Rarith v (k * x) (k * y) (k * z) <= @GetCorr3 Rarith v x y z).
Proof.
  intros E Hm Hp Hd Hw. destruct (created_corr _ _ _ _ _ _ _ _ E Hm Hp Hd Hw) as [Hn H].
  pose proof (or_main_nz main perp Hm Hp) as Hp'. pose proof (or_main_nz main depth Hm Hd) as Hd'.
  set (nd := ndist main (or_main main perp) (or_main main depth) (radians a) (radians d)) in *.
  assert (S : forall k x y z, nd (k * x, k * y, k * z) = Rabs k * nd (x, y, z)).
  { intros. unfold nd. rewrite <- ndist_scale by lra. reflexivity. }
  assert (P : forall h, 0 <= nd h) by (intros; apply ndist_nonneg).
  assert (N : forall x y z : R, nd (- x, - y, - z) = nd (x, y, z)).
  { intros x y z. pose proof (S (-1) x y z) as Z. rewrite (Rabs_left (-1)) in Z by lra.
    replace (- x) with (-1 * x) by ring. replace (- y) with (-1 * y) by ring. replace (- z) with (-1 * z) by ring. rewrite Z. ring. }
  assert (M : forall k x y z : R, 1 <= k -> 0 <= nd (x, y, z) <= nd (k * x, k * y, k * z)).
  { intros k x y z Hk. rewrite S, Rabs_right by lra. specialize (P (x, y, z)). nra. }
  repeat split.
  - rewrite H. transitivity (corr_fun (vt v) pw 0); [f_equal|apply corr_fun_0; auto].
    pose proof (S 0 0 0 0) as Z. rewrite Rmult_0_l, Rabs_R0, Rmult_0_l in Z. auto.
  - rewrite H. apply corr_fun_nonneg, P.
  - rewrite H. apply corr_fun_le1; auto.
  - intros x y z. rewrite !H. f_equal. exact (N x y z).
  - intros k x y z Hk. rewrite !H. apply corr_fun_decr; [exact (M k x y z Hk)|exact Hw].
Qed.

(** along the axes *)
Lemma created_axes s main perp depth a d pw v : @CreateVariogram Rarith s main perp depth a d pw = Ok v ->
  0 < main -> perp <> 0 -> depth <> 0 -> 0 < pw ->
  (forall r h, h = scale r (main_axis (radians a) (radians d)) ->
     @GetCorr3 Rarith v (fst (fst h)) (snd (fst h)) (snd h) = corr_fun (vt v) pw (Rabs r / main)) /\
  (forall r h, h = scale r (perp_axis (radians a)) ->
     @GetCorr3 Rarith v (fst (fst h)) (snd (fst h)) (snd h) = corr_fun (vt v) pw (Rabs r / or_main main perp)) /\
  (forall r h, h = scale r (third_axis (radians a) (radians d)) ->
     @GetCorr3 Rarith v (fst (fst h)) (snd (fst h)) (snd h) = corr_fun (vt v) pw (Rabs r / or_main main depth)).
Proof.
  intros E Hm Hp Hd Hw. destruct (created_corr _ _ _ _ _ _ _ _ E Hm Hp Hd Hw) as [_ H].
  pose proof (or_main_nz main perp Hm Hp). pose proof (or_main_nz main depth Hm Hd).
  assert (P : forall h : R * R * R, (fst (fst h), snd (fst h), snd h) = h) by (intros ((x, y), z); reflexivity).
  split; [|split]; intros r h Hh; rewrite H, P, Hh; f_equal; [apply ndist_main|apply ndist_perp|apply ndist_third]; auto.
Qed.
Lemma created_one_range s main perp depth a d pw v : @CreateVariogram Rarith s main perp depth a d pw = Ok v ->
  0 < main -> perp <> 0 -> depth <> 0 -> 0 < pw ->
  forall x y z, ndist main (or_main main perp) (or_main main depth) (radians a) (radians d) (x, y, z) = 1 ->
  (vt v = SPHERICAL -> @GetCorr3 Rarith v x y z = 0) /\ (vt v = CONSTANT -> @GetCorr3 Rarith v x y z = 1) /\
  (vt v <> SPHERICAL -> vt v <> CONSTANT -> Rabs (@GetCorr3 Rarith v x y z - 5 / 100) < 1 / 1000).
Proof.
  intros E Hm Hp Hd Hw x y z H1. destruct (created_corr _ _ _ _ _ _ _ _ E Hm Hp Hd Hw) as [Hn H].
  assert (G : @GetCorr3 Rarith v x y z = corr_fun (vt v) pw 1) by (rewrite H; f_equal; exact H1). rewrite !G.
  split; [|split].
  - intros ->. exact (one_range SPHERICAL pw ltac:(discriminate)).
  - intros ->. reflexivity.
  - intros. apply at_one; auto.
Qed.

(** ** half turns *)
Lemma half_turn_2d t pw rx ry rz a d std x y :
  @GetCorr2 Rarith (@new_variogram Rarith t pw rx ry rz (a + PI) d std) x y = @GetCorr2 Rarith (@new_variogram Rarith t pw rx ry rz a d std) x y.
Proof.
  unfold GetCorr2, Corr1D, new_variogram, Distance2. cbn [EstimateFactors vt vpower range_x range_y range_z azimuth dip txx tyy txy fsin fcos Rarith].
  rewrite neg_cos, neg_sin.
  match goal with |- context [fsqrt ?A ?u] => match goal with |- context [fsqrt A ?w] => 
    lazymatch u with w => fail | _ => replace u with w by (cbn; ring) end end end.
  reflexivity.
Qed.
Lemma half_turn_flat t pw rx ry rz a std x y z :
  @GetCorr3 Rarith (@new_variogram Rarith t pw rx ry rz (a + PI) 0 std) x y z = @GetCorr3 Rarith (@new_variogram Rarith t pw rx ry rz a 0 std) x y z.
Proof.
  unfold GetCorr3, Corr1D, new_variogram, Distance3. cbn [EstimateFactors vt vpower range_x range_y range_z azimuth dip txx tyy txy txz tyz tzz fsin fcos Rarith].
  rewrite neg_cos, neg_sin, sin_0.
  match goal with |- context [fsqrt ?A ?u] => match goal with |- context [fsqrt A ?w] => 
    lazymatch u with w => fail | _ => replace u with w by (cbn; ring) end end end.
  reflexivity.
Qed.

(** in degrees *)
Lemma created_half_turn s main perp depth a a' d pw v v' : radians a' = radians a + PI ->
  @CreateVariogram Rarith s main perp depth a d pw = Ok v -> @CreateVariogram Rarith s main perp depth a' d pw = Ok v' ->
  (forall x y, @GetCorr2 Rarith v' x y = @GetCorr2 Rarith v x y) /\
  (d = 0 -> forall x y z, @GetCorr3 Rarith v' x y z = @GetCorr3 Rarith v x y z).
Proof.
  intros Ha. unfold CreateVariogram. destruct (Uppercase s) as [u| | |]; cbn [bind]; try discriminate.
  set (ry := if flt Rarith perp (lit Rarith 0 0) then main else perp). set (rz := if flt Rarith depth (lit Rarith 0 0) then main else depth).
  change (mul Rarith a Degree) with (radians a). change (mul Rarith a' Degree) with (radians a'). rewrite Ha.
  assert (E : forall t p, @Create Rarith t p main ry rz (radians a) (mul Rarith d Degree) (lit Rarith 1 0) = Ok v ->
    @Create Rarith t p main ry rz (radians a + PI) (mul Rarith d Degree) (lit Rarith 1 0) = Ok v' ->
    exists t' p', v = @new_variogram Rarith t' p' main ry rz (radians a) (mul Rarith d Degree) (lit Rarith 1 0) /\
                  v' = @new_variogram Rarith t' p' main ry rz (radians a + PI) (mul Rarith d Degree) (lit Rarith 1 0)).
  { intros t p. unfold Create. destruct t; try discriminate; intros [= <-] [= <-]; eexists _, _; split; reflexivity. }
  intros H H'. destruct (E _ _ H H') as (t & p & -> & ->). split.
  - intros. apply half_turn_2d.
  - intros ->. intros. assert (Z : mul Rarith 0 (@Degree Rarith) = 0) by exact (Rmult_0_l _). rewrite Z. apply half_turn_flat.
Qed.

(** with dip it is not so: azimuth 0 and 180, dip 45 *)
Lemma PI_gt : 8 / 3 <= PI.
Proof. pose proof (PI_ineq 0) as [H _]. unfold tg_alt, PI_tg in H. simpl in H. lra. Qed.

Lemma Degree_bounds : 1745 / 100000 < @Degree Rarith < 1746 / 100000.
Proof.
  unfold Degree. change (lit Rarith 1745329251994329576924 23) with (Q2R (1745329251994329576924 # 100000000000000000000000)).
  change (1745 / 100000) with (Q2R (1745 # 100000)). change (1746 / 100000) with (Q2R (1746 # 100000)).
  split; apply Qreals.Qlt_Rlt; reflexivity.
Qed.
Lemma half_turn_dip :
  exists v v' x z, @CreateVariogram Rarith "exponential" 2 1 1 0 45 1 = Ok v /\ @CreateVariogram Rarith "exponential" 2 1 1 180 45 1 = Ok v' /\
    @GetCorr3 Rarith v' x 0 z < @GetCorr3 Rarith v x 0 z.
Proof.
  destruct (@Create_total Rarith "exponential" 2 1 1 0 45 1) as (v & Ev & Tv); [cbn [is_ascii]; repeat split; apply Nat.ltb_lt; reflexivity|].
  destruct (@Create_total Rarith "exponential" 2 1 1 180 45 1) as (v' & Ev' & Tv'); [cbn [is_ascii]; repeat split; apply Nat.ltb_lt; reflexivity|].
  assert (L : lookup_type "exponential" = Some EXPONENTIAL) by reflexivity. rewrite L in Tv, Tv'. injection Tv as Tv. injection Tv' as Tv'.
  exists v, v', (cos (radians 45)), (sin (radians 45)). split; [exact Ev|]. split; [exact Ev'|].
  destruct (created_corr _ _ _ _ _ _ _ _ Ev) as [_ ->]; try lra. destruct (created_corr _ _ _ _ _ _ _ _ Ev') as [_ ->]; try lra.
  rewrite Tv, Tv'. cbn [corr_fun]. apply exp_increasing. 
  assert (OM : or_main 2 1 = 1) by (unfold or_main; destruct (Rlt_dec 1 0); lra). rewrite OM. clear OM.
  refine (Rmult_lt_gt_compat_neg_l (-3) _ _ ltac:(lra) _).
  unfold ndist. apply sqrt_lt_1_alt. split; [apply sq3|].
  assert (R0 : radians 0 = 0) by (unfold radians; ring). rewrite R0. unfold dot, main_axis, perp_axis, third_axis. rewrite cos_0, sin_0.
  assert (C : cos (radians 180) < 0).
  { pose proof PI_gt. pose proof PI_4. pose proof Degree_bounds as D. apply cos_lt_0; unfold radians; generalize dependent (@Degree Rarith); intros; cbn in *; lra. }
  assert (Cd : 0 < cos (radians 45)).
  { pose proof PI_gt. pose proof Degree_bounds as D. apply cos_gt_0; unfold radians; generalize dependent (@Degree Rarith); intros; cbn in *; lra. }
  assert (Cs : 0 < sin (radians 45)).
  { pose proof PI_gt. pose proof Degree_bounds as D. apply sin_gt_0; unfold radians; generalize dependent (@Degree Rarith); intros; cbn in *; lra. }
  pose proof (sc2 (radians 45)) as Sd. pose proof (sc2 (radians 180)) as Sa. pose proof (COS_bound (radians 180)) as B.
  revert C Cs Cd Sd Sa B. generalize (cos (radians 180)) (sin (radians 180)) (cos (radians 45)) (sin (radians 45)).
  intros c s c' s' C Cs Cd Sd Sa B.
  assert (Cp : 0 < c' ^ 2 < 1) by (split; [apply pow_lt; auto|pose proof (pow_lt s' 2 Cs); lra]).
  set (m := c * c' ^ 2 + (1 - c' ^ 2)).
  assert (Hm : -1 < m < 1) by (unfold m; nra).
  replace (((c' * 1 * c' + c' * 0 * 0 + s' * s') / 2) ^ 2 + ((- 0 * c' + 1 * 0 + 0 * s') / 1) ^ 2 + ((- (s' * 1) * c' + - (s' * 0) * 0 + c' * s') / 1) ^ 2)
    with (1 / 4) by (replace (c' * 1 * c' + c' * 0 * 0 + s' * s') with (c' ^ 2 + s' ^ 2) by ring; rewrite Sd; field).
  replace (((c' * c * c' + c' * s * 0 + s' * s') / 2) ^ 2 + ((- s * c' + c * 0 + 0 * s') / 1) ^ 2 + ((- (s' * c) * c' + - (s' * s) * 0 + c' * s') / 1) ^ 2)
    with (1 - 3 / 4 * m ^ 2).
  { nra. }
  replace (((c' * c * c' + c' * s * 0 + s' * s') / 2) ^ 2) with (m ^ 2 / 4).
  2:{ unfold m. replace (c' * c * c' + c' * s * 0 + s' * s') with (c * c' ^ 2 + s' ^ 2) by ring. rewrite Sd. field. }
  replace (((- s * c' + c * 0 + 0 * s') / 1) ^ 2) with (s ^ 2 * c' ^ 2) by field.
  replace (((- (s' * c) * c' + - (s' * s) * 0 + c' * s') / 1) ^ 2) with (s' ^ 2 * c' ^ 2 * (1 - c) ^ 2) by field.
  rewrite Sd, Sa. unfold m. field.
Qed.

(** ** setters *)
Section Setters.
Context {A : Arith}.
Definition fresh (v : variogram A) : Prop :=
  exists std, v = new_variogram (vt v) (vpower v) (range_x v) (range_y v) (range_z v) (azimuth v) (dip v) std.
Lemma fresh_new t p x y z a d s : fresh (new_variogram t p x y z a d s).
Proof. exists s. reflexivity. Qed.
Lemma fresh_step v o : fresh v -> fresh (object v o).
Proof.
  intros [std E]. unfold object. 
  assert (EF : forall rx ry rz a d va s, va = mul A s s -> fresh (EstimateFactors (set_params v rx ry rz a d va))).
  { intros. subst va. exists s. reflexivity. }
  assert (V : var v = mul A std std) by (rewrite E; reflexivity).
  destruct o; cbn [set1]; unfold SetAngles, RotateAngles, SetStdDev, SetRanges, LimitRangeX, LimitRangeY, LimitRangeZ, SetRangeX, SetRangeY, SetRangeZ;
    repeat match goal with |- context [if ?b then _ else _] => destruct b end; try (eapply EF; eassumption); try (exists std; exact E).
  exists s. rewrite E. reflexivity.
Qed.
Lemma fresh_history os v : fresh v -> fresh (fold_left object os v).
Proof. revert v. induction os; cbn [fold_left]; auto. intros. apply IHos, fresh_step. auto. Qed.

(** each setter sets what it names *)
Lemma set_effect v o v' : set1 v o = Ok v' ->
  vt v' = vt v /\ vpower v' = vpower v /\
  match o with
  | OAngles a d => (range_x v', range_y v', range_z v', azimuth v', dip v', var v') = (range_x v, range_y v, range_z v, a, d, var v)
  | ORotate a d => (range_x v', range_y v', range_z v', azimuth v', dip v', var v')
                   = (range_x v, range_y v, range_z v, add A (azimuth v) a, add A (dip v) d, var v)
  | OStd s => (range_x v', range_y v', range_z v', azimuth v', dip v', var v') = (range_x v, range_y v, range_z v, azimuth v, dip v, mul A s s)
  | ORanges x y z => (range_x v', range_y v', range_z v', azimuth v', dip v', var v') = (x, y, z, azimuth v, dip v, var v)
  | OX r => (range_x v', range_y v', range_z v', azimuth v', dip v', var v') = (r, range_y v, range_z v, azimuth v, dip v, var v)
  | OY r => (range_x v', range_y v', range_z v', azimuth v', dip v', var v') = (range_x v, r, range_z v, azimuth v, dip v, var v)
  | OZ r => (range_x v', range_y v', range_z v', azimuth v', dip v', var v') = (range_x v, range_y v, r, azimuth v, dip v, var v)
  | OLimX l => (range_x v', range_y v', range_z v', azimuth v', dip v', var v')
               = ((if flt A l (range_x v) then l else range_x v), range_y v, range_z v, azimuth v, dip v, var v)
  | OLimY l => (range_x v', range_y v', range_z v', azimuth v', dip v', var v')
               = (range_x v, (if flt A l (range_y v) then l else range_y v), range_z v, azimuth v, dip v, var v)
  | OLimZ l => (range_x v', range_y v', range_z v', azimuth v', dip v', var v')
               = (range_x v, range_y v, (if flt A l (range_z v) then l else range_z v), azimuth v, dip v, var v)
  end.
Proof.
  destruct o; cbn [set1]; unfold SetAngles, RotateAngles, SetStdDev, SetRanges, LimitRangeX, LimitRangeY, LimitRangeZ, SetRangeX, SetRangeY, SetRangeZ, fgt;
    repeat match goal with |- context [if ?b then _ else _] => destruct b end; intros [= <-]; repeat split; reflexivity.
Qed.
(** and throws exactly for a range or limit to be set that is not positive *)
Lemma set_throws v o : set1 v o = Throw NegativeRange <->
  match o with
  | ORanges x y z => (fle A x (lit A 0 0) || fle A y (lit A 0 0) || fle A z (lit A 0 0))%bool = true
  | OX r | OY r | OZ r => fle A r (lit A 0 0) = true
  | OLimX l => flt A l (range_x v) = true /\ fle A l (lit A 0 0) = true
  | OLimY l => flt A l (range_y v) = true /\ fle A l (lit A 0 0) = true
  | OLimZ l => flt A l (range_z v) = true /\ fle A l (lit A 0 0) = true
  | _ => False
  end.
Proof.
  destruct o; cbn [set1]; unfold SetAngles, RotateAngles, SetStdDev, SetRanges, LimitRangeX, LimitRangeY, LimitRangeZ, SetRangeX, SetRangeY, SetRangeZ, fgt;
    repeat match goal with |- context [if ?b then _ else _] => destruct b end; intuition (try discriminate; try congruence).
Qed.
Lemma set_total (v : variogram A) (o : setter A) : set1 v o = Throw NegativeRange \/ exists v', set1 v o = Ok v'.
Proof.
  destruct o; cbn [set1]; unfold SetAngles, RotateAngles, SetStdDev, SetRanges, LimitRangeX, LimitRangeY, LimitRangeZ, SetRangeX, SetRangeY, SetRangeZ, fgt;
    repeat match goal with |- context [if ?b then _ else _] => destruct b end; eauto.
Qed.
End Setters.
