(** Correlations in double precision: by name, and an example library. *)
From Coq Require Import ZArith Bool Lia Reals Lra String List.
From Flocq Require Import Core IEEE754.BinarySingleNaN.
From Verif Require Import Base Arith RealArith FloatArith M_Variogram S_Vario S_Random S_Normal P_Cov P_Vario P_VarioNames P_VarioMore P_Special2 P_NormF S_CorrF P_CorrF P_CorrF2 P_CorrF3 P_CorrF4 P_CorrF5 P_CorrF6.
Import ListNotations.
Open Scope R_scope.

Lemma c74_spherical (m : libm) (v : variogram (Farith m)) (x y z : b64) : vt v = SPHERICAL ->
  in_unit (@GetCorr1 (Farith m) v x) /\ in_unit (@GetCorr2 (Farith m) v x y) /\ in_unit (@GetCorr3 (Farith m) v x y z).
Proof. intros T. split; [|split]; apply spherical_any; exact T. Qed.

Section Names.
Variable m : libm.
Notation F := (Farith m).
Lemma type_named s (main perp depth azi dp power : b64) v n t : @CreateVariogram F s main perp depth azi dp power = Ok v -> In (n, t) documented -> lower s = n -> vt v = t.
Proof.
  intros HC Hin Hl. assert (Ha : is_ascii s).
  { destruct (is_ascii_dec s) as [H|H]; [exact H|]. rewrite (names_bad s (main : num F) perp depth azi dp power H) in HC. discriminate HC. }
  destruct (names_documented s n t (main : num F) perp depth azi dp power Hin Hl Ha) as (v' & E & Ht). rewrite HC in E.
  apply (f_equal (fun o => match o with Ok w => w | _ => v end)) in E. cbn beta iota in E. rewrite E. exact Ht.
Qed.
Lemma c74_names : fair m ->
  forall (s : string) (main perp depth azi dp power x : b64) v, @CreateVariogram F s main perp depth azi dp power = Ok v ->
  In (lower s) ["constant"; "exponential"; "spherical"; "gaussian"; "general_exponential"]%string ->
  usual_range main -> range_arg perp -> range_arg depth -> is_finite azi = true -> is_finite dp = true -> Bltb zero64 power = true ->
  is_finite x = true -> in_unit (@GetCorr1 F v x).
Proof.
  intros ok s main perp depth azi dp power x v H N M P D A I W X.
  apply (c74_1d m ok s main perp depth azi dp power x v H M P D A I W); [|exact X].
  cbn [In] in N. destruct N as [N|[N|[N|[N|[N|[]]]]]]; symmetry in N.
  - rewrite (type_named s main perp depth azi dp power v "constant" CONSTANT H); [reflexivity|cbn; tauto|exact N].
  - rewrite (type_named s main perp depth azi dp power v "exponential" EXPONENTIAL H); [reflexivity|cbn; tauto|exact N].
  - rewrite (type_named s main perp depth azi dp power v "spherical" SPHERICAL H); [reflexivity|cbn; tauto|exact N].
  - rewrite (type_named s main perp depth azi dp power v "gaussian" GAUSSIAN H); [reflexivity|cbn; tauto|exact N].
  - rewrite (type_named s main perp depth azi dp power v "general_exponential" GENERAL_EXPONENTIAL H); [reflexivity|cbn; tauto|exact N].
Qed.
Lemma c76_names : fair m -> exp_monotone m ->
  forall (s : string) (main perp depth azi dp power x y : b64) v, @CreateVariogram F s main perp depth azi dp power = Ok v ->
  In (lower s) ["constant"; "exponential"; "gaussian"]%string ->
  usual_range main -> range_arg perp -> range_arg depth -> is_finite azi = true -> is_finite dp = true ->
  is_finite x = true -> is_finite y = true -> le64 zero64 x -> le64 x y ->
  le64 (@GetCorr1 F v y) (@GetCorr1 F v x).
Proof.
  intros ok mono s main perp depth azi dp power x y v H N M P D A I X Y L0 L1.
  apply (c76 m ok mono s main perp depth azi dp power x y v H M P D A I); auto.
  cbn [In] in N. destruct N as [N|[N|[N|[]]]]; symmetry in N.
  - rewrite (type_named s main perp depth azi dp power v "constant" CONSTANT H); [reflexivity|cbn; tauto|exact N].
  - rewrite (type_named s main perp depth azi dp power v "exponential" EXPONENTIAL H); [reflexivity|cbn; tauto|exact N].
  - rewrite (type_named s main perp depth azi dp power v "gaussian" GAUSSIAN H); [reflexivity|cbn; tauto|exact N].
Qed.
Lemma c75_tiny : trig_rounded m -> exists v,
  @CreateVariogram F "spherical" (Fof 1 (-600)) (Flit (-1) 0) (Flit (-1) 0) (Flit 0 0) (Flit 0 0) (Flit 15 1) = Ok v /\
  Bltb zero64 (Fof 1 (-600)) = true /\ @GetCorr1 F v (Flit 0 0) = Flit 0 0.
Proof.
  intros T. unfold CreateVariogram. rewrite d0.
  assert (N1 : flt F (Flit (-1) 0) (lit F 0 0) = true) by (vm_compute; reflexivity). rewrite N1.
  eexists. split; [reflexivity|]. split; [vm_compute; reflexivity|].
  unfold GetCorr1, Distance1, Corr1D, new_variogram, EstimateFactors. cbn [vt txx azimuth dip range_x range_y range_z].
  change (fsin F) with (lm_sin m). change (fcos F) with (lm_cos m).
  rewrite (cos0 m T). destruct (sin0 m T) as [s ->]. destruct s; apply B2SF_inj; vm_compute; reflexivity.
Qed.
Lemma c77_nan : trig_rounded m -> forall s, is_ascii s -> exists v,
  @CreateVariogram F s (Flit 1000000000 0) (Flit 3 0) (Flit (-1) 0) (Flit 45 0) (Flit 0 0) (Flit 15 1) = Ok v /\
  @GetCorr2 F v (Flit 3 0) (Flit 3 0) = Corr1D v B754_nan.
Proof. intros T s Hs. destruct (nan_45 m T s Hs) as (v & E & D). exists v. split; [exact E|]. unfold GetCorr2. rewrite D. reflexivity. Qed.
Lemma c77 : trig_rounded m -> exists (v : variogram F) (w : variogram Rarith),
  @CreateVariogram F "spherical" (Flit 1000000000 0) (Flit 3 0) (Flit (-1) 0) (Flit 45 0) (Flit 0 0) (Flit 15 1) = Ok v /\
  @CreateVariogram Rarith "spherical" 1000000000 3 (-1) 45 0 (15 / 10) = Ok w /\
  B2R (@GetCorr2 F v (Flit 3 0) (Flit 3 0)) = 0 /\ 999 / 1000 <= @GetCorr2 Rarith w 3 3.
Proof.
  intros T. assert (A : is_ascii "spherical") by (cbn; repeat (split; [apply Nat.ltb_lt; reflexivity|]); exact Logic.I).
  destruct (c77_nan T "spherical" A) as (v & E & D).
  destruct (Create_total (A := Rarith) "spherical" 1000000000 3 (-1) 45 0 (15 / 10) A) as (w & W & _).
  exists v, w. split; [exact E|]. split; [exact W|]. split; [|apply (exact_45 "spherical"); [reflexivity|exact W]].
  rewrite D. rewrite (nan_spherical m v B754_nan); [apply l0| |reflexivity].
  apply (type_named "spherical" _ _ _ _ _ _ v "spherical" SPHERICAL E); [cbn; tauto|reflexivity].
Qed.
End Names.

(** ** a library that rounds correctly *)
Definition near (r : R) : b64 := Fof (ZnearestE (scaled_mantissa radix2 (SpecFloat.fexp 53 1024) r)) (cexp radix2 (SpecFloat.fexp 53 1024) r).
Lemma near_val lo hi r : fmt lo -> fmt hi -> lo <= r <= hi -> - big <= lo -> hi <= big -> exactly (near r) (rnd r).
Proof.
  intros A B C L U. pose proof (binary_normalize_correct 53 1024 Hprec Hmax mode_NE (ZnearestE (scaled_mantissa radix2 (SpecFloat.fexp 53 1024) r)) (cexp radix2 (SpecFloat.fexp 53 1024) r) false) as Q.
  cbv zeta in Q. change (F2R _) with (rnd r) in Q.
  rewrite (rnd_id (rnd r)) in Q by (apply generic_format_round; [apply fexp_correct; exact Hprec|apply valid_rnd_round_mode]).
  rewrite (no_over lo hi r A B C L U) in Q. destruct Q as [E [F _]]. split; [exact F|exact E].
Qed.
Definition ex_exp (x : b64) : b64 :=
  match x with
  | B754_infinity true => zero64 | B754_infinity false => B754_infinity false | B754_nan => B754_nan
  | _ => near (Rmin (exp (B2R x)) (bpow radix2 900))
  end.
Definition ex_lib : libm := mkLibm ex_exp (fun x => x) (fun x => near (sin (B2R x))) (fun x => near (cos (B2R x)))
  (fun x y => match x with B754_zero s => B754_zero false | B754_finite _ _ _ _ => near (Rmin (Rpow (B2R x) (B2R y)) (bpow radix2 1000)) | _ => x end).
Lemma big1 : 1 <= bpow radix2 900 <= big. Proof. split; [change 1 with (bpow radix2 0)|]; apply bpow_le; lia. Qed.
Lemma fmt900 : fmt (bpow radix2 900). Proof. apply fmt_pow. lia. Qed.
Lemma ex_exp_fin x : fin x = true -> exactly (ex_exp x) (rnd (Rmin (exp (B2R x)) (bpow radix2 900))).
Proof.
  intros H. assert (E : ex_exp x = near (Rmin (exp (B2R x)) (bpow radix2 900))) by (destruct x; try discriminate H; reflexivity).
  rewrite E. pose proof big1. apply (near_val 0 (bpow radix2 900)); [apply fmt_0|apply fmt900| |lra|lra].
  pose proof (exp_pos (B2R x)). split; [apply Rmin_glb; lra|apply Rmin_r].
Qed.
Lemma ex_unit x : in_unit x -> fin x = true. Proof. intros [A _]. exact A. Qed.
Lemma exp_le1 r : r <= 0 -> 0 <= exp r <= 1.
Proof. intros H. pose proof (exp_pos r). split; [lra|]. rewrite <- exp_0. destruct H as [H| ->]; [left; apply exp_increasing, H|lra]. Qed.
Lemma ex_exp_neg x : fin x = true -> B2R x <= 0 -> exactly (ex_exp x) (rnd (exp (B2R x))).
Proof. intros H L. destruct (ex_exp_fin x H) as [A B]. pose proof big1. destruct (exp_le1 _ L). rewrite Rmin_left in B by lra. split; assumption. Qed.
Lemma unit_near f : (forall r, - 1 <= f r <= 1) -> forall r : R, exactly (near (f r)) (rnd (f r)) /\ Rabs (B2R (near (f r))) <= 1.
Proof.
  intros Hf r. pose proof big1. assert (F1 : fmt (-1)) by (apply (fmt_Z (-1)); reflexivity).
  assert (E : exactly (near (f r)) (rnd (f r))) by (apply (near_val (-1) 1); [exact F1|apply fmt_1|apply Hf|lra|lra]).
  split; [exact E|]. destruct E as [_ E]. rewrite E. apply Rabs_le. change (- (1)) with (-1). apply rnd_between; [exact F1|apply fmt_1|apply Hf].
Qed.
Lemma near_pow (x y : b64) : exactly (near (Rmin (Rpow (B2R x) (B2R y)) (bpow radix2 1000))) (rnd (Rmin (Rpow (B2R x) (B2R y)) (bpow radix2 1000))).
Proof.
  pose proof (bpow_gt_0 radix2 1000). apply (near_val 0 (bpow radix2 1000)); [apply fmt_0|apply fmt_pow; lia| |unfold big; lra|unfold big; lra].
  split; [apply Rmin_glb; [apply Rpow_nonneg|lra]|apply Rmin_r].
Qed.
Lemma ex_rounded : fair ex_lib /\ exp_monotone ex_lib /\ exp_rounded ex_lib /\ trig_rounded ex_lib /\ pow_rounded ex_lib /\ pow_monotone ex_lib.
Proof.
  split; [|split; [|split; [|split; [|split]]]].
  - constructor; cbn [lm_exp lm_pow lm_sin lm_cos ex_lib].
    + intros x L. destruct (le0_cases x L) as [[s ->]|[->|[Fx _]]]; [|apply unit_0|].
      * destruct (ex_exp_neg (B754_zero s) eq_refl ltac:(cbn; lra)) as [A B]. split; [exact A|]. rewrite B. apply rnd_between; [apply fmt_0|apply fmt_1|apply exp_le1; cbn; lra].
      * assert (L' : B2R x <= 0) by (apply (le_fin x zero64 Fx eq_refl); exact L).
        destruct (ex_exp_neg x Fx L') as [A B]. split; [exact A|]. rewrite B. apply rnd_between; [apply fmt_0|apply fmt_1|apply exp_le1; exact L'].
    + intros s. destruct (ex_exp_neg (B754_zero s) eq_refl ltac:(cbn; lra)) as [A B]. cbn [B2R] in B. rewrite exp_0, (rnd_id 1 fmt_1) in B. destruct l1 as [F1 V1].
      apply B2R_Bsign_inj; [exact A|exact F1|rewrite B; symmetry; exact V1|].
      destruct (ex_exp (B754_zero s)) as [t|t| |t j e Hz]; try discriminate A; [cbn in B; lra|]. destruct t; [|reflexivity]. exfalso.
      assert (Q : B2R (B754_finite true j e Hz) < 0) by (apply F2R_lt_0; cbn; lia). lra.
    + intros x y L _. destruct x as [s|s| |s k e H]; try discriminate L; [reflexivity|destruct s; [discriminate L|reflexivity]|].
      destruct (near_pow (B754_finite s k e H) y) as [A B]. apply (le_fin zero64 _ eq_refl A). rewrite B. apply rnd_nn. apply Rmin_glb; [apply Rpow_nonneg|apply bpow_ge_0].
    + intros s y _. exists false. reflexivity.
    + intros x _. destruct (unit_near sin (fun r => SIN_bound r) (B2R x)) as [[A _] C]. split; assumption.
    + intros x _. destruct (unit_near cos (fun r => COS_bound r) (B2R x)) as [[A _] C]. split; assumption.
  - intros x y L. cbn [lm_exp ex_lib]. pose proof big1.
    assert (NX : is_nan x = false) by (destruct x; try reflexivity; discriminate L). assert (NY : is_nan y = false) by (destruct y as [s|s| |s k e H']; try reflexivity; destruct x as [t|t| |t k' e' H']; try destruct t; discriminate L).
    assert (G : forall z : b64, fin z = true -> le64 zero64 (ex_exp z)).
    { intros z Fz. destruct (ex_exp_fin z Fz) as [A B]. apply (le_fin zero64 _ eq_refl A). rewrite B. apply rnd_nn. pose proof (exp_pos (B2R z)). apply Rmin_glb; lra. }
    destruct (fin x) eqn:Fx, (fin y) eqn:Fy.
    + destruct (ex_exp_fin x Fx) as [A B]. destruct (ex_exp_fin y Fy) as [C D]. apply le_fin; auto. rewrite B, D. apply rnd_mono. apply (le_fin x y Fx Fy) in L.
      apply Rle_min_compat_r. destruct L as [L| ->]; [left; apply exp_increasing, L|lra].
    + destruct y as [s|s| |s k e H']; try discriminate Fy; [|discriminate NY]. destruct s; [destruct x as [t|t| |t k' e' H']; try destruct t; discriminate L || discriminate Fx|].
      apply le_inf. apply finite_not_nan. apply (ex_exp_fin x Fx).
    + destruct x as [s|s| |s k e H']; try discriminate Fx; [|discriminate NX]. destruct s; [apply G; exact Fy|]. apply inf_le in L. subst y. discriminate Fy.
    + destruct x as [s|s| |s k e H']; try discriminate Fx; [|discriminate NX]. destruct y as [t|t| |t k e H']; try discriminate Fy; [|discriminate NY]. destruct s, t; try discriminate L; reflexivity.
  - intros x Fx L. apply (ex_exp_neg x Fx L).
  - intros x Fx. cbn [lm_sin lm_cos ex_lib]. destruct (unit_near sin (fun r => SIN_bound r) (B2R x)) as [[A B] _]. destruct (unit_near cos (fun r => COS_bound r) (B2R x)) as [[C D] _].
    split; [exact A|split; [exact B|split; [exact C|exact D]]].
  - intros x y Fx Fy X Y L. cbn [lm_pow ex_lib]. destruct x as [s|s| |s k e H]; try discriminate Fx.
    + split; [reflexivity|]. cbn [B2R]. rewrite Rpow_0_l by lra. symmetry. apply (rnd_id 0 fmt_0).
    + destruct (near_pow (B754_finite s k e H) y) as [A B]. split; [exact A|]. rewrite B, Rmin_left by exact L. reflexivity.
  - intros x y p X L P. cbn [lm_pow ex_lib]. destruct x as [s|s| |s k e H]; try discriminate X.
    + destruct y as [t|t| |t k' e' H']; try (destruct s; discriminate L); [reflexivity|destruct t; [destruct s; discriminate L|reflexivity]|].
      destruct (near_pow (B754_finite t k' e' H') p) as [A B]. apply (le_fin zero64 _ eq_refl A). rewrite B. apply rnd_nn. apply Rmin_glb; [apply Rpow_nonneg|apply bpow_ge_0].
    + destruct s; [discriminate X|]. apply inf_le in L. subst y. reflexivity.
    + destruct y as [t|t| |t k' e' H']; [|destruct t; [destruct s; discriminate L|apply le_inf; apply finite_not_nan; apply near_pow]|destruct s; discriminate L|].
      * destruct s; [discriminate X|discriminate L].
      * destruct (near_pow (B754_finite s k e H) p) as [A B]. destruct (near_pow (B754_finite t k' e' H') p) as [A' B']. apply (le_fin _ _ A A'). rewrite B, B'. apply rnd_mono. apply Rle_min_compat_r.
        apply (le_fin zero64 (B754_finite s k e H) eq_refl eq_refl) in X. apply (le_fin (B754_finite s k e H) (B754_finite t k' e' H') eq_refl eq_refl) in L. change (B2R zero64) with 0 in X.
        destruct (fin p) eqn:Fp.
        -- apply Rpow_mono; [split; assumption|]. rewrite (Bltb_correct _ _ zero64 p eq_refl Fp) in P. destruct (Rlt_bool_spec (B2R zero64) (B2R p)) as [Q|Q]; [exact Q|discriminate P].
        -- assert (PZ : B2R p = 0) by (destruct p; try discriminate Fp; reflexivity). rewrite PZ.
           assert (NZ : B2R (B754_finite s k e H) <> 0) by (cbn [B2R]; intros Q; apply eq_0_F2R in Q; destruct s; discriminate Q). assert (X' : 0 < B2R (B754_finite s k e H)) by lra.
           unfold Rpow. destruct (Rlt_dec 0 (B2R (B754_finite s k e H))); [|lra]. destruct (Rlt_dec 0 (B2R (B754_finite t k' e' H'))); [|lra]. rewrite !Rpower_O by lra. lra.
Qed.
Lemma rounded_library : exists m, fair m /\ exp_monotone m /\ exp_rounded m /\ trig_rounded m /\ pow_rounded m /\ pow_monotone m.
Proof. exists ex_lib. exact ex_rounded. Qed.
Lemma l250 : exactly (Flit 250 0) 250. Proof. lit_t. Qed.
Lemma corrf_args : usual_range (Flit 250 0) /\ range_arg (Flit (-1) 0) /\ is_finite (Flit 45 0) = true /\ Bltb zero64 (Flit 15 1) = true /\
  is_finite (Flit 10 0) = true /\ le64 zero64 (Flit 25 1) /\ le64 (Flit 25 1) (Flit 10 0).
Proof.
  split; [|split; [right; vm_compute; reflexivity|repeat split; vm_compute; reflexivity]].
  destruct l250 as [A B]. split; [exact A|]. rewrite B. split.
  - apply Rle_trans with (bpow radix2 0); [apply bpow_le; lia|cbn; lra].
  - apply Rle_trans with (bpow radix2 8); [cbn; lra|apply bpow_le; lia].
Qed.
