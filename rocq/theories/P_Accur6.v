(** Accuracy of correlations in double precision: variograms made by the API. *)
From Coq Require Import ZArith Bool Lia Reals Lra String List.
From Flocq Require Import Core IEEE754.BinarySingleNaN.
From Verif Require Import Base Arith RealArith FloatArith M_Variogram S_Vario S_Random S_Normal P_Vario P_VarioNames P_VarioMore P_Special2 P_Images P_VarioF P_NormF S_CorrF P_CorrF P_CorrF2 P_CorrF4 P_CorrF5 P_CorrF7 S_Accur P_Accur P_Accur2 P_Accur3 P_Accur4 P_Accur5.
Import ListNotations.
Open Scope R_scope.

Section Api.
Variable m : libm.
Notation F := (Farith m).
Lemma mod_arg main r : moderate main -> moderate_arg r ->
  moderate (if Bltb r (Flit 0 0) then main else r) /\ B2R (if Bltb r (Flit 0 0) then main else r) = or_main (B2R main) (B2R r) /\ B2R r <> 0.
Proof.
  intros M H. assert (E : fin r = true) by (destruct H as [[A _]|[A _]]; exact A). destruct l0 as [F0 V0]. rewrite (Bltb_correct _ _ r (Flit 0 0) E F0), V0.
  unfold or_main. pose proof (bpow_gt_0 radix2 (-200)). destruct H as [H|[_ H]].
  - pose proof H as [_ [A _]]. rewrite Rlt_bool_false by lra. destruct (Rlt_dec (B2R r) 0); [lra|]. split; [exact H|split; [reflexivity|lra]].
  - rewrite Rlt_bool_true by exact H. destruct (Rlt_dec (B2R r) 0); [|lra]. split; [exact M|split; [reflexivity|lra]].
Qed.
Lemma created_unrotated s (main perp depth power : b64) v : @CreateVariogram F s main perp depth (Flit 0 0) (Flit 0 0) power = Ok v ->
  exists v0 : variogram F, v = EstimateFactors v0 /\ azimuth v0 = Flit 0 0 /\ dip v0 = Flit 0 0 /\
    range_x v0 = main /\ range_y v0 = (if Bltb perp (Flit 0 0) then main else perp) /\ range_z v0 = (if Bltb depth (Flit 0 0) then main else depth) /\
    vt v <> N_TYPES /\ lookup_type s = Some (vt v).
Proof.
  intros H. unfold CreateVariogram in H. unfold lookup_type. rewrite !d0 in H. destruct (Uppercase s) as [u| | |]; cbn [bind] in H; try discriminate.
  change (flt F) with (@Bltb 53 1024) in H. change (lit F 0 0) with (Flit 0 0) in H.
  pose proof (type_of_name_real u) as T. unfold Create, new_variogram in H.
  destruct (type_of_name u); try congruence; apply (f_equal (fun o => match o with Ok w => w | _ => v end)) in H; cbn beta iota in H; subst v;
    (eexists; split; [reflexivity|]); cbn [range_x range_y range_z azimuth dip vt vpower EstimateFactors];
    (split; [reflexivity|split; [reflexivity|split; [reflexivity|split; [reflexivity|split; [reflexivity|split; [discriminate|reflexivity]]]]]]).
Qed.
Lemma ndist_unrot (rx ry rz : b64) x y z : moderate rx -> moderate ry -> moderate rz ->
  ndist (B2R rx) (B2R ry) (B2R rz) 0 0 (B2R x, B2R y, B2R z) = sqrt (tm rx x + tm ry y + tm rz z).
Proof.
  intros X Y Z. apply mod_pos in X, Y, Z. unfold ndist, dot, main_axis, perp_axis, third_axis. rewrite cos_0, sin_0. f_equal.
  assert (A : forall r a : b64, 0 < B2R r -> tm r a = (B2R a / B2R r) ^ 2).
  { intros r a R0. unfold tm, fc. assert (A2 : Rabs (B2R a) * Rabs (B2R a) = B2R a * B2R a) by (rewrite <- Rabs_mult, Rabs_right; [reflexivity|]; apply Rle_ge, Rle_0_sqr).
    rewrite Rmult_assoc, A2. field. lra. }
  rewrite !A by assumption. field. lra.
Qed.
Lemma tm0 r (z : b64) : B2R z = 0 -> tm r z = 0. Proof. intros E. unfold tm. rewrite E, Rabs_R0. ring. Qed.
Lemma c78 : fair m -> trig_rounded m -> exp_rounded m ->
  forall (s : string) (main perp depth power x y z : b64) (p : R) v w,
  @CreateVariogram F s main perp depth (Flit 0 0) (Flit 0 0) power = Ok v ->
  @CreateVariogram Rarith s (B2R main) (B2R perp) (B2R depth) 0 0 p = Ok w -> 0 < p ->
  ~ In (lower s) ["general_exponential"; "matern72"]%string ->
  moderate main -> moderate_arg perp -> moderate_arg depth -> moderate_lag x -> moderate_lag y -> moderate_lag z ->
  very_close (@GetCorr1 F v x) (@GetCorr1 Rarith w (B2R x)) /\
  very_close (@GetCorr2 F v x y) (@GetCorr2 Rarith w (B2R x) (B2R y)) /\
  very_close (@GetCorr3 F v x y z) (@GetCorr3 Rarith w (B2R x) (B2R y) (B2R z)).
Proof.
  intros ok T E s main perp depth power x y z p v w HF HR P N M MP MD X Y Z.
  destruct (created_unrotated s main perp depth power v HF) as (v0 & Ev & AZ & DP & RX & RY & RZ & NT & LT).
  destruct (mod_arg main perp M MP) as (M2 & V2 & NZ2). destruct (mod_arg main depth M MD) as (M3 & V3 & NZ3).
  destruct (created_corr s _ _ _ _ _ _ w HR (mod_pos _ M) NZ2 NZ3 P) as [_ C]. destruct (created_new _ _ _ _ _ _ _ _ HR) as (t & p' & _ & _ & _ & Tw & LT').
  assert (TT : vt w = vt v) by (rewrite LT in LT'; injection LT' as ->; exact Tw).
  assert (PW : powerless (vt v) = true).
  { assert (Ha : is_ascii s).
    { destruct (is_ascii_dec s) as [H|H]; [exact H|]. rewrite (names_bad s (main : num F) perp depth (Flit 0 0) (Flit 0 0) power H) in HF. discriminate HF. }
    destruct (name_type s Ha) as (t' & El & H). rewrite LT in El. injection El as <-.
    destruct H as [(n' & Hin & Hl)|[H _]]; [|rewrite H; reflexivity]. subst n'. cbn [documented In] in Hin. cbn [In] in N.
    destruct (vt v); try reflexivity; exfalso; apply N; repeat (destruct Hin as [Hin|Hin]; [try discriminate Hin; injection Hin as Hin; rewrite <- Hin; auto|]); destruct Hin. }
  assert (W2 : B2R (range_y v0) = or_main (B2R main) (B2R perp)) by (rewrite RY; exact V2).
  assert (W3 : B2R (range_z v0) = or_main (B2R main) (B2R depth)) by (rewrite RZ; exact V3).
  assert (W1 : B2R (range_x v0) = B2R main) by (rewrite RX; reflexivity).
  assert (N2 : moderate (range_y v0)) by (rewrite RY; exact M2). assert (N3 : moderate (range_z v0)) by (rewrite RZ; exact M3). assert (N1 : moderate (range_x v0)) by (rewrite RX; exact M).
  rewrite <- W2, <- W3, radians_0, <- W1, TT in C. clear M2 M3 V2 V3.
  assert (Z0 : moderate_lag zero64) by (split; [reflexivity|left; reflexivity]). assert (ZV : B2R zero64 = 0) by reflexivity.
  assert (C3 : forall a b c : b64, @GetCorr3 Rarith w (B2R a) (B2R b) (B2R c) = corr_fun (vt v) p (sqrt (tm (range_x v0) a + tm (range_y v0) b + tm (range_z v0) c))).
  { intros a b c. rewrite C. f_equal. apply ndist_unrot; assumption. }
  assert (C2 : forall a b : b64, @GetCorr2 Rarith w (B2R a) (B2R b) = corr_fun (vt v) p (sqrt (tm (range_x v0) a + tm (range_y v0) b))).
  { intros a b. rewrite corr2_3. rewrite <- ZV at 1. rewrite C3, (tm0 _ zero64 ZV), Rplus_0_r. reflexivity. }
  assert (C1 : forall a : b64, @GetCorr1 Rarith w (B2R a) = corr_fun (vt v) p (sqrt (tm (range_x v0) a))).
  { intros a. rewrite corr1_2. rewrite <- ZV at 1. rewrite C2, (tm0 _ zero64 ZV), Rplus_0_r. reflexivity. }
  rewrite C1, C2, C3. unfold GetCorr1, GetCorr2, GetCorr3.
  assert (SZ : forall e, szd (-800) 802 e -> szd (-402) 402 (sqrt e)) by (intros e H; apply szd_sqrt; apply (szd_weak (-800) 802); [lia|lia|exact H]).
  split; [|split]; apply (corr_all m ok E); try exact PW; subst v.
  - apply dist1_acc; assumption.
  - apply SZ. apply (szd_weak (-800) 800); [lia|lia|apply tm_size; assumption].
  - apply dist2_acc; assumption.
  - apply SZ. apply (szd_weak (-800) 801); [lia|lia|apply sum2_size; assumption].
  - apply dist3_acc; assumption.
  - apply SZ. apply sum3_size; assumption.
Qed.
End Api.
