(** Correlations in double precision: variograms made by the API. *)
From Coq Require Import ZArith Bool Lia Reals Lra String List.
From Flocq Require Import Core IEEE754.BinarySingleNaN.
From Verif Require Import Base Arith FloatArith M_Variogram S_Vario S_Random S_Normal P_Vario P_VarioNames P_NormF S_CorrF P_CorrF P_CorrF2.
Import ListNotations.
Open Scope R_scope.

Lemma Degree_small (m : libm) : fin (@Degree (Farith m)) = true /\ Rabs (B2R (@Degree (Farith m))) <= 1.
Proof.
  assert (E : exists k e H, @Degree (Farith m) = B754_finite false k e H /\ (Zpos k < 2 ^ 53)%Z /\ (e <= -53)%Z).
  { destruct (@Degree (Farith m)) as [s|s| |s k e H] eqn:Q.
    - exfalso. assert (X : B2SF (@Degree (Farith m)) = B2SF (B754_zero s : b64)) by (rewrite Q; reflexivity). vm_compute in X. discriminate X.
    - exfalso. assert (X : B2SF (@Degree (Farith m)) = B2SF (B754_infinity s : b64)) by (rewrite Q; reflexivity). vm_compute in X. discriminate X.
    - exfalso. assert (X : B2SF (@Degree (Farith m)) = B2SF (B754_nan : b64)) by (rewrite Q; reflexivity). vm_compute in X. discriminate X.
    - assert (X : B2SF (@Degree (Farith m)) = B2SF (B754_finite s k e H : b64)) by (rewrite Q; reflexivity). vm_compute in X. injection X as <- <- <-.
      exists _, _, H. split; [reflexivity|]. split; lia. }
  destruct E as (k & e & H & E & A & B). rewrite E. split; [reflexivity|]. cbn [B2R cond_Zopp].
  rewrite Rabs_right by (apply Rle_ge, F2R_ge_0; cbn; lia). unfold F2R. cbn [Fnum Fexp].
  apply Rle_trans with (bpow radix2 53 * bpow radix2 (-53)); [|rewrite <- bpow_plus; apply Req_le; reflexivity].
  apply Rmult_le_compat; [apply IZR_le; lia|apply bpow_ge_0| |apply bpow_le; exact B].
  change (bpow radix2 53) with (IZR (2 ^ 53)). apply IZR_le. lia.
Qed.
Lemma radians_fin (m : libm) (a : b64) : fin a = true -> fin (Bm a (@Degree (Farith m))) = true.
Proof.
  intros H. destruct (Degree_small m) as [FD D].
  pose proof (Bmult_correct 53 1024 Hprec Hmax mode_NE a (@Degree (Farith m))) as C.
  assert (O : Rlt_bool (Rabs (rnd (B2R a * B2R (@Degree (Farith m))))) (bpow radix2 1024) = true).
  { apply Rlt_bool_true. apply Rle_lt_trans with (Rabs (B2R a)); [|apply (abs_B2R_lt_emax 53 1024)].
    apply Rabs_le. pose proof (Rabs_pos (B2R a)).
    assert (M : Rabs (B2R a * B2R (@Degree (Farith m))) <= Rabs (B2R a)) by (rewrite Rabs_mult; nra).
    apply Rabs_le_inv in M. assert (G : fmt (Rabs (B2R a))) by (apply generic_format_abs, generic_format_B2R).
    apply rnd_between; [apply generic_format_opp; exact G|exact G|exact M]. }
  rewrite O in C. destruct C as [_ [Fi _]]. rewrite Fi, H, FD. reflexivity.
Qed.

Section Api.
Variable m : libm.
Notation F := (Farith m).
Lemma usual_not_neg r : usual_range r -> Bltb r (Flit 0 0) = false.
Proof.
  intros [A [B _]]. destruct l0 as [F0 V0]. rewrite Bltb_correct by assumption. rewrite V0. apply Rlt_bool_false. pose proof (bpow_gt_0 radix2 (-400)). lra.
Qed.
Lemma arg_range main r : usual_range main -> range_arg r -> usual_range (if Bltb r (Flit 0 0) then main else r).
Proof.
  intros M [U|N]; [rewrite usual_not_neg by exact U; exact U|].
  assert (E : Flit 0 0 = zero64) by reflexivity. rewrite E, N. exact M.
Qed.
Lemma created_F s (main perp depth azi dp power : b64) v : @CreateVariogram F s main perp depth azi dp power = Ok v ->
  usual_range main -> range_arg perp -> range_arg depth -> fin azi = true -> fin dp = true ->
  exists v0 : variogram F, v = EstimateFactors v0 /\ usual_range (range_x v0) /\ usual_range (range_y v0) /\ usual_range (range_z v0) /\
    fin (azimuth v0) = true /\ fin (dip v0) = true /\ vt v <> N_TYPES /\ (vt v = GENERAL_EXPONENTIAL -> vpower v = power).
Proof.
  intros H M P D A I. unfold CreateVariogram in H. destruct (Uppercase s) as [u| | |]; cbn [bind] in H; try discriminate.
  pose proof (arg_range main perp M P) as P'. pose proof (arg_range main depth M D) as D'.
  pose proof (radians_fin m azi A) as A'. pose proof (radians_fin m dp I) as I'.
  change (flt F) with (@Bltb 53 1024) in H. change (lit F 0 0) with (Flit 0 0) in H. change (mul F) with Bm in H.
  pose proof (type_of_name_real u) as T. unfold Create, new_variogram in H.
  destruct (type_of_name u); try congruence; apply (f_equal (fun o => match o with Ok w => w | _ => v end)) in H; cbn beta iota in H; subst v;
    (eexists; split; [reflexivity|]); cbn [range_x range_y range_z azimuth dip vt vpower EstimateFactors];
    (split; [exact M|split; [exact P'|split; [exact D'|split; [exact A'|split; [exact I'|split; [discriminate|]]]]]]); intros K; first [discriminate K|reflexivity].
Qed.
Hypothesis ok : fair m.

(** lag zero *)
Lemma c75 s (main perp depth azi dp power : b64) v : @CreateVariogram F s main perp depth azi dp power = Ok v ->
  usual_range main -> range_arg perp -> range_arg depth -> fin azi = true -> fin dp = true -> Bltb zero64 power = true ->
  forall sx sy sz, @GetCorr1 F v (B754_zero sx) = one64 /\ @GetCorr2 F v (B754_zero sx) (B754_zero sy) = one64 /\
    @GetCorr3 F v (B754_zero sx) (B754_zero sy) (B754_zero sz) = one64.
Proof.
  intros H M P D A I W sx sy sz. destruct (created_F s main perp depth azi dp power v H M P D A I) as (v0 & E & X & Y & Z & FA & FD & T & K).
  destruct (factors_bd m ok v0 X Y Z FA FD) as (B1 & B2 & B3 & B4 & B5 & B6). rewrite <- E in *.
  assert (G : vt v = GENERAL_EXPONENTIAL -> Bltb zero64 (vpower v) = true) by (intros Q; rewrite (K Q); exact W).
  destruct (dist_zero m v (B754_zero sx) (B754_zero sy) (B754_zero sz)) as (D1 & D2 & D3);
    [apply B1|apply B2|apply B3|apply B4|apply B5|apply B6|eexists; reflexivity|eexists; reflexivity|eexists; reflexivity|].
  unfold GetCorr1, GetCorr2, GetCorr3. split; [|split]; apply (corr_zero m ok); assumption.
Qed.

(** one-dimensional distances are never NaN *)
Lemma sq_not_nan (a x : b64) : nn a -> fin x = true -> is_nan (Bm (Bm a x) x) = false /\ (Bsign (Bm (Bm a x) x) = false \/ is_zero (Bm (Bm a x) x)).
Proof.
  intros [Fa Na] Fx. destruct a as [s|s| |s k e H]; try discriminate.
  - destruct x as [t|t| |t k e H]; try discriminate; cbn; (split; [reflexivity|right; eexists; reflexivity]).
  - assert (s = false) as ->. { destruct s; [|reflexivity]. exfalso. assert (B2R (B754_finite true k e H) < 0) by (apply F2R_lt_0; cbn; lia). lra. }
    destruct (mult_ff (B754_finite false k e H) x eq_refl Fx) as [N S]. cbn [Bsign xorb] in S.
    destruct (Bm (B754_finite false k e H) x) as [t|t| |t k' e' H'] eqn:E; try discriminate N.
    + destruct x; try discriminate; cbn; (split; [reflexivity|right; eexists; reflexivity]).
    + destruct x as [t'|t'| |t' k' e' H']; try discriminate. cbn in S. subst. cbn. split; [reflexivity|left]. destruct t'; reflexivity.
    + destruct (mult_ff (B754_finite t k' e' H') x eq_refl Fx) as [N2 S2]. split; [exact N2|left]. rewrite S2. cbn [Bsign] in *. rewrite S. destruct (Bsign x); reflexivity.
Qed.
Lemma sqrt_not_nan (x : b64) : is_nan x = false -> (Bsign x = false \/ is_zero x) -> le64 zero64 (Bsqrt mode_NE x).
Proof.
  intros N S. destruct (sqrt_ge0 x) as [Q|Q]; [exfalso|exact Q].
  destruct x as [s|s| |s k e H]; try discriminate.
  - destruct S as [S|[t S]]; [|discriminate]. cbn in S. subst. discriminate Q.
  - destruct S as [S|[t S]]; [|discriminate]. cbn in S. subst.
    pose proof (Bsqrt_correct 53 1024 Hprec Hmax mode_NE (B754_finite false k e H)) as [_ [Fi _]]. rewrite (finite_not_nan _ Fi) in Q. discriminate.
Qed.
Lemma c74_1d s (main perp depth azi dp power x : b64) v : @CreateVariogram F s main perp depth azi dp power = Ok v ->
  usual_range main -> range_arg perp -> range_arg depth -> fin azi = true -> fin dp = true -> Bltb zero64 power = true ->
  plain (vt v) = true -> fin x = true -> in_unit (@GetCorr1 F v x).
Proof.
  intros H M P D A I W T Fx. destruct (created_F s main perp depth azi dp power v H M P D A I) as (v0 & E & X & Y & Z & FA & FD & _ & K).
  pose proof (txx_nn m ok v0 X Y Z FA FD) as B1. rewrite <- E in *.
  unfold GetCorr1. apply (corr_unit m ok); [exact T|intros Q; rewrite (K Q); exact W|].
  unfold Distance1. cbn [fsqrt mul Farith]. destruct (sq_not_nan (txx v) x B1 Fx) as [N S]. apply sqrt_not_nan; assumption.
Qed.
Lemma c74_any (v : variogram F) (x y z : b64) : plain (vt v) = true -> (vt v = GENERAL_EXPONENTIAL -> Bltb zero64 (vpower v) = true) ->
  forall d, In d [@Distance1 F v x; @Distance2 F v x y; @Distance3 F v x y z] -> is_nan d = true \/ in_unit (Corr1D v d).
Proof.
  intros T G d Hd. assert (E : exists q, d = Bsqrt mode_NE q) by (cbn [In] in Hd; destruct Hd as [<-|[<-|[<-|[]]]]; eexists; reflexivity).
  destruct E as [q ->]. destruct (sqrt_ge0 q) as [N|Q]; [left; exact N|right]. apply (corr_unit m ok); assumption.
Qed.
End Api.
