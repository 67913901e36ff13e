(** Zero, NaN and infinite lengths. *)
From Coq Require Import ZArith Bool Lia Reals Lra List String.
From Flocq Require Import Core IEEE754.BinarySingleNaN.
From Verif Require Import Base Arith FloatArith RealArith M_Variogram M_Padding M_FftSize M_Dsfmt M_Random M_Field M_Api S_Api S_Vario S_Random S_Sizes S_Room S_CorrF S_FieldF S_Damp S_SizeF S_Answer S_NotNum P_Base P_Api P_NormF P_FieldF P_CorrF P_Field P_Accur11 P_Args P_SizeF P_SizeF2 P_Answer P_Answer2.
Import ListNotations.
Open Scope R_scope.
Local Opaque new_generator genrand_uint32 init_gen_rand gen_rand_all.
Section A.
Variables (m : libm) (f : fftlib) (o : Z -> outcome Z) (cl : Z -> Z -> Z).
Notation F := (Farith m).
Notation L := (Flib m f o cl).
Lemma pad_nofin (v : variogram F) n (range step : b64) : is_finite (@Bdiv 53 1024 Hprec Hmax mode_NE range step) = false -> @FindGaussianFieldPadding F v n range step = UB FloatToInt.
Proof.
  intros H. unfold FindGaussianFieldPadding. destruct (to_int_or m (sub F (div F (mul F (GetMinimumRangeToGridRatio v) range) step) (ofZ F n))) as [[a ->]| ->]; [|reflexivity]. cbn [bind].
  rewrite (to_int_out m); [reflexivity|]. change (div F range step) with (@Bdiv 53 1024 Hprec Hmax mode_NE range step). intros Fd. congruence.
Qed.
Lemma div_bad (x y : b64) : zero_or_nan y -> is_finite (@Bdiv 53 1024 Hprec Hmax mode_NE x y) = false.
Proof. intros [->|[s ->]]; destruct x; reflexivity. Qed.
Lemma bad_div (x y : b64) : nan_or_infinite x -> is_finite (@Bdiv 53 1024 Hprec Hmax mode_NE x y) = false.
Proof. intros [->| ->]; destruct y; reflexivity. Qed.
Lemma bad_max (x y : b64) : nan_or_infinite x -> @fmax F x y = x.
Proof. intros [->| ->]; unfold fmax; change (flt F) with (@Bltb 53 1024); destruct y as [s|[]| |[] k e Hb]; reflexivity. Qed.
Lemma bad_step (v : variogram F) (d : dims L) : zero_or_nan (d_dx d) ->
  forall c, needs_padding v d c -> accepted c -> forall rec fuel now st, fst (step rec fuel now c st) = UB FloatToInt.
Proof.
  intros H c HN HA. apply (calls_stop m f o cl v d c HN HA). intros ny dy nz dz _. apply ndim_x; [|intros _]; apply pad_nofin, div_bad, H.
Qed.
Lemma bad_range s main perp depth azi dp pw (v : variogram F) : @CreateVariogram F s main perp depth azi dp pw = Ok v -> nan_or_infinite main -> forall (d : dims L),
  forall c, needs_padding v d c -> accepted c -> forall rec fuel now st, fst (step rec fuel now c st) = UB FloatToInt.
Proof.
  intros HC H d c HN HA. destruct (made m _ _ _ _ _ _ _ _ HC) as (X1 & X2 & _).
  apply (calls_stop m f o cl v d c HN HA). intros ny dy nz dz _. apply ndim_x; [|intros _]; rewrite X1, ?X2, ?(bad_max main _ H); apply pad_nofin, bad_div, H.
Qed.
End A.
Notation nan := (@B754_nan 53 1024).
Lemma mul_nan_r (x : b64) : Bmult mode_NE x nan = nan. Proof. destruct x; reflexivity. Qed.
Lemma mul_nan_l (x : b64) : Bmult mode_NE nan x = nan. Proof. destruct x; reflexivity. Qed.
Lemma add_nan_r (x : b64) : Bplus mode_NE x nan = nan. Proof. destruct x; reflexivity. Qed.
Lemma add_nan_l (x : b64) : Bplus mode_NE nan x = nan. Proof. destruct x; reflexivity. Qed.
Ltac nans := repeat (rewrite mul_nan_r || rewrite mul_nan_l || rewrite add_nan_r || rewrite add_nan_l); reflexivity.
Section B.
Variable m : libm.
Notation F := (Farith m).
Lemma sph_nan (v : variogram F) : vt v = SPHERICAL -> @Corr1D F v nan = Flit 0 0.
Proof. intros T. unfold Corr1D. rewrite T. reflexivity. Qed.
Lemma lag_nan s main perp depth azi dp pw (v : variogram F) : @CreateVariogram F s main perp depth azi dp pw = Ok v -> lower s = "spherical"%string ->
  forall x y z, x = nan \/ y = nan \/ z = nan ->
  @GetCorr1 F v nan = Flit 0 0 /\ (x = nan \/ y = nan -> @GetCorr2 F v x y = Flit 0 0) /\ @GetCorr3 F v x y z = Flit 0 0.
Proof.
  intros HC Hl x y z H. pose proof (named_type m s "spherical"%string SPHERICAL main perp depth azi dp pw v HC ltac:(cbn; tauto) Hl) as T.
  unfold GetCorr1, GetCorr2, GetCorr3.
  assert (D1 : @Distance1 F v nan = nan). { unfold Distance1. change (mul F) with (@Bmult 53 1024 Hprec Hmax mode_NE). change (fsqrt F) with (@Bsqrt 53 1024 Hprec Hmax mode_NE). nans. }
  assert (D2 : x = nan \/ y = nan -> @Distance2 F v x y = nan).
  { intros G. unfold Distance2. change (mul F) with (@Bmult 53 1024 Hprec Hmax mode_NE). change (add F) with (@Bplus 53 1024 Hprec Hmax mode_NE). change (fsqrt F) with (@Bsqrt 53 1024 Hprec Hmax mode_NE). destruct G as [->| ->]; nans. }
  assert (D3 : @Distance3 F v x y z = nan).
  { unfold Distance3. change (mul F) with (@Bmult 53 1024 Hprec Hmax mode_NE). change (add F) with (@Bplus 53 1024 Hprec Hmax mode_NE). change (fsqrt F) with (@Bsqrt 53 1024 Hprec Hmax mode_NE). destruct H as [->|[->| ->]]; nans. }
  rewrite D1, D3. split; [exact (sph_nan v T)|]. split; [intros G; rewrite (D2 G)|]; exact (sph_nan v T).
Qed.
End B.
