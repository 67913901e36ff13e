(** Correlations in double precision: monotonicity for the other types. *)
From Coq Require Import ZArith Bool Lia Reals Lra String List.
From Flocq Require Import Core IEEE754.BinarySingleNaN.
From Verif Require Import Base Arith RealArith FloatArith M_Variogram S_Vario S_Random S_Normal P_Vario P_VarioNames P_VarioMore P_Special2 P_VarioF P_NormF S_CorrF P_CorrF P_CorrF2 P_CorrF3 P_CorrF4 P_CorrF5 P_CorrF6 P_CorrF7.
Import ListNotations.
Open Scope R_scope.

Section Mono.
Variable m : libm.
Hypothesis ok : fair m.
Hypothesis mono : exp_monotone m.
Hypothesis pmono : pow_monotone m.
Notation F := (Farith m).
Lemma corr_mono_gexp (v : variogram F) (d e : b64) : vt v = GENERAL_EXPONENTIAL -> Bltb zero64 (vpower v) = true -> le64 zero64 d -> le64 d e -> le64 (Corr1D v e) (Corr1D v d).
Proof.
  intros T P D DE. unfold Corr1D. rewrite T. cbn [mul lit fexp fpow Farith]. apply mono. rewrite m3_opp, !Bmult_opp_l. apply opp_mono, ext_lin; [apply (pow_nonneg m ok); assumption|apply pmono; assumption].
Qed.
Lemma c76_gexp s (main perp depth azi dp power x y : b64) v : @CreateVariogram F s main perp depth azi dp power = Ok v -> lower s = "general_exponential"%string ->
  usual_range main -> range_arg perp -> range_arg depth -> fin azi = true -> fin dp = true -> Bltb zero64 power = true ->
  fin x = true -> fin y = true -> le64 zero64 x -> le64 x y -> le64 (@GetCorr1 F v y) (@GetCorr1 F v x).
Proof.
  intros H N M P D A I PW Fx Fy X XY. destruct (created_F m s main perp depth azi dp power v H M P D A I) as (v0 & E & RX & RY & RZ & FA & FD & _ & K).
  pose proof (type_named m s main perp depth azi dp power v "general_exponential" GENERAL_EXPONENTIAL H ltac:(cbn; tauto) N) as T.
  pose proof (txx_nn m ok v0 RX RY RZ FA FD) as B1. rewrite <- E in *.
  destruct (sq_mono (txx v) x y B1 Fx Fy X XY) as [Q0 Q1].
  unfold GetCorr1. apply corr_mono_gexp; [exact T| | |].
  - rewrite (K T). exact PW.
  - destruct (sq_not_nan (txx v) x B1 Fx) as [NN S]. apply sqrt_not_nan; assumption.
  - apply sqrt_mono; assumption.
Qed.
End Mono.
Lemma matern_grows : forall m, fair m -> trig_rounded m -> exp_rounded m -> exists v,
  @CreateVariogram (Farith m) "matern52" (Flit 1 0) (Flit (-1) 0) (Flit (-1) 0) (Flit 0 0) (Flit 0 0) (Flit 15 1) = Ok v /\
  Bltb (@GetCorr1 (Farith m) v zero64) (@GetCorr1 (Farith m) v (Flit 33 10)) = true.
Proof.
  intros m ok T E. destruct (matern_above m T E) as (v & Ev & A). exists v. split; [exact Ev|].
  assert (U : usual_range (Flit 1 0)). { destruct l1 as [A1 V1]. split; [exact A1|]. rewrite V1. split; change 1 with (bpow radix2 0); apply bpow_le; lia. }
  destruct (c75 m ok _ _ _ _ _ _ _ _ Ev U ltac:(right; vm_compute; reflexivity) ltac:(right; vm_compute; reflexivity) eq_refl eq_refl ltac:(vm_compute; reflexivity) false false false) as [Z _].
  unfold zero64 at 1. rewrite Z. exact A.
Qed.
