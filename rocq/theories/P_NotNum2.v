(** Matern 5/2 at a huge lag. *)
From Coq Require Import ZArith Bool Lia Reals Lra List String.
From Flocq Require Import Core IEEE754.BinarySingleNaN.
From Verif Require Import Base Arith FloatArith RealArith M_Variogram S_Vario S_Random S_CorrF P_NormF P_CorrF P_CorrF4 P_Accur4.
Import ListNotations.
Open Scope R_scope.

Lemma near_tiny r : 0 < r -> r <= bpow radix2 (-1076) -> nearest r = 0.
Proof.
  intros P H. unfold nearest. destruct (mag radix2 r) as [e He]. specialize (He ltac:(lra)).
  assert (E : (e <= -1075)%Z). { assert (B : bpow radix2 (e - 1) < bpow radix2 (-1075)). { apply Rle_lt_trans with (1 := proj1 He). rewrite Rabs_pos_eq by lra. apply Rle_lt_trans with (1 := H). apply bpow_lt. lia. } apply lt_bpow in B. lia. }
  apply round_N_small with (ex := e); [exact He|]. unfold FLT_exp. lia.
Qed.
Definition huge_lag : b64 := Fof 1 511.
Definition sd_huge : b64 := Bmult mode_NE (Flit 5918 3) huge_lag.
Lemma sd_huge_ge : is_finite sd_huge = true /\ 1100 <= B2R sd_huge.
Proof.
  assert (A : is_finite sd_huge = true) by (vm_compute; reflexivity). split; [exact A|].
  assert (E : exactly (Flit 1100 0) 1100) by lit_t. destruct E as [F V]. rewrite <- V.
  assert (Q : Bltb sd_huge (Flit 1100 0) = false) by (vm_compute; reflexivity). rewrite (Bltb_correct 53 1024 _ _ A F) in Q. apply Rlt_bool_false_inv in Q || (destruct (Rlt_bool_spec (B2R sd_huge) (B2R (Flit 1100 0))); [discriminate Q|assumption]).
Qed.
Section Z.
Variable m : libm.
Hypothesis HF : fair m.
Hypothesis T : trig_rounded m.
Hypothesis E : exp_rounded m.
Lemma exp_huge : exists s, lm_exp m (Bopp sd_huge) = B754_zero s.
Proof.
  destruct sd_huge_ge as [Fs Vs].
  assert (Fo : is_finite (Bopp sd_huge) = true) by (rewrite is_finite_Bopp; exact Fs).
  assert (U : in_unit (lm_exp m (Bopp sd_huge))) by (apply (exp_unit m HF); vm_compute; reflexivity).
  apply zero_of; [exact (proj1 U)|]. rewrite (E _ Fo) by (rewrite B2R_Bopp; lra). apply near_tiny; [apply exp_pos|].
  rewrite B2R_Bopp. apply (exp_m_le (B2R sd_huge) 1076); [lia|lra].
Qed.
Lemma matern_nan : exists v, @CreateVariogram (Farith m) "matern52"%string (Flit 1 0) (Flit (-1) 0) (Flit (-1) 0) (Flit 0 0) (Flit 0 0) (Flit 15 1) = Ok v /\
  is_finite huge_lag = true /\ @GetCorr1 (Farith m) v huge_lag = B754_nan.
Proof.
  unfold CreateVariogram. rewrite d0.
  assert (N1 : flt (Farith m) (Flit (-1) 0) (lit (Farith m) 0 0) = true) by (vm_compute; reflexivity). rewrite N1.
  eexists. split; [reflexivity|]. split; [vm_compute; reflexivity|]. unfold GetCorr1.
  assert (D : forall v : variogram (Farith m), txx v = Flit 1 0 -> @Distance1 (Farith m) v huge_lag = huge_lag).
  { intros v V. unfold Distance1. rewrite V. apply B2SF_inj. vm_compute. reflexivity. }
  rewrite D.
  - unfold Corr1D. cbn [vt new_variogram EstimateFactors]. change (mul (Farith m) (lit (Farith m) 5918 3) huge_lag) with sd_huge.
    change (fexp (Farith m)) with (lm_exp m). change (neg (Farith m) sd_huge) with (Bopp sd_huge). destruct exp_huge as [s ->].
    assert (P : add (Farith m) (add (Farith m) (lit (Farith m) 1 0) sd_huge) (div (Farith m) (mul (Farith m) sd_huge sd_huge) (lit (Farith m) 3 0)) = B754_infinity false) by (apply B2SF_inj; vm_compute; reflexivity).
    rewrite P. destruct s; reflexivity.
  - unfold new_variogram, EstimateFactors. cbn [txx azimuth dip range_x range_y range_z]. change (fsin (Farith m)) with (lm_sin m). change (fcos (Farith m)) with (lm_cos m).
    rewrite (cos0 m T). destruct (sin0 m T) as [s ->]. destruct s; apply B2SF_inj; vm_compute; reflexivity.
Qed.
End Z.
