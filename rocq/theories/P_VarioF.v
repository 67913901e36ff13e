(** Sign symmetry of IEEE products, and what follows for corr. *)
From Coq Require Import ZArith Bool Lia Reals String List.
From Flocq Require Import Core IEEE754.BinarySingleNaN.
From Verif Require Import Base Arith FloatArith M_Variogram.
Import ListNotations.

Notation Bo := (@BinarySingleNaN.Bopp 53 1024).
Notation Bm := (@Bmult 53 1024 Hprec Hmax mode_NE).

Definition SFopp' (x : SpecFloat.spec_float) : SpecFloat.spec_float :=
  match x with
  | SpecFloat.S754_zero s => SpecFloat.S754_zero (negb s)
  | SpecFloat.S754_infinity s => SpecFloat.S754_infinity (negb s)
  | SpecFloat.S754_nan => SpecFloat.S754_nan
  | SpecFloat.S754_finite s m e => SpecFloat.S754_finite (negb s) m e
  end.
Lemma B2SF_Bopp (x : b64) : B2SF (Bo x) = SFopp' (B2SF x).
Proof. destruct x; reflexivity. Qed.
Lemma round_aux_opp s m e l : BinarySingleNaN.binary_round_aux 53 1024 mode_NE (negb s) m e l = SFopp' (BinarySingleNaN.binary_round_aux 53 1024 mode_NE s m e l).
Proof.
  unfold BinarySingleNaN.binary_round_aux. destruct (SpecFloat.shr_fexp 53 1024 m e l) as [mrs e'].
  cbn [choice_mode]. destruct (SpecFloat.shr_fexp _ _ _ _ _) as [mrs'' e'']. destruct (SpecFloat.shr_m mrs''); try reflexivity.
  unfold binary_fit_aux. match goal with |- context [if ?b then _ else _] => destruct b end; reflexivity.
Qed.
Lemma SFopp'_invol x : SFopp' (SFopp' x) = x.
Proof. destruct x; cbn; rewrite ?negb_involutive; reflexivity. Qed.

Lemma Bmult_opp_r (x y : b64) : Bm x (Bo y) = Bo (Bm x y).
Proof.
  apply B2SF_inj. rewrite B2SF_Bopp. destruct x as [sx|sx| |sx mx ex Hx], y as [sy|sy| |sy my ey Hy]; cbn; try (rewrite xorb_comm, <- negb_xorb_l, xorb_comm; reflexivity); try reflexivity.
  rewrite !B2SF_SF2B. rewrite <- round_aux_opp. f_equal. destruct sx, sy; reflexivity.
Qed.
Lemma Bmult_opp_l (x y : b64) : Bm (Bo x) y = Bo (Bm x y).
Proof.
  apply B2SF_inj. rewrite B2SF_Bopp. destruct x as [sx|sx| |sx mx ex Hx], y as [sy|sy| |sy my ey Hy]; cbn; try (rewrite <- negb_xorb_l; reflexivity); try reflexivity.
  rewrite !B2SF_SF2B. rewrite <- round_aux_opp. f_equal. destruct sx, sy; reflexivity.
Qed.
Lemma Bmult_opp2 (t x y : b64) : Bm (Bm t (Bo x)) (Bo y) = Bm (Bm t x) y.
Proof. rewrite (Bmult_opp_r t x), Bmult_opp_r, Bmult_opp_l, Bopp_involutive. reflexivity. Qed.
Lemma Bmult_comm (x y : b64) : Bm x y = Bm y x.
Proof.
  apply B2SF_inj. destruct x as [sx|sx| |sx mx ex Hx], y as [sy|sy| |sy my ey Hy]; cbn; rewrite ?(xorb_comm sx sy); try reflexivity.
  rewrite !B2SF_SF2B. rewrite (xorb_comm sy sx), (Pos.mul_comm my mx), (Z.add_comm ey ex). reflexivity.
Qed.

Section C40.
Variable m : libm.
Lemma dist3_sym (v : variogram (Farith m)) x y z :
  @Distance3 (Farith m) v (neg (Farith m) x) (neg (Farith m) y) (neg (Farith m) z) = @Distance3 (Farith m) v x y z.
Proof. unfold Distance3. cbn [fsqrt mul add neg Farith]. rewrite !Bmult_opp2. reflexivity. Qed.
Lemma dist2_sym (v : variogram (Farith m)) x y :
  @Distance2 (Farith m) v (neg (Farith m) x) (neg (Farith m) y) = @Distance2 (Farith m) v x y.
Proof. unfold Distance2. cbn [fsqrt mul add neg Farith]. rewrite !Bmult_opp2. reflexivity. Qed.
Lemma dist1_sym (v : variogram (Farith m)) x : @Distance1 (Farith m) v (neg (Farith m) x) = @Distance1 (Farith m) v x.
Proof. unfold Distance1. cbn [fsqrt mul add neg Farith]. rewrite !Bmult_opp2. reflexivity. Qed.

(** ** adding the terms of zero lags *)
Lemma Bplus_zero_r (a : b64) s : a <> BinarySingleNaN.B754_zero true -> Bplus mode_NE a (BinarySingleNaN.B754_zero s) = a.
Proof.
  intros H. destruct a as [[]|[]| |]; cbn; try reflexivity; try congruence; destruct s; try reflexivity; exfalso; apply H; reflexivity.
Qed.
Lemma Bmult_zero_r (a : b64) s : BinarySingleNaN.is_finite a = true -> exists s', Bm a (BinarySingleNaN.B754_zero s) = BinarySingleNaN.B754_zero s'.
Proof. destruct a; cbn; try discriminate; eauto. Qed.
Notation fin := (BinarySingleNaN.is_finite).
Notation zero := (BinarySingleNaN.B754_zero false).
Lemma dist21 (v : variogram (Farith m)) x : Bm (Bm (txx v) x) x <> BinarySingleNaN.B754_zero true -> fin (tyy v) = true -> fin (Bm (txy v) x) = true ->
  @Distance2 (Farith m) v x zero = @Distance1 (Farith m) v x.
Proof.
  intros H1 H2 H3. unfold Distance2, Distance1. cbn [fsqrt mul add Farith num] in *. f_equal.
  destruct (Bmult_zero_r _ false H2) as [s1 E1]. rewrite E1. destruct (Bmult_zero_r (BinarySingleNaN.B754_zero s1) false eq_refl) as [s2 E2].
  rewrite E2, Bplus_zero_r by auto. destruct (Bmult_zero_r _ false H3) as [s3 E3]. rewrite E3. apply Bplus_zero_r. auto.
Qed.
Lemma dist32 (v : variogram (Farith m)) x y :
  Bplus mode_NE (Bm (Bm (txx v) x) x) (Bm (Bm (tyy v) y) y) <> BinarySingleNaN.B754_zero true ->
  Bplus mode_NE (Bplus mode_NE (Bm (Bm (txx v) x) x) (Bm (Bm (tyy v) y) y)) (Bm (Bm (txy v) x) y) <> BinarySingleNaN.B754_zero true ->
  fin (tzz v) = true -> fin (Bm (txz v) x) = true -> fin (Bm (tyz v) y) = true ->
  @Distance3 (Farith m) v x y zero = @Distance2 (Farith m) v x y.
Proof.
  intros H0 H1 H2 H3 H4. unfold Distance3, Distance2. cbn [fsqrt mul add Farith num] in *. f_equal.
  destruct (Bmult_zero_r _ false H2) as [s1 E1]. rewrite E1. destruct (Bmult_zero_r (BinarySingleNaN.B754_zero s1) false eq_refl) as [s2 E2].
  destruct (Bmult_zero_r _ false H3) as [s3 E3]. destruct (Bmult_zero_r _ false H4) as [s4 E4].
  rewrite E2, E3, E4, (Bplus_zero_r _ s2), (Bplus_zero_r _ s3), (Bplus_zero_r _ s4) by auto. reflexivity.
Qed.

(** range zero *)
Hypothesis (Hsin : lm_sin m (Flit 0 0) = Flit 0 0) (Hcos : lm_cos m (Flit 0 0) = Flit 1 0).
Lemma zero_range : exists v v1, @CreateVariogram (Farith m) "spherical"%string (Flit 1 0) (Flit 0 0) (Flit 1 0) (Flit 0 0) (Flit 0 0) (Flit 15 1) = Ok v /\
  @CreateVariogram (Farith m) "spherical"%string (Flit 1 0) (Flit 1 0) (Flit 1 0) (Flit 0 0) (Flit 0 0) (Flit 15 1) = Ok v1 /\
  @GetCorr1 (Farith m) v (Flit 0 0) = Flit 0 0 /\ @GetCorr1 (Farith m) v1 (Flit 0 0) = Flit 1 0.
Proof.
  assert (D : mul (Farith m) (Flit 0 0) Degree = Flit 0 0) by (vm_compute; reflexivity).
  unfold CreateVariogram.
  assert (N0 : flt (Farith m) (Flit 0 0) (lit (Farith m) 0 0) = false) by (vm_compute; reflexivity).
  assert (N1 : flt (Farith m) (Flit 1 0) (lit (Farith m) 0 0) = false) by (vm_compute; reflexivity).
  rewrite D, N0, N1. eexists _, _. split; [reflexivity|]. split; [reflexivity|].
  unfold GetCorr1, Corr1D, new_variogram, EstimateFactors, Distance1. cbn [vt azimuth dip range_x range_y range_z txx].
  change (fsin (Farith m)) with (lm_sin m). change (fcos (Farith m)) with (lm_cos m). rewrite Hsin, Hcos.
  split; apply B2SF_inj; vm_compute; reflexivity.
Qed.
End C40.
