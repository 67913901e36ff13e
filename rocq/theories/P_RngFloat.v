(** The doubles made from the generator's words are exact. *)
From Coq Require Import ZArith List Bool Lia Reals Lra.
From Flocq Require Import Core IEEE754.BinarySingleNaN.
From Flocq Require IEEE754.Binary IEEE754.Bits.
From Verif Require Import Base Arith RealArith FloatArith M_Dsfmt M_DsfmtBulk P_Words.
Open Scope R_scope.

Definition ulp52 : R := / IZR (2 ^ 52).
Lemma ulp52_bpow : ulp52 = bpow radix2 (-52).
Proof. reflexivity. Qed.

Section W.
Variable k : Z.
Hypothesis Hk : (0 <= k < 2 ^ 52)%Z.

Lemma aux_hi : Bits.binary_float_of_bits_aux 52 11 (DSFMT_HIGH_CONST + k) =
  Binary.F754_finite false (Z.to_pos (k + 2 ^ 52)) (-52).
Proof.
  unfold Bits.binary_float_of_bits_aux, Bits.split_bits. cbv zeta.
  assert (E1 : ((DSFMT_HIGH_CONST + k) mod 2 ^ 52 = k)%Z).
  { unfold DSFMT_HIGH_CONST. replace (0x3FF0000000000000 + k)%Z with (k + 1023 * 2 ^ 52)%Z by lia.
    rewrite Z_mod_plus_full. apply Z.mod_small; auto. }
  assert (E2 : ((DSFMT_HIGH_CONST + k) / 2 ^ 52 = 1023)%Z).
  { unfold DSFMT_HIGH_CONST. replace (0x3FF0000000000000 + k)%Z with (k + 1023 * 2 ^ 52)%Z by lia.
    rewrite Z_div_plus_full, Z.div_small by lia. reflexivity. }
  rewrite E1, E2. change (1023 mod 2 ^ 11)%Z with 1023%Z.
  replace (Zle_bool (2 ^ 52 * 2 ^ 11) (DSFMT_HIGH_CONST + k)) with false
    by (symmetry; apply Z.leb_gt; unfold DSFMT_HIGH_CONST; lia).
  change (Zeq_bool 1023 0) with false. change (Zeq_bool 1023 (2 ^ 11 - 1)) with false. cbv iota.
  destruct (k + 2 ^ 52)%Z eqn:E; try lia. reflexivity.
Qed.

Lemma of_bits_hi : let x := Bits.b64_of_bits (DSFMT_HIGH_CONST + k) in
  Binary.is_finite _ _ x = true /\ Binary.B2R _ _ x = 1 + IZR k * ulp52.
Proof.
  cbv zeta. unfold Bits.b64_of_bits, Bits.binary_float_of_bits.
  rewrite Binary.is_finite_FF2B, Binary.B2R_FF2B, aux_hi. split; [reflexivity|].
  unfold Binary.FF2R.
  unfold F2R; cbn [Fnum Fexp cond_Zopp]. rewrite Z2Pos.id by lia. rewrite plus_IZR.
  rewrite ulp52_bpow. replace (IZR (2 ^ 52)) with (bpow radix2 52) by (symmetry; apply (IZR_Zpower radix2); lia).
  rewrite Rmult_plus_distr_r, <- bpow_plus. change (bpow radix2 (52 + -52)) with 1. ring.
Qed.
End W.

Lemma fmt_k (k : Z) : (Z.abs k < 2 ^ 53)%Z -> generic_format radix2 (SpecFloat.fexp 53 1024) (IZR k * ulp52).
Proof.
  intros Hk. rewrite ulp52_bpow. apply generic_format_FLT.
  exists (Float radix2 k (-52)); auto. unfold SpecFloat.emin. cbn [Fexp]. lia.
Qed.
Lemma ulp52_pos : 0 < ulp52. Proof. unfold ulp52. apply Rinv_0_lt_compat. apply IZR_lt. reflexivity. Qed.
Lemma ulp52_1 : IZR (2 ^ 52) * ulp52 = 1.
Proof. unfold ulp52. apply Rinv_r. apply not_0_IZR. discriminate. Qed.
Lemma one_is : 1 = IZR (2 ^ 52) * ulp52. Proof. symmetry. apply ulp52_1. Qed.

(** exact subtraction *)
Lemma minus_exact (x y : b64) (k : Z) : is_finite x = true -> is_finite y = true ->
  B2R x - B2R y = IZR k * ulp52 -> (Z.abs k < 2 ^ 53)%Z ->
  is_finite (Bminus mode_NE x y) = true /\ B2R (Bminus mode_NE x y) = IZR k * ulp52.
Proof.
  intros Hx Hy E Hk. pose proof (Bminus_correct 53 1024 Hprec Hmax mode_NE x y Hx Hy) as C.
  rewrite E in C. rewrite round_generic in C by (try apply fmt_k; auto; apply valid_rnd_round_mode).
  rewrite Rlt_bool_true in C; [tauto|].
  apply Rlt_trans with 2.
  - rewrite Rabs_mult, (Rabs_pos_eq ulp52) by (pose proof ulp52_pos; lra).
    apply Rlt_le_trans with (IZR (2 ^ 53) * ulp52).
    + apply Rmult_lt_compat_r; [apply ulp52_pos|]. rewrite <- abs_IZR. apply IZR_lt; auto.
    + change (2 ^ 53)%Z with (2 * 2 ^ 52)%Z. rewrite mult_IZR, Rmult_assoc, ulp52_1. lra.
  - change 2 with (bpow radix2 1). apply bpow_lt. lia.
Qed.
Lemma plus_exact (x y : b64) (k : Z) : is_finite x = true -> is_finite y = true ->
  B2R x + B2R y = IZR k * ulp52 -> (Z.abs k < 2 ^ 53)%Z ->
  is_finite (Bplus mode_NE x y) = true /\ B2R (Bplus mode_NE x y) = IZR k * ulp52.
Proof.
  intros Hx Hy E Hk. pose proof (Bplus_correct 53 1024 Hprec Hmax mode_NE x y Hx Hy) as C.
  rewrite E in C. rewrite round_generic in C by (try apply fmt_k; auto; apply valid_rnd_round_mode).
  rewrite Rlt_bool_true in C; [tauto|].
  apply Rlt_trans with 2.
  - rewrite Rabs_mult, (Rabs_pos_eq ulp52) by (pose proof ulp52_pos; lra).
    apply Rlt_le_trans with (IZR (2 ^ 53) * ulp52).
    + apply Rmult_lt_compat_r; [apply ulp52_pos|]. rewrite <- abs_IZR. apply IZR_lt; auto.
    + change (2 ^ 53)%Z with (2 * 2 ^ 52)%Z. rewrite mult_IZR, Rmult_assoc, ulp52_1. lra.
  - change 2 with (bpow radix2 1). apply bpow_lt. lia.
Qed.

Lemma Flit1 : is_finite (Flit 1 0) = true /\ B2R (Flit 1 0) = 1.
Proof.
  assert (E : Flit 1 0 = BinarySingleNaN.Bone (prec := 53) (emax := 1024)) by (apply B2SF_inj; vm_compute; reflexivity).
  rewrite E. split; [apply is_finite_Bone|apply Bone_correct].
Qed.
Lemma Flit2 : is_finite (Flit 2 0) = true /\ B2R (Flit 2 0) = 2.
Proof.
  assert (E : B2SF (Flit 2 0) = SpecFloat.S754_finite false (2 ^ 52)%positive (-51)) by (vm_compute; reflexivity).
  destruct (Flit 2 0); try discriminate. injection E as -> -> ->. split; [reflexivity|].
  unfold B2R, F2R; cbn [Fnum Fexp cond_Zopp].
  change (IZR (Z.pos (2 ^ 52))) with (IZR (2 ^ 52)). rewrite (IZR_Zpower radix2) by lia.
  rewrite <- bpow_plus. reflexivity.
Qed.

(** The word as a double over binary64 and over the reals. *)
Lemma hi_split w : hi w -> exists k, (0 <= k < 2 ^ 52)%Z /\ w = (DSFMT_HIGH_CONST + k)%Z.
Proof. intros H. exists (w - DSFMT_HIGH_CONST)%Z. unfold hi in H. lia. Qed.

Section Lib.
Variable m : libm.
Notation F := (Farith m).

Lemma ofbits_F k : (0 <= k < 2 ^ 52)%Z ->
  is_finite (ofbits F (DSFMT_HIGH_CONST + k) : b64) = true /\
  B2R (ofbits F (DSFMT_HIGH_CONST + k) : b64) = 1 + IZR k * ulp52.
Proof.
  intros Hk. destruct (of_bits_hi k Hk) as [H1 H2]. cbn [ofbits Farith].
  rewrite Binary.is_finite_B2BSN, Binary.B2R_B2BSN. auto.
Qed.
Lemma close_open_F k : (0 <= k < 2 ^ 52)%Z ->
  let x : b64 := sub F (ofbits F (DSFMT_HIGH_CONST + k)) (lit F 1 0) in
  is_finite x = true /\ B2R x = IZR k * ulp52.
Proof.
  intros Hk. destruct (ofbits_F k Hk) as [H1 H2]. destruct Flit1 as [H3 H4].
  apply minus_exact; auto; [|lia]. cbn [lit Farith]. rewrite H2, H4. ring.
Qed.
Lemma open_close_F k : (0 <= k < 2 ^ 52)%Z ->
  let x : b64 := sub F (lit F 2 0) (ofbits F (DSFMT_HIGH_CONST + k)) in
  is_finite x = true /\ B2R x = IZR (2 ^ 52 - k) * ulp52.
Proof.
  intros Hk. destruct (ofbits_F k Hk) as [H1 H2]. destruct Flit2 as [H3 H4].
  apply minus_exact; auto; [|lia]. cbn [lit Farith]. rewrite H2, H4.
  rewrite minus_IZR, Rmult_minus_distr_r, ulp52_1. ring.
Qed.
End Lib.

Lemma ofbits_R k : (0 <= k < 2 ^ 52)%Z -> ofbits Rarith (DSFMT_HIGH_CONST + k) = 1 + IZR k * ulp52.
Proof. intros Hk. apply (of_bits_hi k Hk). Qed.

(** |= 1 *)
Lemma hi_or1 k : (0 <= k < 2 ^ 52)%Z ->
  exists k', (0 < k' < 2 ^ 52)%Z /\ Z.lor (DSFMT_HIGH_CONST + k) 1 = (DSFMT_HIGH_CONST + k')%Z /\ Z.Odd k'.
Proof.
  intros Hk. destruct (Z.Even_or_Odd k) as [[q E]|[q E]].
  - exists (k + 1)%Z. split; [lia|]. split; [|exists q; lia].
    rewrite Z.lor_comm. rewrite <- Z.lxor_lor. rewrite <- Z.add_nocarry_lxor. lia.
    all: replace (DSFMT_HIGH_CONST + k)%Z with (2 * (q + DSFMT_HIGH_CONST / 2))%Z by (change (DSFMT_HIGH_CONST / 2)%Z with 2303591209400008704%Z; unfold DSFMT_HIGH_CONST; lia).
    all: rewrite Z.land_comm; change 1%Z with (Z.ones 1); rewrite Z.land_ones by lia;
      change (2 ^ 1)%Z with 2%Z; rewrite Z.mul_comm; apply Z_mod_mult.
  - exists k. split; [lia|]. split; [|exists q; lia].
    replace (DSFMT_HIGH_CONST + k)%Z with (Z.lor (2 * (q + DSFMT_HIGH_CONST / 2)) 1).
    + rewrite <- Z.lor_assoc. reflexivity.
    + rewrite <- Z.lxor_lor. rewrite <- Z.add_nocarry_lxor.
      change (DSFMT_HIGH_CONST / 2)%Z with 2303591209400008704%Z; unfold DSFMT_HIGH_CONST; lia.
      all: change 1%Z with (Z.ones 1); rewrite Z.land_ones by lia;
      change (2 ^ 1)%Z with 2%Z; rewrite Z.mul_comm; apply Z_mod_mult.
Qed.

(** ** The conversions of the bulk functions are the ones of the single draws *)
Lemma bits_id (x : Bits.binary64) : Bits.b64_of_bits (Bits.bits_of_b64 x) = x.
Proof. exact (Bits.binary_float_of_bits_of_binary_float 52 11 eq_refl eq_refl eq_refl x). Qed.

Lemma cmp_irr (a b : comparison) (p q : a = b) : p = q.
Proof. apply Eqdep_dec.UIP_dec. decide equality. Qed.
Lemma Bminus_irr (p p' : FLX.Prec_gt_0 53) (q q' : Prec_lt_emax 53 1024) md x y :
  @Bminus 53 1024 p q md x y = @Bminus 53 1024 p' q' md x y.
Proof. rewrite (cmp_irr _ _ p p'), (cmp_irr _ _ q q'). reflexivity. Qed.
Lemma Bplus_irr (p p' : FLX.Prec_gt_0 53) (q q' : Prec_lt_emax 53 1024) md x y :
  @Bplus 53 1024 p q md x y = @Bplus 53 1024 p' q' md x y.
Proof. rewrite (cmp_irr _ _ p p'), (cmp_irr _ _ q q'). reflexivity. Qed.
Lemma B2BSN_minus x y : Binary.B2BSN 53 1024 (Bits.b64_minus mode_NE x y) =
  Bminus mode_NE (Binary.B2BSN 53 1024 x) (Binary.B2BSN 53 1024 y).
Proof. etransitivity; [apply Binary.B2BSN_BSN2B|apply Bminus_irr]. Qed.
Lemma B2BSN_plus x y : Binary.B2BSN 53 1024 (Bits.b64_plus mode_NE x y) =
  Bplus mode_NE (Binary.B2BSN 53 1024 x) (Binary.B2BSN 53 1024 y).
Proof. etransitivity; [apply Binary.B2BSN_BSN2B|apply Bplus_irr]. Qed.
