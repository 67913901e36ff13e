(** With correctly rounded single precision logarithms the exponent computed for 2^22 + 1 is one too small. *)
From Coq Require Import ZArith List Bool Lia Reals Lra.
From Flocq Require Import Core.
From Verif Require Import Base M_FftSize S_Sizes P_FftSize P_Logs P_RBounds.
Import ListNotations.
Open Scope R_scope.

Definition rnd32 (x : R) : R := round radix2 (FLT_exp (-149) 24) ZnearestE x.
Definition rnd64 (x : R) : R := round radix2 (FLT_exp (-1074) 53) ZnearestE x.
Lemma rnd32_near x (m : Z) e : (e <= 0)%Z -> (-149 <= e)%Z -> bpow radix2 (e + 23) <= x < bpow radix2 (e + 24) ->
  Rabs (x * bpow radix2 (- e) - IZR m) < / 2 -> rnd32 x = IZR m * bpow radix2 e.
Proof.
  intros He He' Hx Hm. unfold rnd32, round, F2R, scaled_mantissa, cexp. cbn [Fnum Fexp].
  assert (E : FLT_exp (-149) 24 (mag radix2 x) = e).
  { rewrite (mag_unique_pos radix2 x (e + 24)); [unfold FLT_exp; lia|]. replace (e + 24 - 1)%Z with (e + 23)%Z by lia. exact Hx. }
  rewrite E. f_equal. f_equal. apply Znearest_imp. exact Hm.
Qed.

Lemma bpow_IZR e : (0 <= e)%Z -> bpow radix2 e = IZR (2 ^ e).
Proof. intros. rewrite <- (IZR_Zpower radix2) by auto. reflexivity. Qed.
Lemma bpow_neg_IZR e : (0 <= e)%Z -> bpow radix2 (- e) = / IZR (2 ^ e).
Proof. intros. rewrite bpow_opp, bpow_IZR by auto. reflexivity. Qed.

Lemma log2_f32 : rnd32 (ln 2) = 11629080 * / 16777216.
Proof.
  pose proof ln2_bounds as H. rewrite (rnd32_near (ln 2) 11629080 (-24)); try lia.
  - replace (bpow radix2 (-24)) with (/ 16777216); [reflexivity|symmetry; exact (bpow_neg_IZR 24 ltac:(lia))].
  - change (-24 + 23)%Z with (Z.opp 1). change (-24 + 24)%Z with 0%Z. rewrite (bpow_neg_IZR 1), (bpow_IZR 0) by lia.
    change (2 ^ 1)%Z with 2%Z. change (2 ^ 0)%Z with 1%Z. lra.
  - change (- -24)%Z with 24%Z. rewrite bpow_IZR by lia. change (2 ^ 24)%Z with 16777216%Z. apply Rabs_def1; lra.
Qed.

Lemma ln_4194305 : 22 * ln 2 <= ln 4194305 <= 22 * ln 2 + / 4194304.
Proof.
  replace 4194305 with (4194304 * (1 + / 4194304)) by lra. rewrite ln_mult by lra.
  assert (E : ln 4194304 = 22 * ln 2).
  { change 4194304 with (IZR (2 ^ 22)). rewrite ln_IZR_pow by lia. reflexivity. }
  rewrite E. assert (0 <= ln (1 + / 4194304) <= / 4194304); [|lra]. split.
  - left. rewrite <- ln_1. apply ln_increasing; lra.
  - apply Rnot_lt_le. intros C. apply exp_increasing in C. rewrite exp_ln in C by lra. pose proof (exp_ineq1_le (/ 4194304)). lra.
Qed.

Lemma log4194305_f32 : rnd32 (ln 4194305) = 15989985 * / 1048576.
Proof.
  pose proof ln2_bounds as H. pose proof ln_4194305 as H'. rewrite (rnd32_near (ln 4194305) 15989985 (-20)); try lia.
  - replace (bpow radix2 (-20)) with (/ 1048576); [reflexivity|symmetry; exact (bpow_neg_IZR 20 ltac:(lia))].
  - change (-20 + 23)%Z with 3%Z. change (-20 + 24)%Z with 4%Z. rewrite !bpow_IZR by lia.
    change (2 ^ 3)%Z with 8%Z. change (2 ^ 4)%Z with 16%Z. lra.
  - change (- -20)%Z with 20%Z. rewrite bpow_IZR by lia. change (2 ^ 20)%Z with 1048576%Z. apply Rabs_def1; lra.
Qed.

Lemma rnd64_int z : (Z.abs z <= 2 ^ 53)%Z -> rnd64 (IZR z) = IZR z.
Proof.
  intros Hz. apply round_generic; [apply valid_rnd_N|]. apply generic_format_FLT.
  destruct (Z.eq_dec (Z.abs z) (2 ^ 53)) as [E|].
  - apply FLT_spec with (Float radix2 (z / 2) 1); cbn [Fnum Fexp]; try lia.
    + unfold F2R. cbn [Fnum Fexp]. rewrite (bpow_IZR 1) by lia. rewrite <- mult_IZR. f_equal. 
      assert (z = 2 ^ 53 \/ z = - 2 ^ 53)%Z as [-> | ->] by lia; reflexivity.
    + assert (z = 2 ^ 53 \/ z = - 2 ^ 53)%Z as [-> | ->] by lia; reflexivity.
  - apply FLT_spec with (Float radix2 z 0); cbn [Fnum Fexp]; try lia.
    + unfold F2R. cbn [Fnum Fexp]. rewrite (bpow_IZR 0) by lia. change (2 ^ 0)%Z with 1%Z. lra.
    + change (Zpower radix2 53) with (2 ^ 53)%Z. lia.
Qed.

(** the quotient is 22 at most, so the exponent is not 23 *)
Theorem rounded_log_4194305 : (Zceil (rnd64 (rnd32 (ln 4194305) / rnd32 (ln 2))) <= 22)%Z.
Proof.
  rewrite log2_f32, log4194305_f32. apply Zceil_glb. rewrite <- (rnd64_int 22) by lia.
  apply round_le; [apply FLT_exp_valid; reflexivity|apply valid_rnd_N|]. lra.
Qed.
