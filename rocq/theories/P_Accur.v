(** Accuracy of correlations in double precision: rounding errors, and the spherical function. *)
From Coq Require Import ZArith Bool Lia Reals Lra String List.
From Flocq Require Import Core IEEE754.BinarySingleNaN.
From Flocq Require Relative.
From Verif Require Import Base Arith RealArith FloatArith M_Variogram S_Vario S_Random S_Normal P_Vario P_VarioNames P_VarioMore P_Special2 P_NormF S_CorrF P_CorrF P_CorrF2 P_CorrF3 P_CorrF4 P_CorrF5 P_CorrF7.
Import ListNotations.
Open Scope R_scope.

(** relative errors *)
Lemma rel_err y : bpow radix2 (-1022) <= Rabs y -> exists e, Rabs e <= u53 /\ rnd y = y * (1 + e).
Proof.
  intros H. destruct (Relative.relative_error_N_FLT_ex radix2 (-1074) 53 eq_refl (fun x => negb (Z.even x)) y H) as (e & A & B).
  exists e. split; [|exact B]. apply Rle_trans with (1 := A). rewrite u53_val. unfold bpow, radix2, Zpower_pos. simpl. lra.
Qed.
(** absolute errors *)
Lemma abs_err1 y : Rabs y < 2 -> Rabs (rnd y - y) <= u53.
Proof.
  intros H. destruct (Req_dec y 0) as [->|NZ]; [rewrite rnd_id by apply fmt_0; rewrite Rminus_0_r, Rabs_R0; apply bpow_ge_0|]. assert (V : Valid_exp (SpecFloat.fexp 53 1024)) by (apply fexp_correct; exact Hprec).
  pose proof (error_le_half_ulp radix2 (SpecFloat.fexp 53 1024) (fun x => negb (Z.even x)) y) as Q.
  assert (U : ulp radix2 (SpecFloat.fexp 53 1024) y <= 2 * u53).
  { rewrite ulp_neq_0 by exact NZ. unfold cexp. assert (M : (mag radix2 y <= 1)%Z) by (apply mag_le_bpow; [exact NZ|exact H]).
      replace (2 * u53) with (bpow radix2 (-52)) by (rewrite u53_val; unfold bpow, radix2, Zpower_pos; simpl; lra). apply bpow_le. unfold SpecFloat.fexp, SpecFloat.emin. lia. }
  change (round radix2 (SpecFloat.fexp 53 1024) (Znearest (fun x => negb (Z.even x))) y) with (rnd y) in Q. lra.
Qed.

(** the spherical function *)
Definition sphf (d : R) : R := if Rlt_dec d 1 then 1 - 3 / 2 * d + 1 / 2 * d ^ 3 else 0.
Lemma sphf_lip d e : 0 <= d -> 0 <= e -> Rabs (sphf d - sphf e) <= 3 / 2 * Rabs (d - e).
Proof.
  assert (L : forall d e, 0 <= d -> d <= e -> 0 <= sphf d - sphf e <= 3 / 2 * (e - d)).
  { clear. intros d e D DE. unfold sphf. destruct (Rlt_dec d 1), (Rlt_dec e 1); try lra.
    - assert (E : e ^ 3 - d ^ 3 = (e - d) * (e ^ 2 + e * d + d ^ 2)) by ring.
      assert (B : 0 <= e ^ 2 + e * d + d ^ 2 <= 3) by nra.
      assert (P : 0 <= (e - d) * (e ^ 2 + e * d + d ^ 2) <= (e - d) * 3) by (split; [apply Rmult_le_pos; lra|apply Rmult_le_compat_l; lra]).
      lra.
    - assert (E : 1 - 3 / 2 * d + 1 / 2 * d ^ 3 = (1 - d) * (1 - d / 2 - d ^ 2 / 2)) by field. rewrite E.
      assert (B : 0 <= 1 - d / 2 - d ^ 2 / 2 <= 1) by nra.
      assert (P : 0 <= (1 - d) * (1 - d / 2 - d ^ 2 / 2) <= (1 - d) * 1) by (split; [apply Rmult_le_pos; lra|apply Rmult_le_compat_l; lra]). lra. }
  intros D E. destruct (Rle_dec d e) as [C|C].
  - destruct (L d e D C). rewrite Rabs_right by lra. rewrite Rabs_left1 by lra. lra.
  - destruct (L e d E ltac:(lra)). rewrite Rabs_left1 by lra. rewrite Rabs_right by lra. lra.
Qed.
Section Sph.
Variable m : libm.
Notation F := (Farith m).
Lemma sph_value (d : b64) : le64 zero64 d -> Bltb d one64 = true ->
  Rabs (B2R (sub F (lit F 1 0) (mul F d (sub F (lit F 15 1) (mul F (mul F (lit F 5 1) d) d)))) - (1 - 3 / 2 * B2R d + 1 / 2 * B2R d ^ 3)) <= 4 * u53.
Proof.
  intros D L. assert (Fd : fin d = true) by exact (lt_fin d _ D L).
  destruct l1 as [F1 V1]. destruct l15 as [F15 V15]. destruct l5 as [F5 V5].
  assert (R0 : 0 <= B2R d) by (apply (le_fin zero64 d eq_refl Fd); exact D).
  assert (R1 : B2R d < 1). { unfold one64 in L. rewrite Bltb_correct in L by auto. rewrite V1 in L. destruct (Rlt_bool_spec (B2R d) 1); [assumption|discriminate L]. }
  cbn [sub mul lit Farith].
  destruct (mult_val (Flit 5 1) d F5 Fd) as [Fa Va]; [rewrite V5; apply (mod4_in 0 1); lra|]. rewrite V5 in Va.
  set (a := Bm (Flit 5 1) d) in *. assert (A : 0 <= B2R a <= 1 / 2) by (rewrite Va; apply rnd_between; [apply fmt_0|apply fmt_12|lra]).
  destruct (mult_val a d Fa Fd) as [Fb Vb]; [apply (mod4_in 0 1); nra|].
  set (b := Bm a d) in *. assert (B : 0 <= B2R b <= 1 / 2) by (rewrite Vb; apply rnd_between; [apply fmt_0|apply fmt_12|nra]).
  destruct (minus_val (Flit 15 1) b F15 Fb) as [Fc Vc]; [rewrite V15; apply (mod4_in 0 4); lra|]. rewrite V15 in Vc.
  set (c := Bminus mode_NE (Flit 15 1) b) in *. assert (C : 1 <= B2R c <= 3 / 2) by (rewrite Vc; apply rnd_between; [apply fmt_1|apply fmt_32|lra]).
  destruct (mult_val d c Fd Fc) as [Fe Ve]; [apply (mod4_in 0 4); nra|].
  set (e := Bm d c) in *. assert (E0 : 0 <= B2R e <= 3 / 2) by (rewrite Ve; apply rnd_between; [apply fmt_0|apply fmt_32|nra]).
  destruct (minus_val (Flit 1 0) e F1 Fe) as [Fr Vr]; [rewrite V1; apply (mod4_in (-1) 4); lra|]. rewrite V1 in Vr.
  set (r := Bminus mode_NE (Flit 1 0) e) in *.
  assert (Ea : Rabs (B2R a - 1 / 2 * B2R d) <= u53 / 2) by (rewrite Va; apply err_half; lra).
  assert (Eb : Rabs (B2R b - B2R a * B2R d) <= u53 / 2) by (rewrite Vb; apply err_half; nra).
  assert (Ec : Rabs (B2R c - (3 / 2 - B2R b)) <= u53) by (rewrite Vc; apply abs_err1; apply Rabs_def1; lra).
  assert (Ee : Rabs (B2R e - B2R d * B2R c) <= u53) by (rewrite Ve; apply abs_err1; apply Rabs_def1; nra).
  assert (Er : Rabs (B2R r - (1 - B2R e)) <= u53) by (rewrite Vr; apply abs_err1; apply Rabs_def1; lra).
  clearbody a b c e r. clear Va Vb Vc Ve Vr. revert Ea Eb Ec Ee Er A B C E0 R0 R1. generalize (B2R a) (B2R b) (B2R c) (B2R e) (B2R r) (B2R d). clear.
  pose proof u53_small as U. generalize dependent u53. intros u U a b c e r d Ea Eb Ec Ee Er A B C E0 R0 R1.
  apply Rabs_le_inv in Ea. apply Rabs_le_inv in Eb. apply Rabs_le_inv in Ec. apply Rabs_le_inv in Ee. apply Rabs_le_inv in Er.
  assert (B1 : - u <= b - 1 / 2 * d * d <= u).
  { assert (- (u / 2) <= a * d - 1 / 2 * d * d <= u / 2). { replace (a * d - 1 / 2 * d * d) with ((a - 1 / 2 * d) * d) by ring. split; nra. } lra. }
  assert (C1 : - (2 * u) <= c - (3 / 2 - 1 / 2 * d * d) <= 2 * u) by lra.
  assert (E1 : - (3 * u) <= e - d * (3 / 2 - 1 / 2 * d * d) <= 3 * u).
  { assert (- (2 * u) <= d * c - d * (3 / 2 - 1 / 2 * d * d) <= 2 * u). { replace (d * c - d * (3 / 2 - 1 / 2 * d * d)) with (d * (c - (3 / 2 - 1 / 2 * d * d))) by ring.
      generalize dependent (c - (3 / 2 - 1 / 2 * d * d)). intros z Z. clear - Z R0 R1 U. split; nra. } lra. }
  apply Rabs_le. replace (1 - 3 / 2 * d + 1 / 2 * d ^ 3) with (1 - d * (3 / 2 - 1 / 2 * d * d)) by ring. lra.
Qed.
(** Corr1D of the spherical type *)
Lemma sph_corr (v : variogram F) (d : b64) : vt v = SPHERICAL -> le64 zero64 d -> fin d = true -> Rabs (B2R (Corr1D v d) - sphf (B2R d)) <= 4 * u53.
Proof.
  intros T D Fd. pose proof u53_small. unfold Corr1D. rewrite T. destruct l1 as [F1 V1]. destruct (flt F d (lit F 1 0)) eqn:L.
  - assert (R1 : B2R d < 1). { cbn [flt lit Farith] in L. rewrite Bltb_correct in L by auto. rewrite V1 in L. destruct (Rlt_bool_spec (B2R d) 1); [assumption|discriminate L]. }
    unfold sphf. destruct (Rlt_dec (B2R d) 1); [|lra]. apply sph_value; assumption.
  - assert (R1 : 1 <= B2R d). { cbn [flt lit Farith] in L. rewrite Bltb_correct in L by auto. rewrite V1 in L. destruct (Rlt_bool_spec (B2R d) 1); [discriminate L|assumption]. }
    unfold sphf. destruct (Rlt_dec (B2R d) 1); [lra|]. destruct l0 as [_ V0]. cbn [lit Farith]. rewrite V0. rewrite Rminus_0_r, Rabs_R0. lra.
Qed.
End Sph.
