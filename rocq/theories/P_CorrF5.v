(** Correlations in double precision: the exponential and Gaussian types never grow with the lag. *)
From Coq Require Import ZArith Bool Lia Reals Lra String List.
From Flocq Require Import Core IEEE754.BinarySingleNaN.
From Verif Require Import Base Arith FloatArith M_Variogram S_Vario S_Random S_Normal P_Vario P_VarioNames P_NormF P_VarioF S_CorrF P_CorrF P_CorrF2 P_CorrF3.
Import ListNotations.
Open Scope R_scope.

Lemma not_nan_refl (x : b64) : is_nan x = false -> le64 x x.
Proof. destruct x as [s|s| |s k e H]; try discriminate; intros _; unfold le64. - destruct s; reflexivity. - destruct s; reflexivity. - rewrite Bleb_correct by reflexivity. apply Rle_bool_true. lra. Qed.
Lemma le_inf (x : b64) : is_nan x = false -> le64 x (B754_infinity false).
Proof. destruct x as [s|s| |s k e H]; try discriminate; intros _; try destruct s; reflexivity. Qed.
Lemma le_fin (x y : b64) : fin x = true -> fin y = true -> (le64 x y <-> B2R x <= B2R y).
Proof. intros A B. unfold le64. rewrite Bleb_correct by assumption. split; [destruct (Rle_bool_spec (B2R x) (B2R y)); [auto|discriminate]|apply Rle_bool_true]. Qed.
Lemma inf_le (y : b64) : le64 (B754_infinity false) y -> y = B754_infinity false.
Proof. destruct y as [s|s| |s k e H]; try discriminate; intros; destruct s; try discriminate; reflexivity. Qed.
Lemma overflow_inf (x y : b64) : fin x = true -> fin y = true -> 0 <= B2R x * B2R y -> Rlt_bool (Rabs (rnd (B2R x * B2R y))) (bpow radix2 1024) = false -> Bm x y = B754_infinity false.
Proof.
  intros Fx Fy P O. pose proof (Bmult_correct 53 1024 Hprec Hmax mode_NE x y) as C. rewrite O in C.
  assert (S : xorb (Bsign x) (Bsign y) = false).
  { assert (Z : forall z : b64, fin z = true -> (Bsign z = true -> B2R z <= 0) /\ (Bsign z = false -> 0 <= B2R z)).
    { intros [s|s| |s k e H] F; try discriminate; cbn; [lra|]. destruct s; (split; [|]); try discriminate; intros _; [apply F2R_le_0|apply F2R_ge_0]; cbn; lia. }
    destruct (Rlt_bool_spec (Rabs (rnd (B2R x * B2R y))) (bpow radix2 1024)) as [|G]; [discriminate|].
    assert (NZ : B2R x * B2R y <> 0). { intros E. rewrite E, rnd_id, Rabs_R0 in G by apply fmt_0. pose proof (bpow_gt_0 radix2 1024). lra. }
    destruct (Z x Fx) as [X1 X2], (Z y Fy) as [Y1 Y2]. destruct (Bsign x), (Bsign y); try reflexivity; exfalso.
    - specialize (X1 eq_refl). specialize (Y2 eq_refl). nra.
    - specialize (X2 eq_refl). specialize (Y1 eq_refl). nra. }
  rewrite S in C. cbn in C. apply B2SF_inj. exact C.
Qed.
(** products of numbers that are not negative *)
Lemma mult_mono (p q x y : b64) : le64 zero64 p -> le64 zero64 x -> le64 p q -> le64 x y -> is_nan (Bm p x) = false -> is_nan (Bm q y) = false ->
  fin x = true -> fin y = true -> (fin q = false -> Bm q y = B754_infinity false) -> le64 (Bm p x) (Bm q y).
Proof.
  intros P X PQ XY N1 N2 Fx Fy I.
  destruct (fin q) eqn:Fq; [|rewrite I by reflexivity; apply le_inf; exact N1].
  assert (Fp : fin p = true). { destruct (ge0_cases p P) as [[s ->]|[->|[A _]]]; [reflexivity| |exact A]. apply inf_le in PQ. subst q. discriminate Fq. }
  assert (P0 : 0 <= B2R p) by (apply (le_fin zero64 p); auto). assert (X0 : 0 <= B2R x) by (apply (le_fin zero64 x); auto).
  assert (PQ' : B2R p <= B2R q) by (apply le_fin; auto). assert (XY' : B2R x <= B2R y) by (apply le_fin; auto).
  assert (M : B2R p * B2R x <= B2R q * B2R y) by (apply Rmult_le_compat; lra).
  assert (M0 : 0 <= B2R p * B2R x) by (apply Rmult_le_pos; lra).
  destruct (Rlt_bool (Rabs (rnd (B2R q * B2R y))) (bpow radix2 1024)) eqn:O.
  - assert (O2 : Rlt_bool (Rabs (rnd (B2R p * B2R x))) (bpow radix2 1024) = true).
    { apply Rlt_bool_true. destruct (Rlt_bool_spec (Rabs (rnd (B2R q * B2R y))) (bpow radix2 1024)) as [L|]; [|discriminate].
      rewrite Rabs_right in * by (apply Rle_ge, rnd_nn; lra). apply Rle_lt_trans with (2 := L). apply rnd_mono, M. }
    pose proof (Bmult_correct 53 1024 Hprec Hmax mode_NE p x) as C1. pose proof (Bmult_correct 53 1024 Hprec Hmax mode_NE q y) as C2.
    rewrite O2 in C1. rewrite O in C2. destruct C1 as [E1 [F1 _]], C2 as [E2 [F2 _]].
    apply le_fin; [rewrite F1, Fp, Fx; reflexivity|rewrite F2, Fq, Fy; reflexivity|]. rewrite E1, E2. apply rnd_mono, M.
  - rewrite (overflow_inf q y); auto; [apply le_inf; exact N1|lra].
Qed.
Lemma ge0_trans (x y : b64) : le64 zero64 x -> le64 x y -> le64 zero64 y.
Proof.
  intros X XY. destruct (ge0_cases x X) as [[s ->]|[->|[A B]]].
  - destruct y as [t|t| |t k e H]; try discriminate; try reflexivity; exact XY.
  - rewrite (inf_le y XY). reflexivity.
  - destruct y as [t|t| |t k e H].
    + reflexivity.
    + destruct t; [|reflexivity]. destruct x as [s|s| |s k e H]; try discriminate.
    + destruct x; discriminate XY.
    + apply (le_fin zero64 (B754_finite t k e H) eq_refl eq_refl). pose proof (proj1 (le_fin x (B754_finite t k e H) A eq_refl) XY) as Q.
      pose proof (proj1 (le_fin zero64 x eq_refl A) X) as Q0. apply Rle_trans with (1 := Q0). exact Q.
Qed.
Lemma sqrt_mono (x y : b64) : le64 zero64 x -> le64 x y -> le64 (Bsqrt mode_NE x) (Bsqrt mode_NE y).
Proof.
  intros X XY. assert (NX : is_nan x = false) by (destruct x; try discriminate; reflexivity). assert (NY : is_nan y = false) by (destruct x as [s|s| |s k e H], y; try discriminate; reflexivity).
  pose proof (ge0_trans x y X XY) as Y.
  assert (S : forall z : b64, le64 zero64 z -> z = B754_infinity false \/ (fin z = true /\ fin (Bsqrt mode_NE z) = true /\ B2R (Bsqrt mode_NE z) = rnd (sqrt (B2R z)))).
  { intros z Hz. destruct (ge0_cases z Hz) as [[s ->]|[->|[A B]]].
    - right. split; [reflexivity|]. split; [reflexivity|]. cbn [B2R Bsqrt]. rewrite sqrt_0, rnd_id; [reflexivity|apply fmt_0].
    - left. reflexivity.
    - right. split; [exact A|]. pose proof (Bsqrt_correct 53 1024 Hprec Hmax mode_NE z) as [E [F _]]. split; [|exact E].
      rewrite F. destruct z as [s|s| |s k e H]; try discriminate; try reflexivity. cbn in B. subst. reflexivity. }
  destruct (S y Y) as [->|(Fy & Fsy & Ey)].
  - apply le_inf. destruct (S x X) as [->|(Fx & Fsx & Ex)]; [reflexivity|]. apply finite_not_nan, Fsx.
  - destruct (S x X) as [->|(Fx & Fsx & Ex)]; [apply inf_le in XY; subst; discriminate Fy|].
    apply le_fin; auto. rewrite Ex, Ey. apply rnd_mono. apply sqrt_le_1_alt. apply le_fin; auto.
Qed.
Lemma ge0_not_nan (x : b64) : le64 zero64 x -> is_nan x = false. Proof. destruct x; try discriminate; reflexivity. Qed.
Lemma opp_mono (x y : b64) : le64 x y -> le64 (Bo y) (Bo x).
Proof.
  intros H. destruct (fin x) eqn:Fx, (fin y) eqn:Fy.
  - apply le_fin; [rewrite is_finite_Bopp; exact Fy|rewrite is_finite_Bopp; exact Fx|]. rewrite !B2R_Bopp. apply (le_fin x y Fx Fy) in H. lra.
  - destruct y as [t|t| |t k e B]; try discriminate Fy; [|destruct x; discriminate H]. destruct t; [destruct x as [s|s| |s k e B]; try destruct s; discriminate H || discriminate Fx|].
    destruct x as [s|s| |s k e B]; try discriminate Fx; try destruct s; reflexivity.
  - destruct x as [t|t| |t k e B]; try discriminate Fx; [|destruct y; discriminate H]. destruct t; [|destruct y as [s|s| |s k e B]; try destruct s; discriminate H || discriminate Fy].
    destruct y as [s|s| |s k e B]; try discriminate Fy; try destruct s; reflexivity.
  - destruct x as [t|t| |t k e B]; try discriminate Fx; [|destruct y; discriminate H]. destruct y as [s|s| |s k e' B']; try discriminate Fy; [|destruct t; discriminate H]. destruct t, s; try discriminate H; reflexivity.
Qed.
(** a x and a x x, for a >= 0 finite *)
Lemma lin_mono (a x y : b64) : nn a -> fin x = true -> fin y = true -> le64 zero64 x -> le64 x y -> le64 zero64 (Bm a x) /\ le64 (Bm a x) (Bm a y) /\
  (fin (Bm a y) = false -> Bm a y = B754_infinity false /\ 0 < B2R y).
Proof.
  intros [Fa Na] Fx Fy X XY. destruct (mult_ff a x Fa Fx) as [N1 S1]. destruct (mult_ff a y Fa Fy) as [N2 S2].
  pose proof (ge0_trans x y X XY) as Y. assert (A0 : le64 zero64 a) by (apply nn_ge0; split; assumption).
  assert (X0 : 0 <= B2R x) by (apply (le_fin zero64 x); auto). assert (Y0 : 0 <= B2R y) by (apply (le_fin zero64 y); auto).
  split; [|split].
  - destruct (fin (Bm a x)) eqn:Fm.
    + apply (le_fin zero64); auto. pose proof (Bmult_correct 53 1024 Hprec Hmax mode_NE a x) as C.
      destruct (Rlt_bool (Rabs (rnd (B2R a * B2R x))) (bpow radix2 1024)) eqn:O.
      * destruct C as [E _]. rewrite E. apply rnd_nn. apply Rmult_le_pos; assumption.
      * rewrite (overflow_inf a x Fa Fx) in Fm; [discriminate Fm|apply Rmult_le_pos; assumption|exact O].
    + pose proof (Bmult_correct 53 1024 Hprec Hmax mode_NE a x) as C.
      destruct (Rlt_bool (Rabs (rnd (B2R a * B2R x))) (bpow radix2 1024)) eqn:O.
      * destruct C as [_ [E _]]. rewrite Fm, Fa, Fx in E. discriminate E.
      * rewrite (overflow_inf a x Fa Fx); [reflexivity|apply Rmult_le_pos; assumption|exact O].
  - apply mult_mono; auto. apply not_nan_refl, finite_not_nan, Fa. intros Q. rewrite Fa in Q. discriminate Q.
  - intros Fm. pose proof (Bmult_correct 53 1024 Hprec Hmax mode_NE a y) as C.
    destruct (Rlt_bool (Rabs (rnd (B2R a * B2R y))) (bpow radix2 1024)) eqn:O.
    + destruct C as [_ [E _]]. rewrite Fm, Fa, Fy in E. discriminate E.
    + split; [apply (overflow_inf a y Fa Fy); [apply Rmult_le_pos; assumption|exact O]|].
      destruct Y0 as [|Z]; [assumption|]. exfalso. rewrite <- Z, Rmult_0_r, rnd_id, Rabs_R0 in O by apply fmt_0. rewrite Rlt_bool_true in O; [discriminate O|apply bpow_gt_0].
Qed.
Lemma inf_mult (y : b64) : fin y = true -> 0 < B2R y -> Bm (B754_infinity false) y = B754_infinity false.
Proof. intros F P. destruct y as [s|s| |s k e H]; try discriminate F; [cbn in P; lra|]. destruct s; [|reflexivity]. exfalso. assert (B2R (B754_finite true k e H) < 0) by (apply F2R_lt_0; cbn; lia). lra. Qed.
Lemma sq_mono (a x y : b64) : nn a -> fin x = true -> fin y = true -> le64 zero64 x -> le64 x y -> le64 zero64 (Bm (Bm a x) x) /\ le64 (Bm (Bm a x) x) (Bm (Bm a y) y).
Proof.
  intros A Fx Fy X XY. destruct (lin_mono a x y A Fx Fy X XY) as (L0 & L1 & L2).
  destruct (sq_not_nan a x A Fx) as [N1 S1]. destruct (sq_not_nan a y A Fy) as [N2 S2].
  split.
  - destruct S1 as [S1|[t S1]]; [apply sign_ge0; assumption|rewrite S1; reflexivity].
  - apply mult_mono; auto. intros Q. destruct (L2 Q) as [-> P]. apply inf_mult; assumption.
Qed.

Section Mono.
Variable m : libm.
Hypothesis ok : fair m.
Hypothesis mono : exp_monotone m.
Notation F := (Farith m).
Lemma l3n : nn (Flit 3 0). Proof. destruct l3 as [A B]. split; [exact A|]. rewrite B. lra. Qed.
Lemma m3_opp : Flit (-3) 0 = Bo (Flit 3 0). Proof. apply B2SF_inj. vm_compute. reflexivity. Qed.
Lemma ext_lin (d e : b64) : le64 zero64 d -> le64 d e -> le64 (Bm (Flit 3 0) d) (Bm (Flit 3 0) e).
Proof.
  intros D DE. pose proof (ge0_trans d e D DE) as E. destruct l3 as [F3 V3].
  destruct (fin e) eqn:Fe.
  - assert (Fd : fin d = true). { destruct (ge0_cases d D) as [[s ->]|[->|[A _]]]; [reflexivity| |exact A]. rewrite (inf_le e DE) in Fe. discriminate Fe. }
    apply (lin_mono (Flit 3 0) d e l3n Fd Fe D DE).
  - destruct (ge0_cases e E) as [[s ->]|[->|[A _]]]; [discriminate Fe| |rewrite A in Fe; discriminate Fe].
    assert (I : Bm (Flit 3 0) (B754_infinity false) = B754_infinity false) by (apply B2SF_inj; vm_compute; reflexivity).
    rewrite I. apply le_inf. destruct (ge0_cases d D) as [[s ->]|[->|[A _]]].
    + destruct s; vm_compute; reflexivity.
    + rewrite I. reflexivity.
    + apply mult_ff; assumption.
Qed.
Lemma ext_sq (d e : b64) : le64 zero64 d -> le64 d e -> le64 (Bm (Bm (Flit 3 0) d) d) (Bm (Bm (Flit 3 0) e) e).
Proof.
  intros D DE. pose proof (ge0_trans d e D DE) as E. destruct l3 as [F3 V3].
  destruct (fin e) eqn:Fe.
  - assert (Fd : fin d = true). { destruct (ge0_cases d D) as [[s ->]|[->|[A _]]]; [reflexivity| |exact A]. rewrite (inf_le e DE) in Fe. discriminate Fe. }
    apply (sq_mono (Flit 3 0) d e l3n Fd Fe D DE).
  - destruct (ge0_cases e E) as [[s ->]|[->|[A _]]]; [discriminate Fe| |rewrite A in Fe; discriminate Fe].
    assert (I : Bm (Bm (Flit 3 0) (B754_infinity false)) (B754_infinity false) = B754_infinity false) by (apply B2SF_inj; vm_compute; reflexivity).
    rewrite I. apply le_inf. destruct (ge0_cases d D) as [[s ->]|[->|[A _]]].
    + destruct s; vm_compute; reflexivity.
    + rewrite I. reflexivity.
    + apply (sq_not_nan (Flit 3 0) d l3n A).
Qed.
Definition expo (t : vtype) : bool := match t with CONSTANT | EXPONENTIAL | GAUSSIAN => true | _ => false end.
Lemma corr_mono (v : variogram F) (d e : b64) : expo (vt v) = true -> le64 zero64 d -> le64 d e -> le64 (Corr1D v e) (Corr1D v d).
Proof.
  intros T D DE. unfold Corr1D. destruct (vt v); try discriminate T; cbn [mul lit fexp Farith].
  - apply not_nan_refl. apply finite_not_nan. apply l1.
  - apply mono. rewrite m3_opp, !Bmult_opp_l. apply opp_mono, ext_lin; assumption.
  - apply mono. rewrite m3_opp, !Bmult_opp_l. apply opp_mono, ext_sq; assumption.
Qed.
Lemma c76 s (main perp depth azi dp power x y : b64) v : @CreateVariogram F s main perp depth azi dp power = Ok v ->
  usual_range main -> range_arg perp -> range_arg depth -> fin azi = true -> fin dp = true ->
  expo (vt v) = true -> fin x = true -> fin y = true -> le64 zero64 x -> le64 x y -> le64 (@GetCorr1 F v y) (@GetCorr1 F v x).
Proof.
  intros H M P D A I T Fx Fy X XY. destruct (created_F m s main perp depth azi dp power v H M P D A I) as (v0 & E & RX & RY & RZ & FA & FD & _ & K).
  pose proof (txx_nn m ok v0 RX RY RZ FA FD) as B1. rewrite <- E in *.
  destruct (sq_mono (txx v) x y B1 Fx Fy X XY) as [Q0 Q1].
  unfold GetCorr1. apply corr_mono; [exact T| |].
  - destruct (sq_not_nan (txx v) x B1 Fx) as [N S]. apply sqrt_not_nan; assumption.
  - apply sqrt_mono; assumption.
Qed.
End Mono.
