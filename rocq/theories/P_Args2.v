(** Variograms without a preferred direction; a C library with the symmetries of S_Mirror. *)
From Coq Require Import ZArith Bool Lia Reals Lra String List.
From Flocq Require Import Core IEEE754.BinarySingleNaN.
From Verif Require Import Base Arith RealArith FloatArith M_Variogram M_Padding S_Vario S_Mirror P_Vario P_VarioNames P_VarioMore P_Args S_CorrF P_CorrF P_CorrF7.
Import ListNotations.
Open Scope R_scope.

Lemma ndist_iso r a d x y z : 0 < r -> ndist r r r a d (x, y, z) = sqrt (x ^ 2 + y ^ 2 + z ^ 2) / r.
Proof.
  intros R0. unfold ndist, dot, main_axis, perp_axis, third_axis. replace (sqrt (x ^ 2 + y ^ 2 + z ^ 2) / r) with (sqrt ((x ^ 2 + y ^ 2 + z ^ 2) / r ^ 2)) by (rewrite sqrt_div_alt by nra; rewrite sqrt_pow2 by lra; reflexivity). f_equal.
  pose proof (sin2_cos2 a) as A. pose proof (sin2_cos2 d) as D. unfold Rsqr in A, D.
  unfold Rdiv. rewrite !Rpow_mult_distr, !pow_inv, <- !Rmult_plus_distr_r. f_equal.
  set (ca := cos a) in *. set (sa := sin a) in *. set (cd := cos d) in *. set (sd := sin d) in *.
  assert (C1 : cd * cd = 1 - sd * sd) by lra. assert (C2 : ca * ca = 1 - sa * sa) by lra.
  match goal with |- ?l = _ => ring_simplify l end.
  replace (cd ^ 2) with (1 - sd ^ 2) by (rewrite <- (Rmult_1_r (sd ^ 2)); nra).
  replace (ca ^ 2) with (1 - sa ^ 2) by nra. ring.
Qed.
Lemma c92_corr s r perp depth azi dp p v : @CreateVariogram Rarith s r perp depth azi dp p = Ok v ->
  0 < r -> or_main r perp = r -> or_main r depth = r -> perp <> 0 -> depth <> 0 -> 0 < p ->
  forall x y z, @GetCorr3 Rarith v x y z = corr_fun (vt v) p (sqrt (x ^ 2 + y ^ 2 + z ^ 2) / r).
Proof.
  intros C R0 P1 D1 Pe De P x y z. destruct (created_corr _ _ _ _ _ _ _ _ C R0 Pe De P) as [_ H]. rewrite H, P1, D1. f_equal. apply ndist_iso, R0.
Qed.
Lemma c92_size (A : Arith) s (r depth azi dp azi' dp' p : num A) v v' nx dx ny dy nz dz :
  CreateVariogram s r r depth azi dp p = Ok v -> CreateVariogram s r r depth azi' dp' p = Ok v' ->
  FindGridSizeAfterPadding v nx dx ny dy nz dz = FindGridSizeAfterPadding v' nx dx ny dy nz dz.
Proof.
  intros C C'. assert (X : forall a : num A, fmax a a = a) by (intros a; unfold fmax; destruct (flt A a a); reflexivity).
  assert (G : range_x v = r /\ range_y v = r /\ range_x v' = r /\ range_y v' = r /\ range_z v = range_z v' /\ GetMinimumRangeToGridRatio v = GetMinimumRangeToGridRatio v').
  { unfold CreateVariogram in C, C'. destruct (Uppercase s) as [u| | |]; cbn [bind] in C, C'; try discriminate C.
    destruct (type_of_name u); cbn [Create] in C, C'; try discriminate C; injection C as <-; injection C' as <-;
      cbn [new_variogram EstimateFactors range_x range_y range_z]; (repeat split; try reflexivity; destruct (flt A r (lit A 0 0)); reflexivity). }
  destruct G as (G1 & G2 & G3 & G4 & G5 & G6).
  unfold FindGridSizeAfterPadding, FindNDimPadding, FindGaussianFieldPadding. rewrite G1, G2, G3, G4, G5, G6, !X.
  destruct (feq A (azimuth v) _), (feq A (azimuth v') _); reflexivity.
Qed.

(** a library with the symmetries: exp, sin, cos correctly rounded where exp does not overflow *)
Definition ex_mirror : libm := mkLibm ex_exp (fun x => x)
  (fun x => match x with B754_nan => B754_nan | _ => if Bsign x then Bopp (near (sin (- B2R x))) else near (sin (B2R x)) end)
  (fun x => near (cos (B2R x))) (lm_pow ex_lib).
Lemma ex_mirrored : mirrored ex_mirror.
Proof.
  split.
  - intros [s|s| |s k e H]; [| |reflexivity|]; cbn [lm_sin ex_mirror Bopp Bsign]; destruct s; cbn [negb]; rewrite ?Bopp_involutive; try reflexivity.
    + cbn [B2R]. rewrite Ropp_0. reflexivity.
    + cbn [B2R]. rewrite Ropp_0. reflexivity.
    + cbn [B2R]. rewrite Ropp_0. reflexivity.
    + cbn [B2R]. rewrite Ropp_0. reflexivity.
    + f_equal. f_equal. cbn [B2R]. rewrite <- F2R_Zopp. reflexivity.
    + do 3 f_equal. cbn [B2R]. rewrite <- F2R_Zopp. reflexivity.
  - intros x. cbn [lm_cos ex_mirror]. rewrite B2R_Bopp, cos_neg. reflexivity.
  - intros x y [->|(s & s' & -> & ->)]; left; reflexivity.
  - intros x y p [->|(s & s' & -> & ->)]; [left; reflexivity|]. right. exists false, false. split; reflexivity.
Qed.
