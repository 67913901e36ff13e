(** Correlations in double precision: between 0 and 1. *)
From Coq Require Import ZArith Bool Lia Reals Lra String List.
From Flocq Require Import Core IEEE754.BinarySingleNaN.
From Verif Require Import Base Arith FloatArith M_Variogram S_Random S_Normal P_NormF S_CorrF.
Import ListNotations.
Open Scope R_scope.

Notation Bm := (@Bmult 53 1024 Hprec Hmax mode_NE).

(** ** signs *)
Lemma sign_le0 (x : b64) : is_nan x = false -> Bsign x = true -> le64 x zero64.
Proof. destruct x as [s|s| |s k e H]; try discriminate; intros _ E; cbn in E; subst; reflexivity. Qed.
Lemma sign_ge0 (x : b64) : is_nan x = false -> Bsign x = false -> le64 zero64 x.
Proof. destruct x as [s|s| |s k e H]; try discriminate; intros _ E; cbn in E; subst; reflexivity. Qed.
Lemma finite_not_nan (x : b64) : fin x = true -> is_nan x = false.
Proof. destruct x; cbn; auto; discriminate. Qed.
Lemma mult_ff (x y : b64) : fin x = true -> fin y = true -> is_nan (Bm x y) = false /\ Bsign (Bm x y) = xorb (Bsign x) (Bsign y).
Proof.
  intros Hx Hy. pose proof (Bmult_correct 53 1024 Hprec Hmax mode_NE x y) as C.
  destruct (Rlt_bool _ _).
  - destruct C as [_ [F S]]. rewrite Hx, Hy in F. pose proof (finite_not_nan _ F) as N. split; [exact N|]. apply S, N.
  - destruct (Bm x y) as [s|s| |s k e H]; cbn in C; try discriminate. injection C as ->. split; reflexivity.
Qed.
Lemma le0_cases (x : b64) : le64 x zero64 -> (exists s, x = B754_zero s) \/ x = B754_infinity true \/ (fin x = true /\ Bsign x = true).
Proof. destruct x as [s|s| |s k e H]; intros L; try discriminate; eauto; destruct s; try discriminate; auto. Qed.
Lemma ge0_cases (x : b64) : le64 zero64 x -> (exists s, x = B754_zero s) \/ x = B754_infinity false \/ (fin x = true /\ Bsign x = false).
Proof. destruct x as [s|s| |s k e H]; intros L; try discriminate; eauto; destruct s; try discriminate; auto. Qed.
(** a finite nonzero negative factor *)
Lemma neg_mult (a d : b64) : is_finite_strict a = true -> Bsign a = true -> le64 zero64 d -> le64 (Bm a d) zero64.
Proof.
  intros Fa Sa D. destruct (ge0_cases d D) as [[s ->]|[->|[Fd Sd]]].
  - destruct a; try discriminate. reflexivity.
  - destruct a as [| | |s]; try discriminate. cbn in Sa. subst. reflexivity.
  - assert (Fa' : fin a = true) by (destruct a; try discriminate; reflexivity).
    destruct (mult_ff a d Fa' Fd) as [N S]. apply sign_le0; [exact N|]. rewrite S, Sa, Sd. reflexivity.
Qed.
Lemma square_neg (a d : b64) : is_finite_strict a = true -> Bsign a = true -> le64 zero64 d -> le64 (Bm (Bm a d) d) zero64.
Proof.
  intros Fa Sa D. assert (Fa' : fin a = true) by (destruct a; try discriminate; reflexivity).
  destruct (ge0_cases d D) as [[s ->]|[->|[Fd Sd]]].
  - destruct a; try discriminate. reflexivity.
  - destruct a as [| | |s]; try discriminate. cbn in Sa. subst. reflexivity.
  - destruct (mult_ff a d Fa' Fd) as [N S]. rewrite Sa, Sd in S. cbn in S.
    destruct (Bm a d) as [t|t| |t k e H] eqn:E; try discriminate; cbn in S; subst.
    + destruct d as [t|t| |t k e H]; try discriminate; reflexivity.
    + destruct d as [t|t| |t k e H]; try discriminate; [|cbn in Sd; subst; reflexivity].
      exfalso. destruct a; discriminate.
    + rewrite <- E in *. assert (F2 : fin (Bm a d) = true) by (rewrite E; reflexivity).
      destruct (mult_ff (Bm a d) d F2 Fd) as [N2 S2]. apply sign_le0; [exact N2|]. rewrite S2, E, Sd. reflexivity.
Qed.

(** ** values of the operations on moderate numbers *)
Definition mod4 (r : R) : Prop := Rabs r <= 4096.
Lemma fmt_4096 : fmt 4096. Proof. apply (fmt_Z 4096). reflexivity. Qed.
Lemma fmt_m4096 : fmt (- 4096). Proof. apply (fmt_Z (-4096)). reflexivity. Qed.
Lemma mod4_over r : mod4 r -> Rlt_bool (Rabs (rnd r)) (bpow radix2 1024) = true.
Proof.
  intros H. apply Rabs_le_inv in H.
  apply (no_over (- 4096) 4096); [apply fmt_m4096|apply fmt_4096|lra| |]; pose proof big_3; lra.
Qed.
Lemma mult_val (x y : b64) : fin x = true -> fin y = true -> mod4 (B2R x * B2R y) -> exactly (Bm x y) (rnd (B2R x * B2R y)).
Proof.
  intros Hx Hy H. pose proof (Bmult_correct 53 1024 Hprec Hmax mode_NE x y) as C. rewrite (mod4_over _ H) in C. destruct C as [E [F _]].
  split; [rewrite F, Hx, Hy; reflexivity|exact E].
Qed.
Lemma minus_val (x y : b64) : fin x = true -> fin y = true -> mod4 (B2R x - B2R y) -> exactly (Bminus mode_NE x y) (rnd (B2R x - B2R y)).
Proof.
  intros Hx Hy H. pose proof (Bminus_correct 53 1024 Hprec Hmax mode_NE x y Hx Hy) as C. rewrite (mod4_over _ H) in C. destruct C as [E [F _]].
  split; assumption.
Qed.
Lemma plus_val (x y : b64) : fin x = true -> fin y = true -> mod4 (B2R x + B2R y) -> exactly (Bplus mode_NE x y) (rnd (B2R x + B2R y)).
Proof.
  intros Hx Hy H. pose proof (Bplus_correct 53 1024 Hprec Hmax mode_NE x y Hx Hy) as C. rewrite (mod4_over _ H) in C. destruct C as [E [F _]].
  split; assumption.
Qed.
Lemma mod4_in lo hi r : - 4096 <= lo -> hi <= 4096 -> lo <= r <= hi -> mod4 r.
Proof. intros. apply Rabs_le. lra. Qed.

(** ** the spherical model *)
Definition u53 : R := bpow radix2 (-53).
Lemma u53_val : u53 = / 9007199254740992.
Proof. unfold u53, bpow, radix2, Zpower_pos. simpl. lra. Qed.
(** a double in [1/2, 1) is a multiple of 2^-53 *)
Lemma half_grid (r : R) : fmt r -> 1 / 2 <= r < 1 -> exists n : Z, (0 < n <= 2 ^ 52)%Z /\ r = 1 - IZR n * u53.
Proof.
  intros F [A B]. apply FLT_format_generic in F; [|exact Hprec]. destruct F as [[f e] E N M]. cbn [Fnum Fexp] in *.
  exists (2 ^ 53 - f * 2 ^ (e + 53))%Z.
  assert (Pf : (0 < f)%Z). { apply (gt_0_F2R radix2 f e). rewrite <- E. lra. }
  assert (He : (-53 <= e)%Z).
  { apply Z.nlt_ge. intros L. assert (F2R (Float radix2 f e) < 1 / 2); [|lra].
    apply Rlt_le_trans with (F2R (Float radix2 (2 ^ 53) e)).
    - apply F2R_lt. change (radix2 ^ 53)%Z with (2 ^ 53)%Z in N. lia.
    - change (2 ^ 53)%Z with (radix2 ^ 53)%Z. unfold F2R. cbn [Fnum Fexp]. rewrite IZR_Zpower by lia. rewrite <- bpow_plus.
      change (1 / 2) with (1 * / 2). replace (1 * / 2) with (bpow radix2 (-1)) by (cbn; lra). apply bpow_le. lia. }
  assert (V : IZR (f * 2 ^ (e + 53)) * u53 = r).
  { rewrite E. unfold F2R. cbn [Fnum Fexp]. rewrite mult_IZR. change (2 ^ (e + 53))%Z with (radix2 ^ (e + 53))%Z. rewrite IZR_Zpower by lia.
    unfold u53. rewrite Rmult_assoc, <- bpow_plus. f_equal. f_equal. lia. }
  assert (W : IZR (2 ^ 53) * u53 = 1) by (rewrite u53_val; cbn; lra).
  assert (P : 0 < u53) by apply bpow_gt_0.
  split; [|rewrite minus_IZR; lra].
  assert (X : IZR (f * 2 ^ (e + 53)) < IZR (2 ^ 53)) by (apply Rmult_lt_reg_r with u53; [exact P|]; lra).
  assert (Y : IZR (2 ^ 52) <= IZR (f * 2 ^ (e + 53))).
  { apply Rmult_le_reg_r with u53; [exact P|]. rewrite V. rewrite u53_val. change (IZR (2 ^ 52)) with 4503599627370496. lra. }
  apply lt_IZR in X. apply le_IZR in Y. split; lia.
Qed.
Lemma rnd_mono x y : x <= y -> rnd x <= rnd y.
Proof. intros H. apply round_le; [apply fexp_correct; exact Hprec|apply valid_rnd_round_mode|exact H]. Qed.
Lemma rnd_id x : fmt x -> rnd x = x.
Proof. apply round_generic. apply valid_rnd_round_mode. Qed.
Lemma fmt_1 : fmt 1. Proof. apply (fmt_Z 1). reflexivity. Qed.
Lemma fmt_0 : fmt 0. Proof. apply generic_format_0. Qed.
Lemma fmt_32 : fmt (3 / 2). Proof. apply (fmt_half 3). vm_compute. discriminate. Qed.
Lemma fmt_12 : fmt (1 / 2). Proof. apply (fmt_half 1). vm_compute. discriminate. Qed.
Lemma l5 : exactly (Flit 5 1) (1 / 2). Proof. lit_t. Qed.
Lemma l0 : exactly (Flit 0 0) 0. Proof. split; [reflexivity|]. reflexivity. Qed.
Lemma lu : exactly (Fof 1 (-53)) u53.
Proof. eapply lit_fin; [vm_compute; reflexivity|]. rewrite u53_val. unfold F2R. cbn [Fnum Fexp cond_Zopp]. unfold bpow, radix2, Zpower_pos. simpl. lra. Qed.
Lemma u53_small : 0 < u53 <= 1 / 4096.
Proof. rewrite u53_val. lra. Qed.
Lemma rnd_tie : rnd (1 + u53) = 1.
Proof.
  destruct l1 as [F1 V1]. destruct lu as [F2 V2]. pose proof u53_small.
  destruct (plus_val (Flit 1 0) (Fof 1 (-53)) F1 F2) as [_ E].
  - rewrite V1, V2. apply (mod4_in 0 4096); lra.
  - rewrite V1, V2 in E. rewrite <- E. assert (S : Bplus mode_NE (Flit 1 0) (Fof 1 (-53)) = Flit 1 0) by (apply B2SF_inj; vm_compute; reflexivity).
    rewrite S. exact V1.
Qed.
Lemma fmt_scaled (k e : Z) : (Z.abs k < 2 ^ 53)%Z -> (-1000 <= e)%Z -> fmt (IZR k * bpow radix2 e).
Proof.
  intros H L. apply generic_format_FLT. exists (Float radix2 k e); [reflexivity|cbn [Fnum]; change (radix2 ^ 53)%Z with (2 ^ 53)%Z; lia|cbn; lia].
Qed.
Lemma halved_exact r : fmt r -> 1 / 2 <= r < 1 -> rnd (1 / 2 * r) = 1 / 2 * r.
Proof.
  intros F H. apply rnd_id. destruct (half_grid r F H) as [n [[A B] E]].
  assert (P54 : bpow radix2 (-54) = u53 / 2) by (rewrite u53_val; unfold bpow, radix2, Zpower_pos; simpl; lra).
  assert (P : 1 / 2 * r = IZR (2 ^ 53 - n) * bpow radix2 (-54)).
  { rewrite P54, E, minus_IZR. change (IZR (2 ^ 53)) with 9007199254740992. rewrite u53_val. lra. }
  rewrite P. apply fmt_scaled; lia.
Qed.
Lemma err_half x : 0 <= x <= 1 / 2 -> Rabs (rnd x - x) <= u53 / 2.
Proof.
  intros H. assert (V : Valid_exp (SpecFloat.fexp 53 1024)) by (apply fexp_correct; exact Hprec).
  assert (M : Monotone_exp (SpecFloat.fexp 53 1024)) by (apply fexp_monotone).
  pose proof (error_le_half_ulp radix2 (SpecFloat.fexp 53 1024) (fun x => negb (Z.even x)) x) as Q.
  assert (U : ulp radix2 (SpecFloat.fexp 53 1024) x <= u53).
  { apply Rle_trans with (ulp radix2 (SpecFloat.fexp 53 1024) (bpow radix2 (-1))).
    - apply ulp_le_pos; [exact V|exact M|lra|]. replace (bpow radix2 (-1)) with (1 / 2) by (cbn; lra). lra.
    - rewrite ulp_bpow. apply Req_le. reflexivity. }
  change (round radix2 (SpecFloat.fexp 53 1024) (Znearest (fun x => negb (Z.even x))) x) with (rnd x) in Q. lra.
Qed.
Lemma sph_core r : fmt r -> 1 / 2 <= r < 1 -> r * rnd (3 / 2 - rnd (1 / 2 * r * r)) <= 1 + u53.
Proof.
  intros F H. assert (V : Valid_exp (SpecFloat.fexp 53 1024)) by (apply fexp_correct; exact Hprec).
  destruct (half_grid r F H) as [n [[A B] E]]. pose proof u53_small as PU.
  assert (N0 : 0 < IZR n) by (apply IZR_lt; lia).
  set (m := ((n + 1) / 2)%Z).
  assert (Hm : (n <= 2 * m <= n + 1)%Z) by (unfold m; pose proof (Z.div_mod (n + 1) 2); pose proof (Z.mod_pos_bound (n + 1) 2); lia).
  assert (Rm : IZR n <= 2 * IZR m <= IZR n + 1).
  { replace (2 * IZR m) with (IZR (2 * m)) by (rewrite mult_IZR; reflexivity). rewrite <- (plus_IZR n 1). split; apply IZR_le; lia. }
  set (g := 1 + 2 * IZR m * u53).
  assert (Fg : fmt g).
  { assert (G : g = IZR (2 ^ 52 + m) * bpow radix2 (-52)).
    { assert (P52 : bpow radix2 (-52) = 2 * u53) by (rewrite u53_val; unfold bpow, radix2, Zpower_pos; simpl; lra).
      rewrite P52. unfold g. rewrite plus_IZR. change (IZR (2 ^ 52)) with 4503599627370496. rewrite u53_val. lra. }
    rewrite G. apply fmt_scaled; lia. }
  assert (X : 3 / 2 - rnd (1 / 2 * r * r) <= 1 + IZR n * u53 + u53 / 2).
  { assert (Q : Rabs (rnd (1 / 2 * r * r) - 1 / 2 * r * r) <= u53 / 2).
    { apply err_half. split; [nra|]. nra. }
    apply Rabs_le_inv in Q. assert (S : 1 / 2 * r * r >= 1 / 2 - IZR n * u53).
    { rewrite E. pose proof (Rle_0_sqr (IZR n * u53)) as SQ. unfold Rsqr in SQ. lra. }
    lra. }
  assert (Y : rnd (3 / 2 - rnd (1 / 2 * r * r)) <= g).
  { apply (round_N_le_midp radix2 (SpecFloat.fexp 53 1024) (fun x => negb (Z.even x))); [exact Fg|].
    assert (S : g + 2 * u53 <= succ radix2 (SpecFloat.fexp 53 1024) g).
    { rewrite succ_eq_pos by (unfold g; nra). apply Rplus_le_compat_l.
      apply Rle_trans with (ulp radix2 (SpecFloat.fexp 53 1024) (bpow radix2 0)).
      - rewrite ulp_bpow. replace (2 * u53) with (bpow radix2 (-52)) by (rewrite u53_val; unfold bpow, radix2, Zpower_pos; simpl; lra).
        apply Req_le. reflexivity.
      - apply ulp_le_pos; [exact V|apply fexp_monotone|cbn; lra|]. cbn. unfold g. nra. }
    unfold g in *. nra. }
  apply Rle_trans with (r * g); [apply Rmult_le_compat_l; lra|].
  unfold g. rewrite E.
  assert (Z1 : (1 - IZR n * u53) * (1 + 2 * IZR m * u53) <= (1 - IZR n * u53) * (1 + (IZR n + 1) * u53)).
  { apply Rmult_le_compat_l; [lra|]. apply Rplus_le_compat_l. apply Rmult_le_compat_r; lra. }
  apply Rle_trans with (1 := Z1). 
  assert (Z2 : 0 <= (IZR n * u53) * (IZR n * u53)) by (apply Rle_0_sqr).
  assert (Z3 : 0 <= (IZR n * u53) * u53) by (apply Rmult_le_pos; [apply Rmult_le_pos|]; lra).
  lra.
Qed.
Lemma lt_fin (d y : b64) : le64 zero64 d -> Bltb d y = true -> fin d = true.
Proof. intros D L. destruct d as [s|s| |s k e H]; [reflexivity| |discriminate D|reflexivity]. destruct s; [discriminate D|]. destruct y as [t|t| |t k e H]; try destruct t; discriminate L. Qed.
Section Sph.
Variable m : libm.
Notation F := (Farith m).
Lemma sph_unit (d : b64) : le64 zero64 d -> Bltb d one64 = true ->
  in_unit (sub F (lit F 1 0) (mul F d (sub F (lit F 15 1) (mul F (mul F (lit F 5 1) d) d)))).
Proof.
  intros D L. assert (Fd : fin d = true) by exact (lt_fin d _ D L).
  destruct l1 as [F1 V1]. destruct l15 as [F15 V15]. destruct l5 as [F5 V5].
  assert (R0 : 0 <= B2R d). { unfold le64, zero64 in D. rewrite Bleb_correct in D by auto. destruct (Rle_bool_spec (B2R (B754_zero false : b64)) (B2R d)); [assumption|discriminate D]. }
  assert (R1 : B2R d < 1). { unfold one64 in L. rewrite Bltb_correct in L by auto. rewrite V1 in L. destruct (Rlt_bool_spec (B2R d) 1); [assumption|discriminate L]. }
  assert (FD : fmt (B2R d)) by apply generic_format_B2R.
  cbn [sub mul lit Farith].
  destruct (mult_val (Flit 5 1) d F5 Fd) as [Fa Va]; [rewrite V5; apply (mod4_in 0 1); lra|]. rewrite V5 in Va.
  set (a := Bm (Flit 5 1) d) in *. assert (A : 0 <= B2R a <= 1 / 2) by (rewrite Va; apply rnd_between; [apply fmt_0|apply fmt_12|lra]).
  destruct (mult_val a d Fa Fd) as [Fb Vb]; [apply (mod4_in 0 1); nra|].
  set (b := Bm a d) in *. assert (B : 0 <= B2R b <= 1 / 2) by (rewrite Vb; apply rnd_between; [apply fmt_0|apply fmt_12|nra]).
  destruct (minus_val (Flit 15 1) b F15 Fb) as [Fc Vc]; [rewrite V15; apply (mod4_in 0 4); lra|]. rewrite V15 in Vc.
  set (c := Bminus mode_NE (Flit 15 1) b) in *. assert (C : 1 <= B2R c <= 3 / 2) by (rewrite Vc; apply rnd_between; [apply fmt_1|apply fmt_32|lra]).
  destruct (mult_val d c Fd Fc) as [Fe Ve]; [apply (mod4_in 0 4); nra|].
  set (e := Bm d c) in *. assert (E : 0 <= B2R e <= 1).
  { split; [rewrite Ve, <- (rnd_id 0 fmt_0); apply rnd_mono; nra|].
    destruct (Rlt_le_dec (B2R d) (1 / 2)) as [S|S].
    - rewrite Ve, <- (rnd_id 1 fmt_1). apply rnd_mono. nra.
    - rewrite Ve, <- rnd_tie. apply rnd_mono. rewrite Vc, Vb, Va. rewrite halved_exact by (auto; lra). apply sph_core; auto. }
  destruct (minus_val (Flit 1 0) e F1 Fe) as [Fr Vr]; [rewrite V1; apply (mod4_in 0 4); lra|]. rewrite V1 in Vr.
  split; [exact Fr|]. rewrite Vr. apply rnd_between; [apply fmt_0|apply fmt_1|lra].
Qed.
Lemma unit_0 : in_unit (Flit 0 0). Proof. destruct l0 as [A B]. split; [exact A|]. rewrite B. lra. Qed.
Lemma unit_1 : in_unit (Flit 1 0). Proof. destruct l1 as [A B]. split; [exact A|]. rewrite B. lra. Qed.
Lemma m3_strict : is_finite_strict (Flit (-3) 0) = true /\ Bsign (Flit (-3) 0) = true.
Proof. split; vm_compute; reflexivity. Qed.

Definition plain (t : vtype) : bool :=
  match t with CONSTANT | EXPONENTIAL | SPHERICAL | GAUSSIAN | GENERAL_EXPONENTIAL => true | _ => false end.
Hypothesis ok : fair m.
Lemma corr_unit (v : variogram F) (d : b64) : plain (vt v) = true -> (vt v = GENERAL_EXPONENTIAL -> Bltb zero64 (vpower v) = true) ->
  le64 zero64 d -> in_unit (Corr1D v d).
Proof.
  intros P W D. destruct m3_strict as [T3 S3]. unfold Corr1D. destruct (vt v) eqn:T; try discriminate P.
  - apply unit_1.
  - apply (exp_unit m ok). apply (neg_mult (Flit (-3) 0) d); assumption.
  - destruct (flt F d (lit F 1 0)) eqn:L; [apply sph_unit; assumption|apply unit_0].
  - apply (exp_unit m ok). apply (square_neg (Flit (-3) 0) d); assumption.
  - apply (exp_unit m ok). apply (neg_mult (Flit (-3) 0)); [assumption|assumption|]. apply (pow_nonneg m ok); [exact D|]. apply W. reflexivity.
Qed.
(** a square root is a NaN or not negative *)
Lemma sqrt_ge0 (x : b64) : is_nan (Bsqrt mode_NE x) = true \/ le64 zero64 (Bsqrt mode_NE x).
Proof.
  destruct (is_nan (Bsqrt mode_NE x)) eqn:N; [left; reflexivity|right].
  destruct x as [s|s| |s k e H]; try discriminate N; try reflexivity.
  - destruct s; [discriminate N|reflexivity].
  - pose proof (Bsqrt_correct 53 1024 Hprec Hmax mode_NE (B754_finite s k e H)) as [E [Fi S]].
    specialize (S N). destruct s.
    + discriminate N.
    + apply sign_ge0; [exact N|exact S].
Qed.
Lemma nan_spherical (v : variogram F) (d : b64) : vt v = SPHERICAL -> is_nan d = true -> Corr1D v d = Flit 0 0.
Proof. intros T N. unfold Corr1D. rewrite T. destruct d; try discriminate. reflexivity. Qed.
Lemma spherical_any (v : variogram F) x : vt v = SPHERICAL -> in_unit (Corr1D v (Bsqrt mode_NE x)).
Proof.
  intros T. destruct (sqrt_ge0 x) as [N|G].
  - rewrite nan_spherical by assumption. apply unit_0.
  - unfold Corr1D. rewrite T. destruct (flt F _ (lit F 1 0)) eqn:L; [apply sph_unit; assumption|apply unit_0].
Qed.
End Sph.
