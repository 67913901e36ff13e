(** Correctly rounded values of exp, sin and cos at three arguments, and what corr gives there. *)
From Coq Require Import ZArith QArith Qreals Bool Lia Reals Lra String List.
From Flocq Require Import Core IEEE754.BinarySingleNaN.
From Verif Require Import Base Arith FloatArith M_Variogram S_Vario S_Random S_Normal P_Vario P_VarioNames P_RBounds P_QBounds P_NormF S_CorrF P_CorrF P_CorrF2 P_CorrF3.
Import ListNotations.
Open Scope R_scope.

Lemma ulp_half y : 1 / 2 <= y < 1 -> ulp radix2 (SpecFloat.fexp 53 1024) y = u53.
Proof.
  intros H. rewrite ulp_neq_0 by lra. unfold cexp.
  assert (M : mag radix2 y = 0%Z :> Z). { apply mag_unique_pos. cbn. lra. }
  rewrite M. reflexivity.
Qed.
Lemma rnd_near y v : fmt y -> 1 / 2 < y < 1 -> Rabs (v - y) < u53 / 2 -> rnd v = y.
Proof.
  intros Fy H A. assert (V : Valid_exp (SpecFloat.fexp 53 1024)) by (apply fexp_correct; exact Hprec).
  apply Rabs_def2 in A. apply Rle_antisym.
  - apply (round_N_le_midp radix2 (SpecFloat.fexp 53 1024) (fun x => negb (Z.even x))); [exact Fy|].
    rewrite succ_eq_pos by lra. rewrite ulp_half by lra. lra.
  - apply (round_N_ge_midp radix2 (SpecFloat.fexp 53 1024) (fun x => negb (Z.even x))); [exact Fy|].
    rewrite pred_eq_pos by lra. unfold pred_pos.
    assert (M : mag radix2 y = 0%Z :> Z). { apply mag_unique_pos. cbn. lra. }
    rewrite M. rewrite Req_bool_false; [rewrite ulp_half by lra; lra|]. cbn. lra.
Qed.

(** ** sin and cos of a rational *)
Fixpoint qsin (n : nat) (q : Q) : Q :=
  let t := Qred (qpow q (2 * n + 1) / inject_Z (qfact (2 * n + 1))) in
  let t := if Nat.even n then t else Qopp t in
  match n with O => t | S k => Qred (qsin k q + t) end.
Fixpoint qcos (n : nat) (q : Q) : Q :=
  let t := Qred (qpow q (2 * n) / inject_Z (qfact (2 * n))) in
  let t := if Nat.even n then t else Qopp t in
  match n with O => t | S k => Qred (qcos k q + t) end.
Lemma pow_m1 n : (-1) ^ n = if Nat.even n then 1 else -1.
Proof.
  induction n; [reflexivity|]. rewrite <- tech_pow_Rmult, IHn, Nat.even_succ, <- Nat.negb_even. destruct (Nat.even n); cbn; lra.
Qed.
Lemma sin_term_q n q : Q2R (if Nat.even n then Qred (qpow q (2 * n + 1) / inject_Z (qfact (2 * n + 1))) else Qopp (Qred (qpow q (2 * n + 1) / inject_Z (qfact (2 * n + 1))))) = sin_term (Q2R q) n.
Proof.
  unfold sin_term. rewrite pow_m1. pose proof (INR_fact_neq_0 (2 * n + 1)).
  destruct (Nat.even n); rewrite ?Q2R_opp, Q2R_Qred, Q2R_div by (apply inject_nz, qfact_pos); rewrite Q2R_qpow, Q2R_inject, qfact_fact; field; assumption.
Qed.
Lemma cos_term_q n q : Q2R (if Nat.even n then Qred (qpow q (2 * n) / inject_Z (qfact (2 * n))) else Qopp (Qred (qpow q (2 * n) / inject_Z (qfact (2 * n))))) = cos_term (Q2R q) n.
Proof.
  unfold cos_term. rewrite pow_m1. pose proof (INR_fact_neq_0 (2 * n)).
  destruct (Nat.even n); rewrite ?Q2R_opp, Q2R_Qred, Q2R_div by (apply inject_nz, qfact_pos); rewrite Q2R_qpow, Q2R_inject, qfact_fact; field; assumption.
Qed.
Lemma qsin_approx n q : Q2R (qsin n q) = sin_approx (Q2R q) n.
Proof.
  unfold sin_approx. induction n.
  - cbn [sum_f_R0]. rewrite <- sin_term_q. reflexivity.
  - cbn [sum_f_R0]. rewrite <- sin_term_q, <- IHn, <- Q2R_plus.  cbn [qsin]. rewrite !Q2R_Qred. reflexivity.
Qed.
Lemma qcos_approx n q : Q2R (qcos n q) = cos_approx (Q2R q) n.
Proof.
  unfold cos_approx. induction n.
  - cbn [sum_f_R0]. rewrite <- cos_term_q. reflexivity.
  - cbn [sum_f_R0]. rewrite <- cos_term_q, <- IHn, <- Q2R_plus. cbn [qcos]. rewrite !Q2R_Qred. reflexivity.
Qed.
Lemma sin_between (q lo hi : Q) n : (0 <= q)%Q -> (q <= 1)%Q -> Qle_bool lo (qsin (2 * n + 1) q) = true -> Qle_bool (qsin (2 * (n + 1)) q) hi = true ->
  Q2R lo <= sin (Q2R q) <= Q2R hi.
Proof.
  intros A B C D. apply Qle_Rle in A, B. apply Qle_bool_iff in C, D. apply Qle_Rle in C, D. rewrite Q2R_1 in B. replace (Q2R 0) with 0 in A by (unfold Q2R; simpl; lra).
  pose proof PI2_3_2. unfold PI2 in *. assert (P : 3 < PI) by lra.
  destruct (sin_bound (Q2R q) n A ltac:(lra)) as [E G]. rewrite qsin_approx in C, D. lra.
Qed.
Lemma cos_between (q lo hi : Q) n : (0 <= q)%Q -> (q <= 1)%Q -> Qle_bool lo (qcos (2 * n + 1) q) = true -> Qle_bool (qcos (2 * (n + 1)) q) hi = true ->
  Q2R lo <= cos (Q2R q) <= Q2R hi.
Proof.
  intros A B C D. apply Qle_Rle in A, B. apply Qle_bool_iff in C, D. apply Qle_Rle in C, D. rewrite Q2R_1 in B. replace (Q2R 0) with 0 in A by (unfold Q2R; simpl; lra).
  pose proof PI2_3_2. unfold PI2 in *. assert (P : 3 < PI) by lra.
  destruct (cos_bound (Q2R q) n ltac:(lra) ltac:(lra)) as [E G]. rewrite qcos_approx in C, D. lra.
Qed.
(** the double k * 2^-53, for 2^52 < k < 2^53 *)
Definition d53 (k : Z) : b64 := Fof k (-53).
Lemma d53_val k : (2 ^ 52 < k < 2 ^ 53)%Z -> exactly (d53 k) (IZR k * u53).
Proof.
  intros H. pose proof (binary_normalize_correct 53 1024 Hprec Hmax mode_NE k (-53) false) as C.
  assert (G : fmt (F2R (Float radix2 k (-53)))). { unfold F2R. cbn [Fnum Fexp]. apply fmt_scaled; lia. }
  cbv zeta in C. rewrite rnd_id in C by exact G. rewrite Rlt_bool_true in C.
  - destruct C as [E [Fi _]]. split; [exact Fi|]. unfold d53, Fof. rewrite E. reflexivity.
  - unfold F2R. cbn [Fnum Fexp]. rewrite Rabs_mult, (Rabs_right (bpow radix2 (-53))) by (apply Rle_ge, bpow_ge_0).
    apply Rlt_le_trans with (bpow radix2 53 * bpow radix2 (-53)); [|rewrite <- bpow_plus; apply bpow_le; lia].
    apply Rmult_lt_compat_r; [apply bpow_gt_0|]. rewrite <- abs_IZR. change (bpow radix2 53) with (IZR (2 ^ 53)). apply IZR_lt. lia.
Qed.
Lemma is_d53 (x : b64) k r : (2 ^ 52 < k < 2 ^ 53)%Z -> B2R x = nearest r -> Rabs (r - IZR k * u53) < u53 / 2 -> x = d53 k.
Proof.
  intros H E A. destruct (d53_val k H) as [Fk Vk]. pose proof u53_small as U.
  assert (K : 1 / 2 < IZR k * u53 < 1).
  { assert (A1 : IZR (2 ^ 52) < IZR k) by (apply IZR_lt; lia). assert (A2 : IZR k < IZR (2 ^ 53)) by (apply IZR_lt; lia).
    change (IZR (2 ^ 52)) with 4503599627370496 in A1. change (IZR (2 ^ 53)) with 9007199254740992 in A2. rewrite u53_val. lra. }
  assert (N : nearest r = IZR k * u53). { apply rnd_near; [rewrite <- Vk; apply generic_format_B2R|exact K|exact A]. }
  rewrite N in E. apply B2R_Bsign_inj; [|exact Fk|rewrite E, Vk; reflexivity|].
  - destruct x as [s|s| |s j e Hx]; try reflexivity; exfalso; change (0 = IZR k * u53) in E; lra.
  - assert (S : forall z : b64, 0 < B2R z -> Bsign z = false).
    { intros [s|s| |s j e Hz]; cbn; try lra. destruct s; [|reflexivity]. intros P. exfalso. assert (F2R (Float radix2 (Zneg j) e) < 0) by (apply F2R_lt_0; cbn; lia). cbn in P. lra. }
    rewrite !S; [reflexivity| |]; lra.
Qed.
Lemma q2r' a b : Q2R (a # b) = IZR a / IZR (Zpos b). Proof. reflexivity. Qed.

(** ** exp at the argument met by Matern 5/2 with range 1 and lag 3.3e-9 *)
Definition sd52 : b64 := Bm (Flit 5918 3) (Flit 33 10).
Lemma sd52_val : exactly sd52 (5902398975395485 / 302231454903657293676544).
Proof. eapply lit_fin; [vm_compute; reflexivity|]. unfold F2R. cbn [Fnum Fexp cond_Zopp]. unfold bpow, radix2, Zpower_pos. simpl. lra. Qed.
Lemma exp52 (m : libm) : exp_rounded m -> lm_exp m (Bopp sd52) = d53 9007199078835797.
Proof.
  intros H. destruct sd52_val as [Fs Vs].
  assert (N : B2R (Bopp sd52) = - (5902398975395485 / 302231454903657293676544)) by (rewrite B2R_Bopp, Vs; reflexivity).
  apply (is_d53 _ _ (exp (B2R (Bopp sd52)))); [lia|apply H; [rewrite is_finite_Bopp; exact Fs|rewrite N; lra]|].
  rewrite N.
  pose proof (exp_neg_between 5902398975395485 302231454903657293676544 (144115185261372745 # 144115188075855872) (72057592630686373 # 72057594037927936) 3 1 ltac:(vm_compute; reflexivity)) as B.
  rewrite !q2r' in B. rewrite u53_val.
  apply Rabs_def1; lra.
Qed.
Lemma zero_of (x : b64) : fin x = true -> B2R x = 0 -> exists s, x = B754_zero s.
Proof. destruct x as [s|s| |s k e H]; try discriminate; intros _ E; [eexists; reflexivity|]. exfalso. apply eq_0_F2R in E. destruct s; discriminate E. Qed.
Lemma nearest_id r : fmt r -> nearest r = r. Proof. apply rnd_id. Qed.
Section Zero.
Variable m : libm.
Hypothesis T : trig_rounded m.
Lemma sin0 : exists s, lm_sin m (Flit 0 0) = B754_zero s.
Proof.
  destruct l0 as [F0 V0]. destruct (T (Flit 0 0) F0) as (A & B & _). apply zero_of; [exact A|]. rewrite B, V0, sin_0. apply nearest_id, fmt_0.
Qed.
Lemma cos0 : lm_cos m (Flit 0 0) = Flit 1 0.
Proof.
  destruct l0 as [F0 V0]. destruct (T (Flit 0 0) F0) as (_ & _ & A & B). rewrite V0, cos_0, (nearest_id 1 fmt_1) in B. destruct l1 as [F1 V1].
  apply B2R_Bsign_inj; [exact A|exact F1|rewrite B, V1; reflexivity|].
  destruct (lm_cos m (Flit 0 0)) as [s|s| |s j e Hz]; try discriminate A; [cbn in B; lra|]. destruct s; [|reflexivity]. exfalso.
  assert (Q : B2R (B754_finite true j e Hz) < 0) by (apply F2R_lt_0; cbn; lia). lra.
Qed.
Lemma d0 : mul (Farith m) (Flit 0 0) Degree = Flit 0 0. Proof. vm_compute. reflexivity. Qed.

(** Matern 5/2, range 1, lag 3.3e-9: more than one *)
Lemma matern_above (E : exp_rounded m) : exists v, @CreateVariogram (Farith m) "matern52"%string (Flit 1 0) (Flit (-1) 0) (Flit (-1) 0) (Flit 0 0) (Flit 0 0) (Flit 15 1) = Ok v /\
  Bltb one64 (@GetCorr1 (Farith m) v (Flit 33 10)) = true.
Proof.
  unfold CreateVariogram. rewrite d0.
  assert (N1 : flt (Farith m) (Flit (-1) 0) (lit (Farith m) 0 0) = true) by (vm_compute; reflexivity). rewrite N1.
  eexists. split; [reflexivity|]. unfold GetCorr1.
  assert (D : forall v : variogram (Farith m), txx v = Flit 1 0 -> @Distance1 (Farith m) v (Flit 33 10) = Flit 33 10).
  { intros v V. unfold Distance1. rewrite V. apply B2SF_inj. vm_compute. reflexivity. }
  rewrite D.
  - unfold Corr1D. cbn [vt new_variogram EstimateFactors]. change (mul (Farith m) (lit (Farith m) 5918 3) (Flit 33 10)) with sd52.
    change (fexp (Farith m)) with (lm_exp m). change (neg (Farith m) sd52) with (Bopp sd52). rewrite (exp52 m E). vm_compute. reflexivity.
  - unfold new_variogram, EstimateFactors. cbn [txx azimuth dip range_x range_y range_z]. change (fsin (Farith m)) with (lm_sin m). change (fcos (Farith m)) with (lm_cos m).
    rewrite cos0. destruct sin0 as [s ->]. destruct s; apply B2SF_inj; vm_compute; reflexivity.
Qed.
(** spherical, range 1: zero at 1 - 2^-52, positive at 1 - 2^-53 *)
Lemma sph_grows : exists v, @CreateVariogram (Farith m) "spherical"%string (Flit 1 0) (Flit (-1) 0) (Flit (-1) 0) (Flit 0 0) (Flit 0 0) (Flit 15 1) = Ok v /\
  Bltb (d53 (2 ^ 53 - 2)) (d53 (2 ^ 53 - 1)) = true /\
  Bltb (@GetCorr1 (Farith m) v (d53 (2 ^ 53 - 2))) (@GetCorr1 (Farith m) v (d53 (2 ^ 53 - 1))) = true.
Proof.
  unfold CreateVariogram. rewrite d0.
  assert (N1 : flt (Farith m) (Flit (-1) 0) (lit (Farith m) 0 0) = true) by (vm_compute; reflexivity). rewrite N1.
  eexists. split; [reflexivity|]. split; [vm_compute; reflexivity|].
  unfold GetCorr1, Distance1, Corr1D, new_variogram, EstimateFactors. cbn [vt txx azimuth dip range_x range_y range_z].
  change (fsin (Farith m)) with (lm_sin m). change (fcos (Farith m)) with (lm_cos m).
  rewrite cos0. destruct sin0 as [s ->]. destruct s; vm_compute; reflexivity.
Qed.

(** ** azimuth 45 degrees *)
Definition a45 : b64 := Bm (Flit 45 0) (@Degree (Farith m)).
Lemma a45_val : exactly a45 (7074237752028440 / 9007199254740992).
Proof. eapply lit_fin; [vm_compute; reflexivity|]. unfold F2R. cbn [Fnum Fexp cond_Zopp]. unfold bpow, radix2, Zpower_pos. simpl. lra. Qed.
Lemma sin45 : lm_sin m a45 = d53 6369051672525772.
Proof.
  destruct a45_val as [Fa Va]. destruct (T a45 Fa) as (_ & B & _). apply (is_d53 _ _ (sin (B2R a45))); [lia|exact B|]. rewrite Va.
  pose proof (sin_between (7074237752028440 # 9007199254740992) (25476206690103088 + 1 # 36028797018963968) (50952413380206179 # 72057594037927936) 4
    ltac:(vm_compute; discriminate) ltac:(vm_compute; discriminate) ltac:(vm_compute; reflexivity) ltac:(vm_compute; reflexivity)) as S.
  rewrite !q2r' in S. change (25476206690103088 + 1)%Z with 25476206690103089%Z in S.  rewrite u53_val. apply Rabs_def1; lra.
Qed.
Lemma cos45 : lm_cos m a45 = d53 6369051672525773.
Proof.
  destruct a45_val as [Fa Va]. destruct (T a45 Fa) as (_ & _ & _ & B). apply (is_d53 _ _ (cos (B2R a45))); [lia|exact B|]. rewrite Va.
  pose proof (cos_between (7074237752028440 # 9007199254740992) (25476206690103092 - 1 # 36028797018963968) (25476206690103092 # 36028797018963968) 4
    ltac:(vm_compute; discriminate) ltac:(vm_compute; discriminate) ltac:(vm_compute; reflexivity) ltac:(vm_compute; reflexivity)) as S.
  rewrite !q2r' in S. change (25476206690103092 - 1)%Z with 25476206690103091%Z in S. rewrite u53_val. apply Rabs_def1; lra.
Qed.
(** ranges 1e9 and 3, azimuth 45 degrees, lag (3, 3) along the main direction *)
Lemma nan_45 s : is_ascii s -> exists v, @CreateVariogram (Farith m) s (Flit 1000000000 0) (Flit 3 0) (Flit (-1) 0) (Flit 45 0) (Flit 0 0) (Flit 15 1) = Ok v /\
  @Distance2 (Farith m) v (Flit 3 0) (Flit 3 0) = B754_nan.
Proof.
  intros Ha. destruct (Create_total (A := Farith m) s (Flit 1000000000 0) (Flit 3 0) (Flit (-1) 0) (Flit 45 0) (Flit 0 0) (Flit 15 1) Ha) as (v & E & _).
  exists v. split; [exact E|]. unfold CreateVariogram in E. rewrite d0 in E. change (mul (Farith m) (Flit 45 0) Degree) with a45 in E.
  assert (N1 : flt (Farith m) (Flit (-1) 0) (lit (Farith m) 0 0) = true) by (vm_compute; reflexivity).
  assert (N2 : flt (Farith m) (Flit 3 0) (lit (Farith m) 0 0) = false) by (vm_compute; reflexivity). rewrite N1, N2 in E.
  destruct (Uppercase s) as [u| | |]; cbn [bind] in E; try discriminate E.
  assert (Q : exists t p, v = new_variogram (A := Farith m) t p (Flit 1000000000 0) (Flit 3 0) (Flit 1000000000 0) a45 (Flit 0 0) (Flit 1 0)).
  { unfold Create in E. destruct (type_of_name u); try discriminate E; apply (f_equal (fun o => match o with Ok w => w | _ => v end)) in E; cbn beta iota in E; subst v; eexists _, _; reflexivity. }
  destruct Q as (t & p & ->). unfold Distance2, new_variogram, EstimateFactors. cbn [txx tyy txy azimuth dip range_x range_y range_z].
  change (fsin (Farith m)) with (lm_sin m). change (fcos (Farith m)) with (lm_cos m). rewrite cos0, cos45, sin45. destruct sin0 as [z ->].
  destruct z; apply B2SF_inj; vm_compute; reflexivity.
Qed.
End Zero.
