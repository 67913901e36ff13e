(** Accuracy of correlations in double precision: distances of rotated variograms. *)
From Coq Require Import ZArith Bool Lia Reals Lra String List.
From Flocq Require Import Core IEEE754.BinarySingleNaN.
From Flocq Require Relative.
From Verif Require Import Base Arith RealArith FloatArith M_Variogram S_Vario S_Random S_Normal P_RBounds P_Cov P_Vario P_VarioF P_NormF S_CorrF P_CorrF P_CorrF2 P_CorrF4 P_CorrF5 S_Accur P_Accur P_Accur2 P_Accur3 P_Accur4 P_Accur5 P_Accur7 P_Accur8.
Import ListNotations.
Open Scope R_scope.

(** ** absolute errors in units of 2^-53 of a scale *)
Definition ap (K e b : R) (x : b64) (r : R) : Prop := fin x = true /\ Rabs (B2R x - r) <= e * u53 * K /\ Rabs r <= b * K.
Definition scale_ok (K : R) : Prop := bpow radix2 (-900) <= K <= bpow radix2 900.
Lemma round_err z : Rabs (rnd z - z) <= u53 * Rabs z + bpow radix2 (-1000).
Proof.
  destruct (Relative.error_N_FLT radix2 (-1074) 53 eq_refl (fun x => negb (Z.even x)) z) as (e & h & A & B & _ & E).
  change (round radix2 (FLT_exp (-1074) 53) (Znearest (fun x => negb (Z.even x))) z) with (rnd z) in E. rewrite E.
  replace (z * (1 + e) + h - z) with (z * e + h) by ring. apply Rle_trans with (1 := Rabs_triang _ _). apply Rplus_le_compat.
  - rewrite Rabs_mult, Rmult_comm. apply Rmult_le_compat_r; [apply Rabs_pos|]. apply Rle_trans with (1 := A). rewrite u53_val. unfold bpow, radix2, Zpower_pos. simpl. lra.
  - apply Rle_trans with (1 := B). apply Rle_trans with (bpow radix2 (-1074)); [pose proof (bpow_gt_0 radix2 (-1074)); lra|apply bpow_le; lia].
Qed.
Lemma tiny_scale K : scale_ok K -> 0 < K /\ bpow radix2 (-1000) <= u53 / 1000 * K.
Proof.
  intros [A _]. pose proof (bpow_gt_0 radix2 (-900)). split; [lra|]. apply Rle_trans with (bpow radix2 (-100) * bpow radix2 (-900)); [rewrite <- bpow_plus; apply bpow_le; lia|].
  apply Rmult_le_compat; [apply bpow_ge_0|lra| |exact A]. rewrite u53_val. apply Rle_trans with (bpow radix2 (-64)); [apply bpow_le; lia|]. unfold bpow, radix2, Zpower_pos; simpl. lra.
Qed.
Lemma big_scale K c : scale_ok K -> 0 <= c <= 1000000 -> c * K <= big.
Proof.
  intros [A B] C. pose proof (bpow_gt_0 radix2 (-900)). unfold big. change 1000%Z with (20 + 980)%Z. rewrite bpow_plus. apply Rle_trans with (bpow radix2 20 * bpow radix2 900).
  - apply Rmult_le_compat; try lra. unfold bpow, radix2, Zpower_pos; simpl. lra.
  - apply Rmult_le_compat_l; [apply bpow_ge_0|apply bpow_le; lia].
Qed.
Lemma fmt_big : fmt big. Proof. unfold big. apply generic_format_bpow. unfold SpecFloat.fexp, SpecFloat.emin. lia. Qed.
Lemma over_abs z : Rabs z <= big -> Rlt_bool (Rabs (rnd z)) (bpow radix2 1024) = true.
Proof.
  intros H. apply Rabs_le_inv in H. apply (no_over (- big) big); [apply generic_format_opp; exact fmt_big|exact fmt_big|exact H|lra|lra].
Qed.
Lemma ap_pos K e b x r : ap K e b x r -> 0 < K -> 0 <= e /\ 0 <= b.
Proof.
  intros (_ & A & B) H. pose proof (Rabs_pos (B2R x - r)). pose proof (Rabs_pos r). pose proof u53_val as U.
  assert (0 <= e * (u53 * K)) by (rewrite <- Rmult_assoc; lra). assert (0 < u53 * K) by (rewrite U; nra). split; nra.
Qed.
(** a rounded result [y] of the operation with value [z], [z] close to [r] *)
Lemma ap_round K e b t z r : scale_ok K -> 0 <= e <= 200000 -> 0 <= b <= 100000 -> fin t = true -> B2R t = rnd z -> Rabs (z - r) <= e * u53 * K -> Rabs r <= b * K ->
  ap K (e + b + 1 / 2) b t r.
Proof.
  intros S E B F V Z R. destruct (tiny_scale K S) as [KP TK]. split; [exact F|split; [|exact R]]. rewrite V.
  replace (rnd z - r) with ((rnd z - z) + (z - r)) by ring. apply Rle_trans with (1 := Rabs_triang _ _). pose proof (round_err z) as Q.
  assert (ZB : Rabs z <= (b + e * u53) * K). { replace z with (r + (z - r)) by ring. apply Rle_trans with (1 := Rabs_triang _ _). lra. }
  assert (u53 * Rabs z <= u53 * ((b + e * u53) * K)) by (apply Rmult_le_compat_l; [rewrite u53_val; lra|exact ZB]).
  assert (EU : e * u53 <= 1 / 100) by (rewrite u53_val; lra). assert (u53 * (e * u53 * K) <= u53 * (1 / 100 * K)) by (apply Rmult_le_compat_l; [rewrite u53_val; lra|apply Rmult_le_compat_r; lra]).
  assert (0 < u53 * K) by (rewrite u53_val; lra). nra.
Qed.
Lemma ap_over K e b z r : scale_ok K -> 0 <= e <= 200000 -> 0 <= b <= 100000 -> Rabs (z - r) <= e * u53 * K -> Rabs r <= b * K -> Rabs z <= big.
Proof.
  intros S E B Z R. destruct (tiny_scale K S) as [KP _]. apply Rle_trans with ((b + 1) * K); [|apply big_scale; [exact S|lra]].
  replace z with (r + (z - r)) by ring. apply Rle_trans with (1 := Rabs_triang _ _). assert (EU : e * u53 <= 1) by (rewrite u53_val; lra).
  assert (e * u53 * K <= 1 * K) by (apply Rmult_le_compat_r; lra). lra.
Qed.
Lemma ap_weak K e b e' b' x r : 0 < K -> e <= e' -> b <= b' -> ap K e b x r -> ap K e' b' x r.
Proof.
  intros KP E B (F & A & R). split; [exact F|split]; [apply Rle_trans with (1 := A)|apply Rle_trans with (1 := R)]; [|apply Rmult_le_compat_r; lra].
  apply Rmult_le_compat_r; [lra|]. apply Rmult_le_compat_r; [rewrite u53_val; lra|exact E].
Qed.
Lemma ap_mult K1 K2 e1 b1 e2 b2 x y r s : scale_ok (K1 * K2) -> 0 < K1 -> 0 < K2 -> e1 <= 1000 -> b1 <= 50 -> e2 <= 1000 -> b2 <= 50 ->
  ap K1 e1 b1 x r -> ap K2 e2 b2 y s -> ap (K1 * K2) (e1 * b2 + e2 * b1 + b1 * b2 + 1) (b1 * b2) (Bm x y) (r * s).
Proof.
  intros S K1P K2P E1 B1 E2 B2 X Y. destruct (ap_pos _ _ _ _ _ X K1P) as [e1n b1n]. destruct (ap_pos _ _ _ _ _ Y K2P) as [e2n b2n]. destruct X as (Fx & Ax & Rx), Y as (Fy & Ay & Ry).
  assert (U : 0 < u53 <= / 4000000) by (rewrite u53_val; lra).
  assert (R : Rabs (r * s) <= b1 * b2 * (K1 * K2)).
  { rewrite Rabs_mult. replace (b1 * b2 * (K1 * K2)) with (b1 * K1 * (b2 * K2)) by ring. apply Rmult_le_compat; try apply Rabs_pos; assumption. }
  assert (Z : Rabs (B2R x * B2R y - r * s) <= (e1 * b2 + e2 * b1 + 1 / 4) * u53 * (K1 * K2)).
  { replace (B2R x * B2R y - r * s) with ((B2R x - r) * s + (B2R y - s) * r + (B2R x - r) * (B2R y - s)) by ring.
    apply Rle_trans with (1 := Rabs_triang _ _). pose proof (Rabs_triang ((B2R x - r) * s) ((B2R y - s) * r)) as T1. rewrite !Rabs_mult in *.
    pose proof (Rabs_pos (B2R x - r)). pose proof (Rabs_pos (B2R y - s)). pose proof (Rabs_pos r). pose proof (Rabs_pos s).
    assert (Q1 : Rabs (B2R x - r) * Rabs s <= e1 * u53 * K1 * (b2 * K2)) by (apply Rmult_le_compat; assumption).
    assert (Q2 : Rabs (B2R y - s) * Rabs r <= e2 * u53 * K2 * (b1 * K1)) by (apply Rmult_le_compat; assumption).
    assert (Q3 : Rabs (B2R x - r) * Rabs (B2R y - s) <= e1 * u53 * K1 * (e2 * u53 * K2)) by (apply Rmult_le_compat; assumption).
    assert (Q4 : e1 * (e2 * u53) <= 1 / 4). { apply Rle_trans with (1000 * (1000 * / 4000000)); [|lra]. apply Rmult_le_compat; try lra; [apply Rmult_le_pos; lra|]. apply Rmult_le_compat; lra. }
    assert (Q5 : e1 * (e2 * u53) * (u53 * (K1 * K2)) <= 1 / 4 * (u53 * (K1 * K2))). { apply Rmult_le_compat_r; [|exact Q4]. apply Rmult_le_pos; [lra|]. apply Rmult_le_pos; lra. }
    nra. }
  assert (EB : 0 <= e1 * b2 + e2 * b1 + 1 / 4 <= 200000) by nra. assert (BB : 0 <= b1 * b2 <= 100000) by nra.
  pose proof (over_abs _ (ap_over _ _ _ _ _ S EB BB Z R)) as O. pose proof (Bmult_correct 53 1024 Hprec Hmax mode_NE x y) as C. fold (Bm x y) in C.
  change (round radix2 (SpecFloat.fexp 53 1024) (round_mode mode_NE) (B2R x * B2R y)) with (rnd (B2R x * B2R y)) in C. rewrite O in C. destruct C as (V & F & _).
  rewrite Fx, Fy in F. pose proof (ap_round _ _ _ _ _ _ S EB BB F V Z R) as Q. apply (ap_weak _ (e1 * b2 + e2 * b1 + 1 / 4 + b1 * b2 + 1 / 2) (b1 * b2)); [nra|lra|lra|exact Q].
Qed.
Lemma ap_sum K e1 b1 e2 b2 x y r s : scale_ok K -> e1 <= 50000 -> b1 <= 50 -> e2 <= 50000 -> b2 <= 50 -> ap K e1 b1 x r -> ap K e2 b2 y s ->
  ap K (e1 + e2 + b1 + b2 + 1) (b1 + b2) (Bplus mode_NE x y) (r + s) /\ ap K (e1 + e2 + b1 + b2 + 1) (b1 + b2) (Bminus mode_NE x y) (r - s).
Proof.
  intros S E1 B1 E2 B2 X Y. destruct (tiny_scale K S) as [KP _]. destruct (ap_pos _ _ _ _ _ X KP) as [e1n b1n]. destruct (ap_pos _ _ _ _ _ Y KP) as [e2n b2n]. destruct X as (Fx & Ax & Rx), Y as (Fy & Ay & Ry).
  assert (EB : 0 <= e1 + e2 <= 200000) by lra. assert (BB : 0 <= b1 + b2 <= 100000) by lra.
  split.
  - assert (Z : Rabs (B2R x + B2R y - (r + s)) <= (e1 + e2) * u53 * K).
    { replace (B2R x + B2R y - (r + s)) with ((B2R x - r) + (B2R y - s)) by ring. apply Rle_trans with (1 := Rabs_triang _ _). lra. }
    assert (R : Rabs (r + s) <= (b1 + b2) * K) by (apply Rle_trans with (1 := Rabs_triang _ _); lra).
    pose proof (over_abs _ (ap_over _ _ _ _ _ S EB BB Z R)) as O. pose proof (Bplus_correct 53 1024 Hprec Hmax mode_NE x y Fx Fy) as C.
    change (round radix2 (SpecFloat.fexp 53 1024) (round_mode mode_NE) (B2R x + B2R y)) with (rnd (B2R x + B2R y)) in C. rewrite O in C. destruct C as (V & F & _).
    apply (ap_weak _ (e1 + e2 + (b1 + b2) + 1 / 2) (b1 + b2)); [lra|lra|lra|]. exact (ap_round _ _ _ _ _ _ S EB BB F V Z R).
  - assert (Z : Rabs (B2R x - B2R y - (r - s)) <= (e1 + e2) * u53 * K).
    { replace (B2R x - B2R y - (r - s)) with ((B2R x - r) - (B2R y - s)) by ring. apply Rle_trans with (1 := Rabs_triang _ _). rewrite Rabs_Ropp. lra. }
    assert (R : Rabs (r - s) <= (b1 + b2) * K) by (apply Rle_trans with (1 := Rabs_triang _ _); rewrite Rabs_Ropp; lra).
    pose proof (over_abs _ (ap_over _ _ _ _ _ S EB BB Z R)) as O. pose proof (Bminus_correct 53 1024 Hprec Hmax mode_NE x y Fx Fy) as C.
    change (round radix2 (SpecFloat.fexp 53 1024) (round_mode mode_NE) (B2R x - B2R y)) with (rnd (B2R x - B2R y)) in C. rewrite O in C. destruct C as (V & F & _).
    apply (ap_weak _ (e1 + e2 + (b1 + b2) + 1 / 2) (b1 + b2)); [lra|lra|lra|]. exact (ap_round _ _ _ _ _ _ S EB BB F V Z R).
Qed.
Lemma ap_plus K e1 b1 e2 b2 x y r s : scale_ok K -> e1 <= 50000 -> b1 <= 50 -> e2 <= 50000 -> b2 <= 50 -> ap K e1 b1 x r -> ap K e2 b2 y s ->
  ap K (e1 + e2 + b1 + b2 + 1) (b1 + b2) (Bplus mode_NE x y) (r + s).
Proof. intros S E1 B1 E2 B2 X Y. exact (proj1 (ap_sum _ _ _ _ _ _ _ _ _ S E1 B1 E2 B2 X Y)). Qed.
Lemma ap_minus K e1 b1 e2 b2 x y r s : scale_ok K -> e1 <= 50000 -> b1 <= 50 -> e2 <= 50000 -> b2 <= 50 -> ap K e1 b1 x r -> ap K e2 b2 y s ->
  ap K (e1 + e2 + b1 + b2 + 1) (b1 + b2) (Bminus mode_NE x y) (r - s).
Proof. intros S E1 B1 E2 B2 X Y. exact (proj2 (ap_sum _ _ _ _ _ _ _ _ _ S E1 B1 E2 B2 X Y)). Qed.

(** ** angles in degrees *)
Definition degF : b64 := Flit 1745329251994329576924 23.
Lemma degF_val : exactly degF (5030569068109113 / 288230376151711744).
Proof. eapply lit_fin; [vm_compute; reflexivity|]. unfold F2R. cbn [Fnum Fexp cond_Zopp]. unfold bpow, radix2, Zpower_pos. simpl. lra. Qed.
Lemma degR_val : @Degree Rarith = 1745329251994329576924 / 100000000000000000000000. Proof. reflexivity. Qed.
Lemma angle_ap (a : b64) : fin a = true -> Rabs (B2R a) <= 720 -> fin (Bm a degF) = true /\ Rabs (B2R (Bm a degF) - radians (B2R a)) <= 15 * u53.
Proof.
  intros F A. destruct degF_val as [Fd Vd]. assert (S1 : scale_ok 1) by (split; change 1 with (bpow radix2 0); apply bpow_le; lia).
  assert (PE : Rabs (B2R a * B2R degF - radians (B2R a)) <= 1913 / 1000 * u53).
  { unfold radians. rewrite degR_val, Vd. rewrite <- Rmult_minus_distr_l, Rabs_mult. apply Rle_trans with (720 * (2656 / 1000000 * u53)); [|pose proof u53_small; lra].
    apply Rmult_le_compat; [apply Rabs_pos|apply Rabs_pos|exact A|]. rewrite u53_val. apply Rabs_le. lra. }
  assert (PB : Rabs (radians (B2R a)) <= 12.567).
  { unfold radians. rewrite degR_val, Rabs_mult. apply Rle_trans with (720 * 0.01745330); [|lra]. apply Rmult_le_compat; [apply Rabs_pos|apply Rabs_pos|exact A|]. apply Rabs_le. lra. }
  assert (Z : Rabs (B2R a * B2R degF - radians (B2R a)) <= 1913 / 1000 * u53 * 1) by lra. assert (R : Rabs (radians (B2R a)) <= 12.567 * 1) by lra.
  pose proof (over_abs _ (ap_over 1 (1913 / 1000) 12.567 _ _ S1 ltac:(lra) ltac:(lra) Z R)) as O. pose proof (Bmult_correct 53 1024 Hprec Hmax mode_NE a degF) as C. fold (Bm a degF) in C.
  change (round radix2 (SpecFloat.fexp 53 1024) (round_mode mode_NE) (B2R a * B2R degF)) with (rnd (B2R a * B2R degF)) in C. rewrite O in C. destruct C as (V & Fi & _).
  rewrite F, Fd in Fi. destruct (ap_round 1 (1913 / 1000) 12.567 _ _ _ S1 ltac:(lra) ltac:(lra) Fi V Z R) as (_ & B & _). split; [exact Fi|]. pose proof u53_small. lra.
Qed.
Lemma sin_diff x y : Rabs (sin x - sin y) <= Rabs (x - y).
Proof.
  assert (H : forall a b, a < b -> Rabs (sin b - sin a) <= Rabs (b - a)).
  { intros a b L. destruct (MVT_cor2 sin cos a b L (fun c _ => derivable_pt_lim_sin c)) as (c & E & _). rewrite E, Rabs_mult. pose proof (COS_bound c). pose proof (Rabs_pos (b - a)).
    assert (Rabs (cos c) <= 1) by (apply Rabs_le; lra). nra. }
  destruct (Rtotal_order x y) as [L|[->|L]]; [|rewrite !Rminus_diag_eq by reflexivity; lra|apply H; exact L].
  rewrite (Rabs_minus_sym (sin x)), (Rabs_minus_sym x). apply H. exact L.
Qed.
Lemma cos_diff x y : Rabs (cos x - cos y) <= Rabs (x - y).
Proof. rewrite !cos_sin. replace (x - y) with ((PI / 2 + x) - (PI / 2 + y)) by ring. apply sin_diff. Qed.
Lemma trig_ap m (x : b64) r : trig_rounded m -> fin x = true -> Rabs (B2R x - r) <= 15 * u53 -> ap 1 17 1 (lm_sin m x) (sin r) /\ ap 1 17 1 (lm_cos m x) (cos r).
Proof.
  intros T F E. destruct (T x F) as (F1 & V1 & F2 & V2). assert (S1 : scale_ok 1) by (split; change 1 with (bpow radix2 0); apply bpow_le; lia). pose proof (SIN_bound r). pose proof (COS_bound r).
  pose proof (sin_diff (B2R x) r). pose proof (cos_diff (B2R x) r).
  split; (apply (ap_weak _ (15 + 1 + 1 / 2) 1); [lra|lra|lra|]).
  - apply (ap_round 1 15 1 _ (sin (B2R x))); [exact S1|lra|lra|exact F1|exact V1|lra|apply Rabs_le; lra].
  - apply (ap_round 1 15 1 _ (cos (B2R x))); [exact S1|lra|lra|exact F2|exact V2|lra|apply Rabs_le; lra].
Qed.
Lemma close_ap n x e K : (n <= 64)%nat -> acc n x e -> 0 <= e <= K -> ap K (11 / 10 * INR n) 1 x e.
Proof.
  intros N (F & A & B & C) [E1 E2]. pose proof (up_bound n N) as U. pose proof (dn_bound n) as D. pose proof (pos_INR n) as I. pose proof u53_small as US.
  assert (IU : 0 <= INR n * u53) by nra. split; [exact F|split; [|rewrite Rabs_right; lra]].
  assert (Q : Rabs (B2R x - e) <= 11 / 10 * (INR n * u53) * e) by (apply Rabs_le; split; nra). apply Rle_trans with (1 := Q). apply Rle_trans with (11 / 10 * (INR n * u53) * K); [apply Rmult_le_compat_l; lra|lra].
Qed.
Definition fac64 (r : b64) : b64 := Bdiv mode_NE (Flit 1 0) (Bm r r).
Lemma fac_ap (r : b64) K : moderate r -> fc r <= K -> ap K 4 1 (fac64 r) (1 / (B2R r * B2R r)).
Proof.
  intros M H. pose proof (acc_fac r M) as A. pose proof (mod_pos r M) as P. assert (N : 0 < fc r) by (unfold fc; apply Rinv_0_lt_compat; nra).
  replace (1 / (B2R r * B2R r)) with (fc r) by (unfold fc, Rdiv; ring). apply (ap_weak _ (11 / 10 * INR 3) 1); [lra|cbn; lra|lra|]. apply close_ap; [lia|exact A|lra].
Qed.

(** ** the quadratic form *)
Section Form.
Variable m : libm.
Hypothesis T : trig_rounded m.
Notation F := (Farith m).
Variables (rx ry rz a d : b64).
Hypothesis MX : moderate rx. Hypothesis MY : moderate ry. Hypothesis MZ : moderate rz.
Variables ar dr : R.
Hypothesis FA : fin a = true. Hypothesis FD : fin d = true.
Hypothesis AA : Rabs (B2R a - ar) <= 15 * u53. Hypothesis DD : Rabs (B2R d - dr) <= 15 * u53.
Variable K : R.
Hypothesis KX : fc rx <= K. Hypothesis KY : fc ry <= K. Hypothesis KZ : fc rz <= K.
Hypothesis KS : bpow radix2 (-400) <= K <= bpow radix2 400.
Variables (t t' : vtype) (pw : b64) (pw' : R) (sd : b64) (sd' : R).
Notation vF := (@new_variogram F t pw rx ry rz a d sd).
Notation vR := (@new_variogram Rarith t' pw' (B2R rx) (B2R ry) (B2R rz) ar dr sd').
Lemma sc_1 : scale_ok (1 * 1). Proof. rewrite Rmult_1_l. split; change 1 with (bpow radix2 0); apply bpow_le; lia. Qed.
Lemma sc_K : scale_ok K. Proof. destruct KS as [A B]. split; [apply Rle_trans with (2 := A)|apply Rle_trans with (1 := B)]; apply bpow_le; lia. Qed.
Lemma one2 e b x r : ap (1 * 1) e b x r -> ap 1 e b x r. Proof. rewrite Rmult_1_l. auto. Qed.
Lemma oneK e b x r : ap (1 * K) e b x r -> ap K e b x r. Proof. rewrite Rmult_1_l. auto. Qed.
Lemma sc_1K : scale_ok (1 * K). Proof. rewrite Rmult_1_l. exact sc_K. Qed.
Lemma trig_pair e b x y r s : e <= 900 -> b <= 10 -> ap 1 e b x r -> ap 1 17 1 y s -> ap 1 (e + 18 * b + 1) b (Bm x y) (r * s).
Proof.
  intros E B X Y. apply one2. assert (K1 : 0 < 1) by lra. destruct (ap_pos _ _ _ _ _ X K1).
  apply (ap_weak _ (e * 1 + 17 * b + b * 1 + 1) (b * 1)); [lra|lra|lra|]. apply ap_mult; [exact sc_1|lra|lra|lra|lra|lra|lra|exact X|exact Y].
Qed.
Lemma trig_fac e x f r s : e <= 900 -> ap 1 e 1 x r -> ap K 4 1 f s -> ap K (e + 6) 1 (Bm x f) (r * s).
Proof.
  intros E X Y. apply oneK. destruct (tiny_scale K sc_K) as [KP _]. apply (ap_weak _ (e * 1 + 4 * 1 + 1 * 1 + 1) (1 * 1)); [lra|lra|lra|]. apply ap_mult; [exact sc_1K|lra|exact KP|lra|lra|lra|lra|exact X|exact Y].
Qed.
Lemma two_ap e b x r : e <= 900 -> b <= 20 -> ap K e b x r -> ap K (2 * e + 2 * b + 1) (2 * b) (Bm (Flit 2 0) x) (2 * r).
Proof.
  intros E B X. apply oneK. destruct (tiny_scale K sc_K) as [KP _]. destruct l2 as [F2 V2].
  assert (L : ap 1 0 2 (Flit 2 0) 2) by (split; [exact F2|split; [rewrite V2, Rminus_diag_eq, Rabs_R0 by reflexivity; lra|rewrite Rabs_right; lra]]).
  apply (ap_weak _ (0 * b + e * 2 + 2 * b + 1) (2 * b)); [lra|lra|lra|]. apply ap_mult; [exact sc_1K|lra|exact KP|lra|lra|lra|lra|exact L|exact X].
Qed.
Ltac pr := eapply trig_pair; [| | |eassumption]; [cbn; lra|lra|first [eassumption|pr]].
Lemma factors_ap : ap K 209 3 (txx vF) (txx vR) /\ ap K 209 3 (tyy vF) (tyy vR) /\ ap K 87 2 (tzz vF) (tzz vR) /\
  ap K 425 6 (txy vF) (txy vR) /\ ap K 255 4 (txz vF) (txz vR) /\ ap K 255 4 (tyz vF) (tyz vR).
Proof.
  destruct (tiny_scale K sc_K) as [KP _]. pose proof sc_K as SK.
  destruct (trig_ap m a ar T FA AA) as [SA CA]. destruct (trig_ap m d dr T FD DD) as [SD CD].
  pose proof (fac_ap rx K MX KX) as F1. pose proof (fac_ap ry K MY KY) as F2. pose proof (fac_ap rz K MZ KZ) as F3.
  unfold new_variogram, EstimateFactors. cbn [txx tyy tzz txy txz tyz azimuth dip range_x range_y range_z fsin fcos mul add sub div lit Farith Rarith].
  change (10 ^ 0)%Z with 1%Z. replace (1 / 1) with 1 by lra. replace (2 / 1) with 2 by lra.
  change (Bdiv mode_NE (Flit 1 0) (Bmult mode_NE rx rx)) with (fac64 rx). change (Bdiv mode_NE (Flit 1 0) (Bmult mode_NE ry ry)) with (fac64 ry). change (Bdiv mode_NE (Flit 1 0) (Bmult mode_NE rz rz)) with (fac64 rz).
  generalize dependent (fac64 rx). intros f1 F1. generalize dependent (fac64 ry). intros f2 F2. generalize dependent (fac64 rz). intros f3 F3.
  generalize dependent (lm_sin m a). intros sa SA. generalize dependent (lm_cos m a). intros ca CA. generalize dependent (lm_sin m d). intros sdd SD. generalize dependent (lm_cos m d). intros cd CD.
  assert (P2 : forall x y r s, ap 1 17 1 x r -> ap 1 17 1 y s -> ap 1 36 1 (Bm x y) (r * s)).
  { intros x y r s X Y. apply (ap_weak _ (17 + 18 * 1 + 1) 1); [lra|lra|lra|]. apply trig_pair; [lra|lra|exact X|exact Y]. }
  assert (P3 : forall x y z r s t0, ap 1 17 1 x r -> ap 1 17 1 y s -> ap 1 17 1 z t0 -> ap 1 55 1 (Bm (Bm x y) z) (r * s * t0)).
  { intros x y z r s t0 X Y Z. apply (ap_weak _ (36 + 18 * 1 + 1) 1); [lra|lra|lra|]. apply trig_pair; [lra|lra|apply P2; assumption|exact Z]. }
  assert (P4 : forall x y z w r s t0 q, ap 1 17 1 x r -> ap 1 17 1 y s -> ap 1 17 1 z t0 -> ap 1 17 1 w q -> ap 1 74 1 (Bm (Bm (Bm x y) z) w) (r * s * t0 * q)).
  { intros x y z w r s t0 q X Y Z W. apply (ap_weak _ (55 + 18 * 1 + 1) 1); [lra|lra|lra|]. apply trig_pair; [lra|lra|apply P3; assumption|exact W]. }
  assert (Q2 : forall x y f r s g, ap 1 17 1 x r -> ap 1 17 1 y s -> ap K 4 1 f g -> ap K 42 1 (Bm (Bm x y) f) (r * s * g)).
  { intros x y f r s g X Y G. apply (ap_weak _ (36 + 6) 1); [lra|lra|lra|]. apply trig_fac; [lra|apply P2; assumption|exact G]. }
  assert (Q3 : forall x y z f r s t0 g, ap 1 17 1 x r -> ap 1 17 1 y s -> ap 1 17 1 z t0 -> ap K 4 1 f g -> ap K 61 1 (Bm (Bm (Bm x y) z) f) (r * s * t0 * g)).
  { intros x y z f r s t0 g X Y Z G. apply (ap_weak _ (55 + 6) 1); [lra|lra|lra|]. apply trig_fac; [lra|apply P3; assumption|exact G]. }
  assert (Q4 : forall x y z w f r s t0 q g, ap 1 17 1 x r -> ap 1 17 1 y s -> ap 1 17 1 z t0 -> ap 1 17 1 w q -> ap K 4 1 f g -> ap K 80 1 (Bm (Bm (Bm (Bm x y) z) w) f) (r * s * t0 * q * g)).
  { intros x y z w f r s t0 q g X Y Z W G. apply (ap_weak _ (74 + 6) 1); [lra|lra|lra|]. apply trig_fac; [lra|apply P4; assumption|exact G]. }
  split; [|split; [|split; [|split; [|split]]]].
  - apply (ap_weak _ (125 + 80 + 2 + 1 + 1) (2 + 1)); [lra|lra|lra|]. apply ap_plus; [exact SK|lra|lra|lra|lra| |apply Q4; assumption].
    apply (ap_weak _ (80 + 42 + 1 + 1 + 1) (1 + 1)); [lra|lra|lra|]. apply ap_plus; [exact SK|lra|lra|lra|lra|apply Q4; assumption|apply Q2; assumption].
  - apply (ap_weak _ (125 + 80 + 2 + 1 + 1) (2 + 1)); [lra|lra|lra|]. apply ap_plus; [exact SK|lra|lra|lra|lra| |apply Q4; assumption].
    apply (ap_weak _ (80 + 42 + 1 + 1 + 1) (1 + 1)); [lra|lra|lra|]. apply ap_plus; [exact SK|lra|lra|lra|lra|apply Q4; assumption|apply Q2; assumption].
  - apply (ap_weak _ (42 + 42 + 1 + 1 + 1) (1 + 1)); [lra|lra|lra|]. apply ap_plus; [exact SK|lra|lra|lra|lra|apply Q2; assumption|apply Q2; assumption].
  - apply (ap_weak _ (2 * 209 + 2 * 3 + 1) (2 * 3)); [lra|lra|lra|]. apply two_ap; [lra|lra|].
    apply (ap_weak _ (125 + 80 + 2 + 1 + 1) (2 + 1)); [lra|lra|lra|]. apply ap_plus; [exact SK|lra|lra|lra|lra| |apply Q4; assumption].
    apply (ap_weak _ (80 + 42 + 1 + 1 + 1) (1 + 1)); [lra|lra|lra|]. apply ap_minus; [exact SK|lra|lra|lra|lra|apply Q4; assumption|apply Q2; assumption].
  - apply (ap_weak _ (2 * 125 + 2 * 2 + 1) (2 * 2)); [lra|lra|lra|]. apply two_ap; [lra|lra|].
    apply (ap_weak _ (61 + 61 + 1 + 1 + 1) (1 + 1)); [lra|lra|lra|]. apply ap_minus; [exact SK|lra|lra|lra|lra|apply Q3; assumption|apply Q3; assumption].
  - apply (ap_weak _ (2 * 125 + 2 * 2 + 1) (2 * 2)); [lra|lra|lra|]. apply two_ap; [lra|lra|].
    apply (ap_weak _ (61 + 61 + 1 + 1 + 1) (1 + 1)); [lra|lra|lra|]. apply ap_minus; [exact SK|lra|lra|lra|lra|apply Q3; assumption|apply Q3; assumption].
Qed.
Variables (x y z : b64) (H : R).
Hypothesis FX : fin x = true. Hypothesis FY : fin y = true. Hypothesis FZ : fin z = true.
Hypothesis HX : Rabs (B2R x) <= H. Hypothesis HY : Rabs (B2R y) <= H. Hypothesis HZ : Rabs (B2R z) <= H.
Hypothesis HS : bpow radix2 (-200) <= H <= bpow radix2 200.
Lemma lag_ap (w : b64) : fin w = true -> Rabs (B2R w) <= H -> ap H 0 1 w (B2R w).
Proof. intros Fw W. split; [exact Fw|split; [rewrite Rminus_diag_eq, Rabs_R0 by reflexivity; lra|lra]]. Qed.
Lemma H_pos : 0 < H. Proof. destruct HS as [A _]. pose proof (bpow_gt_0 radix2 (-200)). lra. Qed.
Lemma sc_KH : scale_ok (K * H) /\ scale_ok (K * H * H).
Proof.
  destruct KS as [A B], HS as [C D]. pose proof (bpow_ge_0 radix2 (-400)). pose proof (bpow_ge_0 radix2 (-200)).
  assert (Q : bpow radix2 (-400 + -200) <= K * H <= bpow radix2 (400 + 200)) by (rewrite !bpow_plus; split; apply Rmult_le_compat; lra).
  assert (Q2 : bpow radix2 (-400 + -200 + -200) <= K * H * H <= bpow radix2 (400 + 200 + 200)).
  { pose proof (bpow_ge_0 radix2 (-400 + -200)). rewrite (bpow_plus radix2 (-400 + -200)), (bpow_plus radix2 (400 + 200)). split; apply Rmult_le_compat; lra. }
  split; [destruct Q as [P1 P2]|destruct Q2 as [P1 P2]]; (split; [apply Rle_trans with (2 := P1)|apply Rle_trans with (1 := P2)]; apply bpow_le; lia).
Qed.
Lemma term_ap e b f s (p q : b64) : e <= 900 -> b <= 20 -> ap K e b f s -> fin p = true -> Rabs (B2R p) <= H -> fin q = true -> Rabs (B2R q) <= H ->
  ap (K * H * H) (e + 2 * b + 2) b (Bm (Bm f p) q) (s * B2R p * B2R q).
Proof.
  intros E B X Fp P Fq Q. pose proof H_pos as HP. destruct sc_KH as [S1 S2]. destruct (tiny_scale K sc_K) as [KP _]. assert (KH : 0 < K * H) by nra. destruct (ap_pos _ _ _ _ _ X KP).
  apply (ap_weak _ ((e + b + 1) * 1 + 0 * b + b * 1 + 1) (b * 1)); [nra|lra|lra|]. apply ap_mult; [exact S2|exact KH|exact HP|lra|lra|lra|lra| |apply lag_ap; assumption].
  apply (ap_weak _ (e * 1 + 0 * b + b * 1 + 1) (b * 1)); [exact KH|lra|lra|]. apply ap_mult; [exact S1|exact KP|exact HP|lra|lra|lra|lra|exact X|apply lag_ap; assumption].
Qed.
Definition arg1 (A : Arith) (v : variogram A) (x : num A) : num A := mul A (mul A (txx v) x) x.
Definition arg2 (A : Arith) (v : variogram A) (x y : num A) : num A := add A (add A (arg1 A v x) (mul A (mul A (tyy v) y) y)) (mul A (mul A (txy v) x) y).
Definition arg3 (A : Arith) (v : variogram A) (x y z : num A) : num A :=
  add A (add A (add A (add A (add A (arg1 A v x) (mul A (mul A (tyy v) y) y)) (mul A (mul A (tzz v) z) z)) (mul A (mul A (txy v) x) y)) (mul A (mul A (txz v) x) z)) (mul A (mul A (tyz v) y) z).
Lemma args_ap : ap (K * H * H) 1569 22 (arg1 F vF x) (arg1 Rarith vR (B2R x)) /\ ap (K * H * H) 1569 22 (arg2 F vF x y) (arg2 Rarith vR (B2R x) (B2R y)) /\
  ap (K * H * H) 1569 22 (arg3 F vF x y z) (arg3 Rarith vR (B2R x) (B2R y) (B2R z)).
Proof.
  destruct sc_KH as [_ S2]. destruct (tiny_scale _ S2) as [P2 _]. destruct factors_ap as (A1 & A2 & A3 & A4 & A5 & A6).
  unfold arg1, arg2, arg3. cbn [mul add Rarith]. change (mul F) with Bm. change (add F) with (@Bplus 53 1024 Hprec Hmax mode_NE).
  pose proof (term_ap 209 3 _ _ x x ltac:(lra) ltac:(lra) A1 FX HX FX HX) as T1. pose proof (term_ap 209 3 _ _ y y ltac:(lra) ltac:(lra) A2 FY HY FY HY) as T2.
  pose proof (term_ap 87 2 _ _ z z ltac:(lra) ltac:(lra) A3 FZ HZ FZ HZ) as T3. pose proof (term_ap 425 6 _ _ x y ltac:(lra) ltac:(lra) A4 FX HX FY HY) as T4.
  pose proof (term_ap 255 4 _ _ x z ltac:(lra) ltac:(lra) A5 FX HX FZ HZ) as T5. pose proof (term_ap 255 4 _ _ y z ltac:(lra) ltac:(lra) A6 FY HY FZ HZ) as T6.
  split; [|split].
  - revert T1. apply ap_weak; lra.
  - assert (Q1 : ap (K * H * H) 441 6 (Bplus mode_NE (Bm (Bm (txx vF) x) x) (Bm (Bm (tyy vF) y) y)) (txx vR * B2R x * B2R x + tyy vR * B2R y * B2R y))
      by (refine (ap_weak _ _ _ _ _ _ _ P2 _ _ (ap_plus _ _ _ _ _ _ _ _ _ S2 _ _ _ _ T1 T2)); lra).
    refine (ap_weak _ _ _ _ _ _ _ P2 _ _ (ap_plus _ _ _ _ _ _ _ _ _ S2 _ _ _ _ Q1 T4)); lra.
  - assert (Q1 : ap (K * H * H) 441 6 (Bplus mode_NE (Bm (Bm (txx vF) x) x) (Bm (Bm (tyy vF) y) y)) (txx vR * B2R x * B2R x + tyy vR * B2R y * B2R y))
      by (refine (ap_weak _ _ _ _ _ _ _ P2 _ _ (ap_plus _ _ _ _ _ _ _ _ _ S2 _ _ _ _ T1 T2)); lra).
    refine (ap_weak _ _ _ _ _ _ _ P2 _ _ (ap_plus _ _ _ _ _ _ _ _ _ S2 _ _ _ _ (ap_plus _ _ _ _ _ _ _ _ _ S2 _ _ _ _ (ap_plus _ _ _ _ _ _ _ _ _ S2 _ _ _ _ (ap_plus _ _ _ _ _ _ _ _ _ S2 _ _ _ _ Q1 T3) T4) T5) T6)); lra.
Qed.
End Form.
