(** Accuracy of correlations in double precision: rotated variograms made by the API. *)
From Coq Require Import ZArith Bool Lia Reals Lra String List.
From Flocq Require Import Core IEEE754.BinarySingleNaN.
From Verif Require Import Base Arith RealArith FloatArith M_Variogram S_Vario S_Random S_Normal P_RBounds P_Cov P_Vario P_VarioNames P_VarioMore P_Special2 P_VarioF P_NormF S_CorrF P_CorrF P_CorrF2 P_CorrF4 P_CorrF5 P_CorrF7 S_Accur P_Accur P_Accur2 P_Accur3 P_Accur4 P_Accur5 P_Accur6 P_Accur7 P_Accur8 P_Accur9.
Import ListNotations.
Open Scope R_scope.

(** the square of the distance, and how small it can be *)
Lemma ndist_sq rx ry rz a d x y z : ndist rx ry rz a d (x, y, z) * ndist rx ry rz a d (x, y, z) =
  (dot (main_axis a d) (x, y, z) / rx) ^ 2 + (dot (perp_axis a) (x, y, z) / ry) ^ 2 + (dot (third_axis a d) (x, y, z) / rz) ^ 2.
Proof. unfold ndist. rewrite sqrt_sqrt; [reflexivity|]. pose proof (pow2_ge_0 (dot (main_axis a d) (x, y, z) / rx)). pose proof (pow2_ge_0 (dot (perp_axis a) (x, y, z) / ry)). pose proof (pow2_ge_0 (dot (third_axis a d) (x, y, z) / rz)). lra. Qed.
Lemma axes_sq a d x y z : dot (main_axis a d) (x, y, z) ^ 2 + dot (perp_axis a) (x, y, z) ^ 2 + dot (third_axis a d) (x, y, z) ^ 2 = x ^ 2 + y ^ 2 + z ^ 2.
Proof.
  unfold dot, main_axis, perp_axis, third_axis. pose proof (sin2_cos2 a) as A. pose proof (sin2_cos2 d) as D. unfold Rsqr in A, D.
  assert (CA : cos a ^ 2 = 1 - sin a ^ 2) by (cbn; lra). assert (CD : cos d ^ 2 = 1 - sin d ^ 2) by (cbn; lra).
  ring_simplify. rewrite CA, CD. ring.
Qed.
Lemma div_sq_ge c r M : 0 < r <= M -> c ^ 2 <= (c / r) ^ 2 * (M * M).
Proof.
  intros [R0 RM]. replace ((c / r) ^ 2 * (M * M)) with (c ^ 2 * ((M / r) * (M / r))) by (field; lra).
  assert (1 <= M / r) by (apply Rmult_le_reg_r with r; [lra|]; unfold Rdiv; rewrite Rmult_assoc, Rinv_l; lra).
  assert (1 <= (M / r) * (M / r)) by nra. pose proof (pow2_ge_0 c) as C2. generalize dependent (c ^ 2). intros. nra.
Qed.
Lemma ndist_ge rx ry rz a d x y z M : 0 < rx <= M -> 0 < ry <= M -> 0 < rz <= M ->
  x ^ 2 + y ^ 2 + z ^ 2 <= ndist rx ry rz a d (x, y, z) * ndist rx ry rz a d (x, y, z) * (M * M).
Proof.
  intros X Y Z. rewrite ndist_sq, <- (axes_sq a d x y z), !Rmult_plus_distr_r. pose proof (div_sq_ge (dot (main_axis a d) (x, y, z)) rx M X).
  pose proof (div_sq_ge (dot (perp_axis a) (x, y, z)) ry M Y). pose proof (div_sq_ge (dot (third_axis a d) (x, y, z)) rz M Z). lra.
Qed.
Lemma div_sq_le c r mi : 0 < mi <= r -> (c / r) ^ 2 * (mi * mi) <= c ^ 2.
Proof.
  intros [R0 RM]. replace ((c / r) ^ 2 * (mi * mi)) with (c ^ 2 * ((mi / r) * (mi / r))) by (field; lra).
  assert (0 <= mi / r <= 1). { split; [apply Rmult_le_pos; [lra|left; apply Rinv_0_lt_compat; lra]|]. apply Rmult_le_reg_r with r; [lra|]; unfold Rdiv; rewrite Rmult_assoc, Rinv_l; lra. }
  assert (0 <= (mi / r) * (mi / r) <= 1) by nra. pose proof (pow2_ge_0 c) as C2. generalize dependent (c ^ 2). intros. nra.
Qed.
Lemma ndist_le rx ry rz a d x y z mi : 0 < mi <= rx -> mi <= ry -> mi <= rz ->
  ndist rx ry rz a d (x, y, z) * ndist rx ry rz a d (x, y, z) * (mi * mi) <= x ^ 2 + y ^ 2 + z ^ 2.
Proof.
  intros X Y Z. rewrite ndist_sq, <- (axes_sq a d x y z), !Rmult_plus_distr_r. pose proof (div_sq_le (dot (main_axis a d) (x, y, z)) rx mi X).
  pose proof (div_sq_le (dot (perp_axis a) (x, y, z)) ry mi ltac:(lra)). pose proof (div_sq_le (dot (third_axis a d) (x, y, z)) rz mi ltac:(lra)). lra.
Qed.
(** from the square to the distance *)
Lemma sqrt_near (t : b64) S k D q : ap S 1569 22 t q -> q = D * D -> 0 < D -> 1 <= k -> S <= k * (D * D) -> 0 < S -> 1571 * u53 * k <= 1 / 50 -> bpow radix2 (-201) <= D <= bpow radix2 201 ->
  fin (Bsqrt mode_NE t) = true /\ szd (-202) 202 (B2R (Bsqrt mode_NE t)) /\ Rabs (B2R (Bsqrt mode_NE t) - D) <= 1571 * u53 * k * D.
Proof.
  intros (F & A & _) -> D0 K1 SK S0 KB [DL DU]. pose proof u53_small as U. set (w := B2R t) in *. assert (DD : 0 < D * D) by nra.
  assert (E : Rabs (w - D * D) <= 1569 * (u53 * k) * (D * D)).
  { apply Rle_trans with (1 := A). replace (1569 * (u53 * k) * (D * D)) with (1569 * u53 * (k * (D * D))) by ring. apply Rmult_le_compat_l; lra. }
  set (uk := u53 * k) in *. assert (UK : u53 <= uk) by (unfold uk; nra). assert (UK2 : 1571 * uk <= 1 / 50) by (unfold uk; lra). apply Rabs_le_inv in E.
  assert (W0 : 0 < w) by nra. pose proof (sqrt_lt_R0 w W0) as R0. pose proof (sqrt_sqrt w (Rlt_le _ _ W0)) as RR. set (r := sqrt w) in *.
  assert (RE : - (1569 * uk * D) <= r - D <= 1569 * uk * D).
  { set (e := 1569 * uk) in *. assert (E1 : 0 <= e <= 1 / 50) by (unfold e; lra). clearbody r w e. clear - E R0 RR E1 D0 DD. split; apply Rnot_lt_le; intros L.
    - assert (B : r * r < (D * (1 - e)) * (D * (1 - e))) by (apply Rmult_le_0_lt_compat; nra). assert (0 <= e * (D * D)) by nra. nra.
    - assert (B : (D * (1 + e)) * (D * (1 + e)) < r * r) by (apply Rmult_le_0_lt_compat; nra). assert (0 <= e * (D * D)) by nra. nra. }
  pose proof (Bsqrt_correct 53 1024 Hprec Hmax mode_NE t) as (V & Fi & _).
  assert (Ft : fin (Bsqrt mode_NE t) = true).
  { rewrite Fi. destruct t as [s|s| |s mm ee Q]; try discriminate F; [reflexivity|]. destruct s; [|reflexivity]. exfalso. unfold w in W0. cbn [B2R] in W0. pose proof (F2R_le_0 radix2 (Float radix2 (Z.neg mm) ee) ltac:(cbn; lia)). cbn in *. lra. }
  split; [exact Ft|]. change (round radix2 (SpecFloat.fexp 53 1024) (round_mode mode_NE) (sqrt (B2R t))) with (rnd r) in V. rewrite V.
  assert (RB : bpow radix2 (-202) <= r <= bpow radix2 202).
  { change (-201)%Z with (-202 + 1)%Z in DL. change 202%Z with (201 + 1)%Z. rewrite bp1 in *. pose proof (bpow_gt_0 radix2 (-202)). split; nra. }
  split.
  - right. apply rnd_between; [apply fmt_pow; lia|apply fmt_pow; lia|exact RB].
  - pose proof (round_err r) as Q. rewrite (Rabs_right r) in Q by lra.
    assert (TN : bpow radix2 (-1000) <= u53 / 100 * D).
    { apply Rle_trans with (bpow radix2 (-60) * bpow radix2 (-201)); [rewrite <- bpow_plus; apply bpow_le; lia|]. apply Rmult_le_compat; [apply bpow_ge_0|apply bpow_ge_0| |exact DL].
      rewrite u53_val. unfold bpow, radix2, Zpower_pos; simpl. lra. }
    apply Rabs_le_inv in Q. apply Rabs_le. replace (1571 * u53 * k * D) with (1571 * (uk * D)) by (unfold uk; ring).
    assert (u53 * r <= u53 * (51 / 50 * D)) by (apply Rmult_le_compat_l; nra). assert (u53 * D <= uk * D) by (apply Rmult_le_compat_r; lra). split; nra.
Qed.
Lemma rmax3 (x y z : R) : exists H, Rabs x <= H /\ Rabs y <= H /\ Rabs z <= H /\ H * H <= x ^ 2 + y ^ 2 + z ^ 2 /\ (H = Rabs x \/ H = Rabs y \/ H = Rabs z).
Proof.
  assert (S : forall a, Rabs a * Rabs a = a ^ 2) by (intros a; rewrite <- Rabs_mult, Rabs_right; [ring|]; apply Rle_ge; nra).
  pose proof (pow2_ge_0 x). pose proof (pow2_ge_0 y). pose proof (pow2_ge_0 z). pose proof (S x). pose proof (S y). pose proof (S z).
  destruct (Rle_dec (Rabs x) (Rabs y)), (Rle_dec (Rabs y) (Rabs z)), (Rle_dec (Rabs x) (Rabs z)).
  all: first [exists (Rabs x); repeat split; [lra|lra|lra|lra|auto; fail] | exists (Rabs y); repeat split; [lra|lra|lra|lra|auto; fail] | exists (Rabs z); repeat split; [lra|lra|lra|lra|auto; fail]].
Qed.
Lemma sqrt_is m : fsqrt (Farith m) = @Bsqrt 53 1024 Hprec Hmax mode_NE. Proof. reflexivity. Qed.
Lemma U1 m (v : variogram (Farith m)) x : @Distance1 (Farith m) v x = Bsqrt mode_NE (arg1 (Farith m) v x).
Proof. unfold Distance1, arg1. rewrite sqrt_is. reflexivity. Qed.
Lemma U2 m (v : variogram (Farith m)) x y : @Distance2 (Farith m) v x y = Bsqrt mode_NE (arg2 (Farith m) v x y).
Proof. unfold Distance2, arg2, arg1. rewrite sqrt_is. reflexivity. Qed.
Lemma U3 m (v : variogram (Farith m)) x y z : @Distance3 (Farith m) v x y z = Bsqrt mode_NE (arg3 (Farith m) v x y z).
Proof. unfold Distance3, arg3, arg1. rewrite sqrt_is. reflexivity. Qed.
Section Api.
Variable m : libm.
Hypothesis ok : fair m.
Hypothesis T : trig_rounded m.
Hypothesis ER : exp_rounded m.
Hypothesis PR : pow_rounded m.
Notation F := (Farith m).
Variables (rx ry rz a d : b64).
Hypothesis OX : ordinary rx. Hypothesis OY : ordinary ry. Hypothesis OZ : ordinary rz.
Hypothesis AA : angle a. Hypothesis AD : angle d.
Variable k : R.
Hypothesis K1 : 1 <= k <= 262144.
Hypothesis KR : ratio_at_most k (B2R rx) (B2R ry) (B2R rz).
Variables (t : vtype) (pw : b64) (pw' : R) (sd : b64) (sd' : R).
Notation vF := (@new_variogram F t pw rx ry rz (Bm a degF) (Bm d degF) sd).
Notation nd := (ndist (B2R rx) (B2R ry) (B2R rz) (radians (B2R a)) (radians (B2R d))).
Notation vR := (@new_variogram Rarith t pw' (B2R rx) (B2R ry) (B2R rz) (radians (B2R a)) (radians (B2R d)) sd').
Lemma ord_mod r : ordinary r -> moderate r.
Proof. intros [A [B C]]. split; [exact A|]. split; [apply Rle_trans with (2 := B)|apply Rle_trans with (1 := C)]; apply bpow_le; lia. Qed.
Lemma min3 (x y z : R) : exists c, c <= x /\ c <= y /\ c <= z /\ (c = x \/ c = y \/ c = z).
Proof. destruct (Rle_dec x y), (Rle_dec y z), (Rle_dec x z); first [exists x; repeat split; [lra|lra|lra|auto; fail] | exists y; repeat split; [lra|lra|lra|auto; fail] | exists z; repeat split; [lra|lra|lra|auto; fail]]. Qed.
Lemma uk : 1571 * u53 * (k * k) <= 1 / 50.
Proof. rewrite u53_val. assert (k * k <= 262144 * 262144) by (apply Rmult_le_compat; lra). lra. Qed.
Lemma arg_3 x y z : arg3 Rarith vR x y z = nd (x, y, z) * nd (x, y, z).
Proof.
  pose proof (mod_pos _ (ord_mod _ OX)). pose proof (mod_pos _ (ord_mod _ OY)). pose proof (mod_pos _ (ord_mod _ OZ)). rewrite ndist_sq.
  generalize (radians (B2R a)) (radians (B2R d)). intros p q. unfold arg3, arg1, dot, main_axis, perp_axis, third_axis. cbn. field. lra.
Qed.
Lemma arg_2 x y : arg2 Rarith vR x y = arg3 Rarith vR x y 0.
Proof. unfold arg3, arg2. generalize vR. intros v. unfold arg1. cbn [num add mul Rarith]. ring. Qed.
Lemma arg_1 x : arg1 Rarith vR x = arg3 Rarith vR x 0 0.
Proof. unfold arg3. generalize vR. intros v. unfold arg1. cbn [num add mul Rarith]. ring. Qed.
Definition good (q : b64) (D : R) : Prop := fin q = true /\ szd (-202) 202 (B2R q) /\ Rabs (B2R q - D) <= 1571 * u53 * (k * k) * D.
Lemma dists x y z : ordinary_lag x -> ordinary_lag y -> ordinary_lag z ->
  good (@Distance1 F vF x) (nd (B2R x, 0, 0)) /\ good (@Distance2 F vF x y) (nd (B2R x, B2R y, 0)) /\ good (@Distance3 F vF x y z) (nd (B2R x, B2R y, B2R z)).
Proof.
  destruct AA as [FA BA]. destruct AD as [FD BD]. destruct (angle_ap a FA BA) as [FA' EA]. destruct (angle_ap d FD BD) as [FD' ED].
  pose proof (ord_mod _ OX) as MX. pose proof (ord_mod _ OY) as MY. pose proof (ord_mod _ OZ) as MZ. pose proof (mod_pos _ MX) as PX. pose proof (mod_pos _ MY) as PY. pose proof (mod_pos _ MZ) as PZ.
  destruct (min3 (B2R rx) (B2R ry) (B2R rz)) as (c & C1 & C2 & C3 & CC).
  assert (C0 : bpow radix2 (-100) <= c <= bpow radix2 100) by (destruct OX as [_ HX], OY as [_ HY], OZ as [_ HZ]; destruct CC as [E0|[E0|E0]]; rewrite E0 in *; lra).
  assert (CM : B2R rx <= k * c /\ B2R ry <= k * c /\ B2R rz <= k * c). { destruct KR as (R1 & R2 & R3 & R4 & R5 & R6). destruct CC as [E0|[E0|E0]]; rewrite E0 in *; repeat split; try assumption; nra. }
  assert (Cp : 0 < c) by (pose proof (bpow_gt_0 radix2 (-100)); lra).
  set (K := / (c * c)). assert (CCp : 0 < c * c) by nra. assert (Kp : 0 < K) by (apply Rinv_0_lt_compat; exact CCp).
  assert (FK : forall r, c <= B2R r -> fc r <= K) by (intros r R; unfold fc, K; apply Rinv_le_contravar; [exact CCp|apply Rmult_le_compat; lra]).
  assert (KS : bpow radix2 (-400) <= K <= bpow radix2 400).
  { assert (Q : bpow radix2 (-400) <= c * c <= bpow radix2 400).
    { assert (L : bpow radix2 (-100 + -100) <= c * c <= bpow radix2 (100 + 100)) by (pose proof (bpow_ge_0 radix2 (-100)); rewrite !bpow_plus; split; apply Rmult_le_compat; lra).
      split; [apply Rle_trans with (2 := proj1 L)|apply Rle_trans with (1 := proj2 L)]; apply bpow_le; lia. }
    pose proof (bpow_gt_0 radix2 (-400)). unfold K. change (-400)%Z with (- (400))%Z at 1. change 400%Z with (- -400)%Z at 2. rewrite !bpow_opp. split; apply Rinv_le_contravar; lra. }
  (* one set of lags, not all zero *)
  assert (G : forall x y z : b64, ordinary_lag x -> ordinary_lag y -> ordinary_lag z -> nd (B2R x, B2R y, B2R z) <> 0 ->
    exists S, 0 < S /\ S <= k * k * (nd (B2R x, B2R y, B2R z) * nd (B2R x, B2R y, B2R z)) /\ 0 < nd (B2R x, B2R y, B2R z) /\
      bpow radix2 (-201) <= nd (B2R x, B2R y, B2R z) <= bpow radix2 201 /\
      ap S 1569 22 (arg1 F vF x) (arg1 Rarith vR (B2R x)) /\ ap S 1569 22 (arg2 F vF x y) (arg2 Rarith vR (B2R x) (B2R y)) /\ ap S 1569 22 (arg3 F vF x y z) (arg3 Rarith vR (B2R x) (B2R y) (B2R z))).
  { clear x y z. intros x y z X Y Z N0. pose proof (ndist_nonneg (B2R rx) (B2R ry) (B2R rz) (radians (B2R a)) (radians (B2R d)) (B2R x, B2R y, B2R z)) as N1.
    destruct (rmax3 (B2R x) (B2R y) (B2R z)) as (H & H1 & H2 & H3 & HQ & HE).
    pose proof (ndist_ge (B2R rx) (B2R ry) (B2R rz) (radians (B2R a)) (radians (B2R d)) (B2R x) (B2R y) (B2R z) (k * c) ltac:(lra) ltac:(lra) ltac:(lra)) as GE.
    pose proof (ndist_le (B2R rx) (B2R ry) (B2R rz) (radians (B2R a)) (radians (B2R d)) (B2R x) (B2R y) (B2R z) c ltac:(lra) C2 C3) as LE.
    set (D := nd (B2R x, B2R y, B2R z)) in *. assert (DP : 0 < D) by lra.
    assert (S3 : B2R x ^ 2 + B2R y ^ 2 + B2R z ^ 2 <= 3 * (H * H)).
    { assert (S : forall w, Rabs w <= H -> w ^ 2 <= H * H). { intros w W. replace (w ^ 2) with (Rabs w * Rabs w) by (rewrite <- Rabs_mult, Rabs_right; [ring|apply Rle_ge; nra]). pose proof (Rabs_pos w). apply Rmult_le_compat; lra. }
      pose proof (S _ H1). pose proof (S _ H2). pose proof (S _ H3). lra. }
    assert (HS : bpow radix2 (-100) <= H <= bpow radix2 100).
    { assert (O : H = 0 \/ bpow radix2 (-100) <= H <= bpow radix2 100).
      { destruct X as [_ X], Y as [_ Y], Z as [_ Z]. destruct HE as [E0|[E0|E0]]; rewrite E0; [destruct X as [W|W]|destruct Y as [W|W]|destruct Z as [W|W]]; try (right; exact W); left; rewrite W; apply Rabs_R0. }
      destruct O as [O|O]; [exfalso|exact O]. subst H. assert (D * D * (c * c) <= 0) by lra. assert (0 < D * D) by nra. nra. }
    assert (HP : 0 < H) by (pose proof (bpow_gt_0 radix2 (-100)); lra).
    assert (HS2 : bpow radix2 (-200) <= H <= bpow radix2 200) by (destruct HS as [A B]; split; [apply Rle_trans with (2 := A)|apply Rle_trans with (1 := B)]; apply bpow_le; lia).
    exists (K * H * H). split; [|split; [|split; [exact DP|split]]].
    - apply Rmult_lt_0_compat; [apply Rmult_lt_0_compat|]; assumption.
    - apply Rmult_le_reg_r with (c * c); [exact CCp|]. replace (K * H * H * (c * c)) with (H * H) by (unfold K; field; lra). lra.
    - pose proof (ndist_ge (B2R rx) (B2R ry) (B2R rz) (radians (B2R a)) (radians (B2R d)) (B2R x) (B2R y) (B2R z) (bpow radix2 100)
        ltac:(destruct OX as [_ HH]; lra) ltac:(destruct OY as [_ HH]; lra) ltac:(destruct OZ as [_ HH]; lra)) as GE2. fold D in GE2.
      assert (SQ : forall u w, 0 <= u -> 0 <= w -> u * u <= w * w -> u <= w) by (intros u w Hu Hw Q; apply Rnot_lt_le; intros L; nra).
      pose proof (bpow_gt_0 radix2 100) as P100. pose proof (bpow_gt_0 radix2 (-100)) as P100'. assert (PI1 : bpow radix2 (-100) * bpow radix2 100 = 1) by (rewrite <- bpow_plus; reflexivity).
      assert (L1 : H <= D * bpow radix2 100) by (apply SQ; [lra|nra|]; replace (D * bpow radix2 100 * (D * bpow radix2 100)) with (D * D * (bpow radix2 100 * bpow radix2 100)) by ring; lra).
      assert (L2 : D * c <= 2 * H) by (apply SQ; [nra|lra|]; replace (D * c * (D * c)) with (D * D * (c * c)) by ring; nra).
      split.
      + apply Rle_trans with (bpow radix2 (-100 + -100)); [apply bpow_le; lia|]. rewrite bpow_plus. apply Rmult_le_reg_r with (bpow radix2 100); [exact P100|]. rewrite Rmult_assoc, PI1. lra.
      + change 201%Z with (1 + (100 + 100))%Z. rewrite !bpow_plus. change (bpow radix2 1) with 2. apply Rmult_le_reg_r with (bpow radix2 (-100)); [exact P100'|].
        replace (2 * (bpow radix2 100 * bpow radix2 100) * bpow radix2 (-100)) with (2 * bpow radix2 100 * (bpow radix2 (-100) * bpow radix2 100)) by ring. rewrite PI1.
        apply Rle_trans with (D * c); [apply Rmult_le_compat_l; lra|lra].
    - destruct X as [FX _], Y as [FY _], Z as [FZ _].
      exact (args_ap m T rx ry rz (Bm a degF) (Bm d degF) MX MY MZ (radians (B2R a)) (radians (B2R d)) FA' FD' EA ED K (FK _ C1) (FK _ C2) (FK _ C3) KS t t pw pw' sd sd' x y z H FX FY FZ H1 H2 H3 HS2). }
  pose proof uk as UK. assert (KK : 1 <= k * k) by nra. pose proof (bpow_gt_0 radix2 0) as _. intros X Y Z.
  assert (O0 : ordinary_lag zero64) by (split; [reflexivity|left; reflexivity]). assert (V0 : B2R zero64 = 0) by reflexivity.
  (* the zero lag *)
  assert (ZZ : forall x y z : b64, ordinary_lag x -> ordinary_lag y -> ordinary_lag z -> nd (B2R x, B2R y, B2R z) = 0 -> is_zero x /\ is_zero y /\ is_zero z).
  { intros x' y' z' X' Y' Z' E. apply ndist_zero in E; [|lra|lra|lra]. injection E as E1 E2 E3. split; [|split]; apply zero_of; try assumption; [apply X'|apply Y'|apply Z']. }
  assert (FT : fin (txx vF) = true /\ fin (tyy vF) = true /\ fin (tzz vF) = true /\ fin (txy vF) = true /\ fin (txz vF) = true /\ fin (tyz vF) = true).
  { pose proof (factors_ap m T rx ry rz (Bm a degF) (Bm d degF) MX MY MZ (radians (B2R a)) (radians (B2R d)) FA' FD' EA ED K (FK _ C1) (FK _ C2) (FK _ C3) KS t t pw pw' sd sd') as (A1 & A2 & A3 & A4 & A5 & A6).
    split; [apply A1|split; [apply A2|split; [apply A3|split; [apply A4|split; [apply A5|apply A6]]]]]. }
  destruct FT as (T1 & T2 & T3 & T4 & T5 & T6).
  assert (GZ : forall q : b64, is_zero q -> good q 0). { intros q [b ->]. split; [reflexivity|split; [left; reflexivity|]]. cbn [B2R]. rewrite Rminus_0_r, Rabs_R0, Rmult_0_r. lra. }
  split; [|split].
  - replace (nd (B2R x, 0, 0)) with (nd (B2R x, B2R zero64, B2R zero64)) by (rewrite V0; reflexivity). destruct (Req_dec (nd (B2R x, B2R zero64, B2R zero64)) 0) as [E|E].
    + rewrite E. apply GZ. destruct (ZZ x zero64 zero64 X O0 O0 E) as (Q1 & Q2 & Q3). exact (proj1 (dist_zero m vF x zero64 zero64 T1 T2 T3 T4 T5 T6 Q1 Q2 Q3)).
    + destruct (G x zero64 zero64 X O0 O0 E) as (S & S0 & SK & DP & DB & A1 & _). rewrite (U1 m). apply (sqrt_near _ S _ _ _ A1); try assumption. rewrite arg_1, arg_3. reflexivity.
  - replace (nd (B2R x, B2R y, 0)) with (nd (B2R x, B2R y, B2R zero64)) by (rewrite V0; reflexivity). destruct (Req_dec (nd (B2R x, B2R y, B2R zero64)) 0) as [E|E].
    + rewrite E. apply GZ. destruct (ZZ x y zero64 X Y O0 E) as (Q1 & Q2 & Q3). exact (proj1 (proj2 (dist_zero m vF x y zero64 T1 T2 T3 T4 T5 T6 Q1 Q2 Q3))).
    + destruct (G x y zero64 X Y O0 E) as (S & S0 & SK & DP & DB & _ & A1 & _). rewrite (U2 m). apply (sqrt_near _ S _ _ _ A1); try assumption. rewrite arg_2, arg_3. reflexivity.
  - destruct (Req_dec (nd (B2R x, B2R y, B2R z)) 0) as [E|E].
    + rewrite E. apply GZ. destruct (ZZ x y z X Y Z E) as (Q1 & Q2 & Q3). exact (proj2 (proj2 (dist_zero m vF x y z T1 T2 T3 T4 T5 T6 Q1 Q2 Q3))).
    + destruct (G x y z X Y Z E) as (S & S0 & SK & DP & DB & _ & _ & A1). rewrite (U3 m). apply (sqrt_near _ S _ _ _ A1); try assumption. rewrite arg_3. reflexivity.
Qed.
End Api.
