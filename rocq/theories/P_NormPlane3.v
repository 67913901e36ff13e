(** C13: the points beyond 3 have the law of a normal pair; the values returned have the normal law. *)
From Coq Require Import ZArith Bool Lia Reals Lra Psatz List.
From Coquelicot Require Import Coquelicot.
From Verif Require Import Base Arith RealArith M_Random S_Normal S_NormTail S_NormPlane P_Norm P_NormMix P_NormTail P_NormPlane P_NormPlane2.
Import ListNotations.
Open Scope R_scope.

Lemma phi_cont x : continuous phi x.
Proof. pose proof rt2_pos. apply (continuous_ext (fun x => / rt2 * gau x)). - intros y. req. rewrite gau_phi. field. lra. - apply (continuous_mult (K := R_AbsRing)); [apply continuous_const|apply gau_cont]. Qed.
Lemma ex_phi a b : ex_RInt phi a b.
Proof. apply (ex_RInt_continuous (V := R_CompleteNormedModule)). intros. apply phi_cont. Qed.
Lemma share_of_int q T t1 t2 : 3 <= q <= T -> t1 <= t2 -> ex_RInt (hq q) t1 t2 -> ex_RInt (hq T) t1 t2 ->
  share (fun r t => q < tail_radius r * cos t < T) t1 t2 ((RInt (hq q) t1 t2 - RInt (hq T) t1 t2) / 2 / PI).
Proof.
  intros H O A B. apply (share_between _ (hq T) (hq q)); [| | |exact O].
  - intros t _. split; [split; [apply hq_range; lra|apply hq_anti; exact H]|apply hq_range; lra].
  - intros t r _ Hr. apply between_x; assumption.
  - pose proof (is_RInt_minus (V := R_NormedModule) _ _ _ _ _ _ (RInt_correct _ _ _ A) (RInt_correct _ _ _ B)) as K.
    pose proof (is_RInt_scal (V := R_NormedModule) _ _ _ (/ 2 * / PI) _ K) as K2.
    change (is_RInt (fun y : R => / 2 * / PI * (hq q y - hq T y)) t1 t2 (/ 2 * / PI * (RInt (hq q) t1 t2 - RInt (hq T) t1 t2))) in K2.
    replace ((RInt (hq q) t1 t2 - RInt (hq T) t1 t2) / 2 / PI) with (/ 2 * / PI * (RInt (hq q) t1 t2 - RInt (hq T) t1 t2)) by (unfold Rdiv; ring).
    eapply is_RInt_ext; [|exact K2]. intros t _. req. unfold Rdiv. ring.
Qed.
Lemma two_phi x y : exp (9 / 2) * gau x * (rt2 * y) / 2 / PI = exp (9 / 2) * (phi x * y).
Proof. pose proof PI_RGT_0. rewrite gau_phi. replace (exp (9 / 2) * (rt2 * phi x) * (rt2 * y)) with (exp (9 / 2) * (rt2 * rt2) * (phi x * y)) by ring. rewrite rt2_sq. field. lra. Qed.
Lemma wedge_share a b q T : a <= b -> 3 <= q <= T ->
  share (fun r t => q < tail_radius r * cos t < T) (atan a) (atan b) (exp (9 / 2) * RInt (fun x => phi x * RInt phi (a * x) (b * x)) q T).
Proof.
  intros O H. assert (O2 : atan a <= atan b) by (destruct O as [O| ->]; [left; apply atan_increasing; exact O|right; reflexivity]).
  assert (EX : forall z, ex_RInt (hq z) (atan a) (atan b)) by (intros z; apply ex_hq; apply atan_bound).
  pose proof (share_of_int q T (atan a) (atan b) H O2 (EX q) (EX T)) as K. rewrite !hq_atan_int, wedge_int in K.
  assert (E : RInt (fun x => exp (9 / 2) * gau x * RInt gau (x * a) (x * b)) q T / 2 / PI = exp (9 / 2) * RInt (fun x => phi x * RInt phi (a * x) (b * x)) q T); [|rewrite <- E; exact K].
  assert (C : ex_RInt (fun x => exp (9 / 2) * gau x * RInt gau (x * a) (x * b)) q T) by (apply (ex_RInt_continuous (V := R_CompleteNormedModule)); intros; apply gauint_cont).
  assert (E2 : forall x, exp (9 / 2) * gau x * RInt gau (x * a) (x * b) = exp (9 / 2) * (2 * PI) * (phi x * RInt phi (a * x) (b * x))).
  { intros x. rewrite gau_phi_int, gau_phi, (Rmult_comm x a), (Rmult_comm x b). rewrite <- rt2_sq. ring. }
  rewrite (RInt_ext (V := R_CompleteNormedModule) _ (fun x => exp (9 / 2) * (2 * PI) * (phi x * RInt phi (a * x) (b * x)))) by (intros; apply E2).
  pose proof PI_RGT_0 as P. pose proof (exp_pos (9 / 2)) as P2.
  assert (C2 : ex_RInt (fun x => phi x * RInt phi (a * x) (b * x)) q T).
  { apply (ex_RInt_ext (fun x => scal (/ (exp (9 / 2) * (2 * PI))) (exp (9 / 2) * gau x * RInt gau (x * a) (x * b)))).
    - intros x _. change (/ (exp (9 / 2) * (2 * PI)) * (exp (9 / 2) * gau x * RInt gau (x * a) (x * b)) = phi x * RInt phi (a * x) (b * x)). rewrite E2. field. lra.
    - apply (ex_RInt_scal (V := R_NormedModule)). exact C. }
  pose proof (RInt_scal (fun x => phi x * RInt phi (a * x) (b * x)) q T (exp (9 / 2) * (2 * PI)) C2) as S.
  change (RInt (fun x => exp (9 / 2) * (2 * PI) * (phi x * RInt phi (a * x) (b * x))) q T = exp (9 / 2) * (2 * PI) * RInt (fun x => phi x * RInt phi (a * x) (b * x)) q T) in S.
  rewrite S. field. lra.
Qed.

(** ** all directions *)
Lemma hq_small T t : 3 <= T -> 0 <= hq T t <= exp (9 / 2) * (cos t * cos t).
Proof.
  intros H. split; [apply hq_range; exact H|]. unfold hq. pose proof (exp_pos (9 / 2)) as P. destruct (Rlt_dec 0 (cos t)) as [C|C]; [|apply Rmult_le_pos; nra].
  replace ((9 - T / cos t * (T / cos t)) / 2) with (9 / 2 + - (T / cos t * (T / cos t) / 2)) by (unfold Rdiv; ring). rewrite exp_plus. apply Rmult_le_compat_l; [lra|].
  assert (D : 0 <= T / cos t * (T / cos t) / 2) by nra.
  eapply Rle_trans; [apply exp_inv_le; exact D|]. assert (K : / (cos t * cos t) <= 1 + T / cos t * (T / cos t) / 2).
  { replace (T / cos t * (T / cos t) / 2) with (T * T / 2 * / (cos t * cos t)) by (field; lra). assert (I : 0 < / (cos t * cos t)) by (apply Rinv_0_lt_compat, Rmult_lt_0_compat; exact C). assert (F : 1 <= T * T / 2) by nra. pose proof (Rmult_le_compat_r _ _ _ (Rlt_le _ _ I) F). lra. }
  rewrite <- (Rinv_inv (cos t * cos t)). apply Rinv_le_contravar; [apply Rinv_0_lt_compat, Rmult_lt_0_compat; exact C|exact K].
Qed.
Lemma hq_cont T t : 3 <= T -> continuous (hq T) t.
Proof.
  intros H. destruct (Rtotal_order 0 (cos t)) as [C|[C|C]].
  - apply hq_cont_pos. exact C.
  - assert (Z : hq T t = 0) by (unfold hq; destruct (Rlt_dec 0 (cos t)); lra).
    apply filterlim_locally. intros eps. rewrite Z.
    assert (G : continuous (fun y => exp (9 / 2) * (cos y * cos y)) t) by (apply (ex_derive_continuous (V := R_NormedModule)); auto_derive; auto).
    pose proof (proj1 (filterlim_locally _ _) G eps) as L. eapply filter_imp; [|exact L]. cbv beta. intros y Hy. rewrite <- C in Hy.
    unfold ball in *. cbn in *. unfold AbsRing_ball, abs, minus, plus, opp in *. cbn in *. pose proof (hq_small T y H) as [S1 S2].
    rewrite Rmult_0_l, Rmult_0_r in Hy. rewrite Rabs_right in Hy by lra. rewrite Rabs_right by lra. lra.
  - apply (continuous_ext_loc _ (fun _ => 0)); [|apply continuous_const].
    pose proof (continuous_cos t _ (open_lt 0 (cos t) C)) as N. unfold filtermap in N. eapply filter_imp; [|exact N]. cbv beta. intros y Hy. unfold hq. destruct (Rlt_dec 0 (cos y)); [lra|reflexivity].
Qed.
Lemma ex_hqT T a b : 3 <= T -> ex_RInt (hq T) a b.
Proof. intros H. apply (ex_RInt_continuous (V := R_CompleteNormedModule)). intros. apply hq_cont. exact H. Qed.
Lemma atan_inf B : 1 <= B -> PI / 2 - atan B <= / B.
Proof.
  intros H. rewrite <- (Rinv_inv B) at 1. rewrite (atan_inv (/ B)) by (apply Rinv_0_lt_compat; lra).
  replace (PI / 2 - (PI / 2 - atan (/ B))) with (atan (/ B)) by ring. assert (P : 0 < / B) by (apply Rinv_0_lt_compat; lra).
  destruct (MVT_gen atan 0 (/ B) (fun s => / (1 + s²))) as (c & Hc & E).
  - intros x _. apply is_derive_atan.
  - intros x _. apply derivable_continuous_pt. exists (/ (1 + x ^ 2)). apply derivable_pt_lim_atan.
  - rewrite atan_0 in E. assert (/ (1 + c²) <= 1) by (rewrite <- Rinv_1; apply Rinv_le_contravar; unfold Rsqr; nra). nra.
Qed.
Lemma abs_int f a b M : a <= b -> ex_RInt f a b -> (forall x, a <= x <= b -> 0 <= f x <= M) -> 0 <= RInt f a b <= M * (b - a).
Proof.
  intros O E B. split; [apply RInt_ge_0; [exact O|exact E|intros; apply B; lra]|].
  replace (M * (b - a)) with (RInt (fun _ => M) a b) by (rewrite RInt_const; unfold scal; cbn; unfold mult; cbn; ring).
  apply RInt_le; [exact O|exact E|apply ex_RInt_const|]. intros; apply B; lra.
Qed.
Lemma hq_rest T B : 3 <= T -> 1 <= B -> 0 <= RInt (hq T) (- (PI / 2)) (PI / 2) - RInt (ker T) (- B) B <= 2 / B.
Proof.
  intros H HB. rewrite <- hq_atan_int. pose proof (atan_bound B) as AB. pose proof (atan_inf B HB) as AI. rewrite atan_opp.
  pose proof (RInt_Chasles (hq T) (- (PI / 2)) (- atan B) (PI / 2) (ex_hqT _ _ _ H) (ex_hqT _ _ _ H)) as C1.
  pose proof (RInt_Chasles (hq T) (- atan B) (atan B) (PI / 2) (ex_hqT _ _ _ H) (ex_hqT _ _ _ H)) as C2.
  change (RInt (hq T) (- (PI / 2)) (- atan B) + RInt (hq T) (- atan B) (PI / 2) = RInt (hq T) (- (PI / 2)) (PI / 2)) in C1.
  change (RInt (hq T) (- atan B) (atan B) + RInt (hq T) (atan B) (PI / 2) = RInt (hq T) (- atan B) (PI / 2)) in C2.
  pose proof (abs_int (hq T) (- (PI / 2)) (- atan B) 1 ltac:(lra) (ex_hqT _ _ _ H) (fun x _ => hq_range T x H)) as D1.
  pose proof (abs_int (hq T) (atan B) (PI / 2) 1 ltac:(lra) (ex_hqT _ _ _ H) (fun x _ => hq_range T x H)) as D2.
  unfold Rdiv. lra.
Qed.
Lemma Gi_odd y : RInt gau (- y) y = 2 * Gi y.
Proof.
  rewrite <- gau_diff. fold (Gi y).
  assert (E : RInt gau 0 (- y) = - Gi y).
  { pose proof (RInt_comp_lin gau (- 1) 0 0 y) as K. replace (- 1 * 0 + 0) with 0 in K by ring. replace (- 1 * y + 0) with (- y) in K by ring. rewrite <- K by apply gau_ex.
    transitivity (RInt (fun x => opp (gau x)) 0 y); [|exact (RInt_opp gau 0 y (gau_ex 0 y))].
    apply RInt_ext. intros x _. change (- 1 * gau (- 1 * x + 0) = - gau x). unfold gau. replace (- ((- 1 * x + 0) * (- 1 * x + 0)) / 2) with (- (x * x) / 2) by field. ring. }
  rewrite E. req. ring.
Qed.
Lemma half_plane_int q T : 3 <= q <= T -> RInt (hq q) (- (PI / 2)) (PI / 2) - RInt (hq T) (- (PI / 2)) (PI / 2) = exp (9 / 2) * rt2 * RInt gau q T.
Proof.
  intros H. set (X := RInt (hq q) (- (PI / 2)) (PI / 2) - RInt (hq T) (- (PI / 2)) (PI / 2)). set (M := exp (9 / 2) * RInt gau q T).
  assert (PM : 0 <= M). { apply Rmult_le_pos; [left; apply exp_pos|]. apply RInt_ge_0; [lra|apply gau_ex|]. intros. left. apply exp_pos. }
  assert (K : forall B, 1 <= B -> Rabs (X - rt2 * M) <= (4 + 4 * M) * / B).
  { intros B HB. pose proof (hq_rest q B ltac:(lra) HB) as R1. pose proof (hq_rest T B ltac:(lra) HB) as R2. pose proof (wedge_int (- B) B q T) as W.
    set (I := RInt (fun x => exp (9 / 2) * gau x * RInt gau (x * - B) (x * B)) q T) in *.
    assert (CI : ex_RInt (fun x => exp (9 / 2) * gau x * RInt gau (x * - B) (x * B)) q T) by (apply (ex_RInt_continuous (V := R_CompleteNormedModule)); intros; apply gauint_cont).
    assert (SC : forall c, RInt (fun x => c * (exp (9 / 2) * gau x)) q T = c * M).
    { intros c. pose proof (RInt_scal gau q T (c * exp (9 / 2)) (gau_ex _ _)) as S. change (RInt (fun x => c * exp (9 / 2) * gau x) q T = c * exp (9 / 2) * RInt gau q T) in S. unfold M. rewrite <- Rmult_assoc, <- S. apply RInt_ext. intros. req. ring. }
    assert (EC : forall c, ex_RInt (fun x => c * (exp (9 / 2) * gau x)) q T).
    { intros c. apply (ex_RInt_ext (fun x => scal (c * exp (9 / 2)) (gau x))). - intros x _. change (c * exp (9 / 2) * gau x = c * (exp (9 / 2) * gau x)). ring. - apply (ex_RInt_scal (V := R_NormedModule)). apply gau_ex. }
    assert (PB : 0 < / B) by (apply Rinv_0_lt_compat; lra).
    assert (PT : forall x, q < x < T -> (rt2 - 4 * / B) * (exp (9 / 2) * gau x) <= exp (9 / 2) * gau x * RInt gau (x * - B) (x * B) <= rt2 * (exp (9 / 2) * gau x)).
    { intros x Hx. replace (x * - B) with (- (x * B)) by ring. rewrite Gi_odd. pose proof (Gi_lim (x * B) ltac:(nra)) as [G1 G2].
      assert (P : 0 < exp (9 / 2) * gau x) by (apply Rmult_lt_0_compat; apply exp_pos).
      assert (4 / (x * B) <= 4 * / B). { unfold Rdiv. apply Rmult_le_compat_l; [lra|]. apply Rinv_le_contravar; nra. }
      rewrite (Rmult_comm (exp (9 / 2) * gau x)). split; apply Rmult_le_compat_r; lra. }
    assert (U : I <= rt2 * M) by (rewrite <- SC; apply RInt_le; [lra|exact CI|apply EC|intros x Hx; apply PT; exact Hx]).
    assert (L : (rt2 - 4 * / B) * M <= I) by (rewrite <- SC; apply RInt_le; [lra|apply EC|exact CI|intros x Hx; apply PT; exact Hx]).
    unfold Rdiv in R1, R2. apply Rabs_le. unfold X. nra. }
  enough (Z : X - rt2 * M = 0) by (unfold M in Z; unfold X in *; lra).
  destruct (Req_dec (X - rt2 * M) 0) as [|N]; [assumption|]. exfalso. pose proof (Rabs_pos_lt _ N) as P.
  set (d := Rabs (X - rt2 * M)) in *. set (B := 1 + 2 * (4 + 4 * M) / d).
  assert (HB : 1 <= B) by (unfold B; assert (0 <= 2 * (4 + 4 * M) / d) by (apply Rmult_le_pos; [lra|left; apply Rinv_0_lt_compat; exact P]); lra).
  specialize (K B HB). assert (K2 : d * B <= 4 + 4 * M) by (apply (Rmult_le_compat_r B) in K; [|lra]; rewrite Rmult_assoc, Rinv_l in K by lra; lra).
  unfold B in K2. replace (d * (1 + 2 * (4 + 4 * M) / d)) with (d + 2 * (4 + 4 * M)) in K2 by (field; lra). lra.
Qed.
(** the first coordinate *)
Lemma first_share q T : 3 <= q <= T -> share (fun r t => q < tail_radius r * cos t < T) (- (PI / 2)) (PI / 2) (exp (9 / 2) * RInt phi q T).
Proof.
  intros H. pose proof PI_RGT_0. pose proof (share_of_int q T (- (PI / 2)) (PI / 2) H ltac:(lra) (ex_hqT q _ _ ltac:(lra)) (ex_hqT T _ _ ltac:(lra))) as K.
  rewrite (half_plane_int q T H), gau_phi_int in K. replace (exp (9 / 2) * RInt phi q T) with (exp (9 / 2) * rt2 * (rt2 * RInt phi q T) / 2 / PI); [exact K|].
  replace (exp (9 / 2) * rt2 * (rt2 * RInt phi q T)) with (exp (9 / 2) * (rt2 * rt2) * RInt phi q T) by ring. rewrite rt2_sq. field. lra.
Qed.
