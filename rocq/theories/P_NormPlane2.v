(** C13: the points beyond 3, areas. *)
From Coq Require Import ZArith Bool Lia Reals Lra Psatz List.
From Coquelicot Require Import Coquelicot.
From Verif Require Import Base Arith RealArith M_Random S_Normal S_NormTail S_NormPlane P_Norm P_NormMix P_NormTail P_NormPlane.
Import ListNotations.
Open Scope R_scope.

Ltac req := match goal with |- ?x = ?y => change (@eq R x y) end.
(** ** areas *)
Lemma share_ext E E' t1 t2 a : (forall r t, t1 <= t <= t2 -> 0 < r < 1 -> (E r t <-> E' r t)) -> share E t1 t2 a -> share E' t1 t2 a.
Proof.
  intros H (lo & hi & A & B). exists lo, hi. split; [|exact B]. intros t Ht. destruct (A t Ht) as (A1 & A2 & A3). split; [exact A1|]. split; [exact A2|].
  intros r Hr. destruct (A3 r Hr) as [X Y]. destruct (H r t Ht Hr). tauto.
Qed.
Lemma share_empty E t1 t2 : (forall r t, t1 <= t <= t2 -> 0 < r < 1 -> ~ E r t) -> share E t1 t2 0.
Proof.
  intros H. exists (fun _ => 0), (fun _ => 0). split.
  - intros t Ht. split; [lra|]. split; [lra|]. intros r Hr. split; [lra|]. intros X. destruct (H r t Ht Hr X).
  - apply (is_RInt_ext (fun _ => 0)). { intros. req. unfold Rdiv. ring. } pose proof (is_RInt_const (V := R_NormedModule) t1 t2 0) as K. change (is_RInt (fun _ : R => 0) t1 t2 ((t2 - t1) * 0)) in K. rewrite Rmult_0_r in K. exact K.
Qed.
Lemma share_app E t1 t2 t3 a b : t1 <= t2 <= t3 -> share E t1 t2 a -> share E t2 t3 b -> share E t1 t3 (a + b).
Proof.
  intros O (lo & hi & A & B) (lo' & hi' & A' & B'). exists (fun t => if Rle_dec t t2 then lo t else lo' t), (fun t => if Rle_dec t t2 then hi t else hi' t). split.
  - intros t Ht. destruct (Rle_dec t t2); [apply A|apply A']; lra.
  - apply (is_RInt_Chasles (V := R_NormedModule) _ t1 t2 t3 a b).
    + eapply is_RInt_ext; [|exact B]. intros t Ht. rewrite Rmin_left, Rmax_right in Ht by lra. cbv beta. destruct (Rle_dec t t2); [reflexivity|lra].
    + eapply is_RInt_ext; [|exact B']. intros t Ht. rewrite Rmin_left, Rmax_right in Ht by lra. cbv beta. destruct (Rle_dec t t2); [lra|reflexivity].
Qed.
(** directions mirrored: t -> c - t *)
Lemma share_mirror E c t1 t2 a : share E t1 t2 a -> share (fun r t => E r (c - t)) (c - t2) (c - t1) a.
Proof.
  intros (lo & hi & A & B). exists (fun t => lo (c - t)), (fun t => hi (c - t)). split.
  - intros t Ht. apply A. lra.
  - pose proof (is_RInt_comp_lin (V := R_NormedModule) (fun t => (hi t ^ 2 - lo t ^ 2) / 2 / PI) (- 1) c (c - t2) (c - t1) (- a)) as K.
    replace (- 1 * (c - t2) + c) with t2 in K by ring. replace (- 1 * (c - t1) + c) with t1 in K by ring.
    specialize (K (is_RInt_swap _ _ _ _ B)). pose proof (is_RInt_opp _ _ _ _ K) as K2. 
    change (is_RInt (fun y : R => - (-1 * ((hi (-1 * y + c) ^ 2 - lo (-1 * y + c) ^ 2) / 2 / PI))) (c - t2) (c - t1) (- - a)) in K2. rewrite Ropp_involutive in K2.
    eapply is_RInt_ext; [|exact K2]. intros t _. cbv beta. replace (-1 * t + c) with (c - t) by ring. req. unfold Rdiv. ring.
Qed.

(** ** the radii in a direction *)
Definition hq (T t : R) : R := if Rlt_dec 0 (cos t) then exp ((9 - (T / cos t) * (T / cos t)) / 2) else 0.
Lemma cos_le1 t : cos t <= 1. Proof. pose proof (COS_bound t). lra. Qed.
Lemma div_ge T c : 3 <= T -> 0 < c <= 1 -> 3 <= T / c /\ T <= T / c.
Proof. intros H C. assert (1 <= / c) by (rewrite <- Rinv_1; apply Rinv_le_contravar; lra). unfold Rdiv. split; nra. Qed.
Lemma hq_range T t : 3 <= T -> 0 <= hq T t <= 1.
Proof.
  intros H. unfold hq. destruct (Rlt_dec 0 (cos t)) as [C|]; [|lra]. split; [left; apply exp_pos|]. rewrite <- exp_0. apply Raux.exp_le.
  pose proof (div_ge T (cos t) H (Logic.conj C (cos_le1 t))). nra.
Qed.
(** beyond T in the direction of x *)
Lemma in_x T r t : 3 <= T -> 0 < r < 1 -> (T < tail_radius r * cos t <-> r * r < hq T t).
Proof.
  intros H Hr. unfold hq. assert (P : 0 <= tail_radius r) by apply sqrt_pos. destruct (Rlt_dec 0 (cos t)) as [C|C].
  - rewrite <- (radius_gt r (T / cos t) Hr) by (apply div_ge; [exact H|split; [exact C|apply cos_le1]]). split; intros X.
    + apply (Rmult_lt_reg_r (cos t)); [exact C|]. unfold Rdiv. rewrite Rmult_assoc, Rinv_l by lra. lra.
    + apply (Rmult_lt_compat_r (cos t)) in X; [|exact C]. unfold Rdiv in X. rewrite Rmult_assoc, Rinv_l in X by lra. lra.
  - split; intros X; [exfalso; assert (tail_radius r * cos t <= 0) by (assert (cos t <= 0) by lra; nra); lra|nra].
Qed.
Lemma sqrt_lt_iff r z : 0 < r -> 0 <= z -> (r < sqrt z <-> r * r < z).
Proof.
  intros Hr Hz. split; intros X.
  - rewrite <- (sqrt_sqrt z Hz). pose proof (sqrt_pos z). nra.
  - rewrite <- (sqrt_square r) by lra. apply sqrt_lt_1_alt. nra.
Qed.
Lemma sqrt_sq z : 0 <= z -> sqrt z ^ 2 = z.
Proof. intros H. cbn. rewrite Rmult_1_r. apply sqrt_sqrt. exact H. Qed.
(** a set that fills the radii between two square roots *)
Lemma share_between (E : R -> R -> Prop) (f g : R -> R) t1 t2 a :
  (forall t, t1 <= t <= t2 -> 0 <= f t <= g t /\ g t <= 1) ->
  (forall t r, t1 <= t <= t2 -> 0 < r < 1 -> (f t < r * r < g t -> E r t) /\ (E r t -> f t <= r * r < g t)) ->
  is_RInt (fun t => (g t - f t) / 2 / PI) t1 t2 a -> t1 <= t2 -> share E t1 t2 a.
Proof.
  intros R D I O. exists (fun t => sqrt (f t)), (fun t => sqrt (g t)). split.
  - intros t Ht. destruct (R t Ht) as [R1 R2]. split; [split; [apply sqrt_pos|apply sqrt_le_1_alt; lra]|]. split; [rewrite <- sqrt_1; apply sqrt_le_1_alt; lra|].
    intros r Hr. destruct (D t r Ht Hr) as [D1 D2]. split.
    + intros [X Y]. apply D1. split; [|apply sqrt_lt_iff; lra]. apply Rnot_le_lt. intros Z. assert (r <= sqrt (f t)) by (rewrite <- (sqrt_square r) by lra; apply sqrt_le_1_alt; exact Z). lra.
    + intros X. destruct (D2 X) as [Y Z]. split; [|left; apply sqrt_lt_iff; lra]. rewrite <- (sqrt_square r) by lra. apply sqrt_le_1_alt. exact Y.
  - eapply is_RInt_ext; [|exact I]. intros t Ht. rewrite Rmin_left, Rmax_right in Ht by lra. destruct (R t ltac:(lra)) as [R1 R2]. cbv beta. rewrite !sqrt_sq by lra. reflexivity.
Qed.
Lemma hq_anti T q t : 3 <= q <= T -> hq T t <= hq q t.
Proof.
  intros H. unfold hq. destruct (Rlt_dec 0 (cos t)) as [C|]; [|lra]. apply Raux.exp_le. pose proof (div_ge q (cos t) ltac:(lra) (Logic.conj C (cos_le1 t))).
  assert (q / cos t <= T / cos t) by (unfold Rdiv; apply Rmult_le_compat_r; [left; apply Rinv_0_lt_compat; exact C|lra]). nra.
Qed.
Lemma between_x q T r t : 3 <= q <= T -> 0 < r < 1 ->
  (hq T t < r * r < hq q t -> q < tail_radius r * cos t < T) /\ (q < tail_radius r * cos t < T -> hq T t <= r * r < hq q t).
Proof.
  intros H Hr. pose proof (in_x q r t ltac:(lra) Hr) as [A1 A2]. pose proof (in_x T r t ltac:(lra) Hr) as [B1 B2]. split.
  - intros [X Y]. split; [apply A2; exact Y|]. destruct (Rlt_dec (tail_radius r * cos t) T) as [|N]; [assumption|]. exfalso.
    assert (Z : r * r <= hq T t); [|lra]. unfold hq. destruct (Rlt_dec 0 (cos t)) as [C|C].
    2:{ unfold hq in Y. destruct (Rlt_dec 0 (cos t)); [lra|nra]. }
    (* r*r <= exp iff T / cos <= radius *)
    apply Rnot_lt_le in N. apply Rnot_lt_le. intros Z.
    assert (K : tail_radius r < T / cos t).
    { unfold tail_radius. pose proof (div_ge T (cos t) ltac:(lra) (Logic.conj C (cos_le1 t))) as [D1 D2]. rewrite <- (sqrt_square (T / cos t)) by lra. apply sqrt_lt_1_alt.
      pose proof (ln_neg r Hr). split; [lra|]. assert (RR : r * r = exp (2 * ln r)) by (replace (2 * ln r) with (ln r + ln r) by ring; rewrite exp_plus, exp_ln; lra).
      rewrite RR in Z. apply exp_lt_inv in Z. lra. }
    apply (Rmult_lt_compat_r (cos t)) in K; [|exact C]. unfold Rdiv in K. rewrite Rmult_assoc, Rinv_l in K by lra. lra.
  - intros [X Y]. split; [|apply A1; exact X]. apply Rnot_lt_le. intros Z. apply B2 in Z. lra.
Qed.
Lemma cos_at s : cos (atan s) * cos (atan s) = / (1 + s * s).
Proof.
  assert (C : 0 < cos (atan s)) by (apply cos_gt_0; pose proof (atan_bound s); lra).
  assert (Tn : tan (atan s) = s) by apply tan_atan. unfold tan in Tn. pose proof (sc1 (atan s)) as P.
  assert (S1 : sin (atan s) = s * cos (atan s)) by (rewrite <- Tn at 2; field; lra). rewrite S1 in P.
  pose proof (one_s s). apply (Rmult_eq_reg_r (1 + s * s)); [|lra]. rewrite Rinv_l by lra. lra.
Qed.
Lemma cos_at_pos s : 0 < cos (atan s).
Proof. apply cos_gt_0; pose proof (atan_bound s); lra. Qed.
Lemma hq_atan T s : / (1 + s * s) * hq T (atan s) = ker T s.
Proof.
  unfold hq, ker. destruct (Rlt_dec 0 (cos (atan s))) as [C|C]; [|pose proof (cos_at_pos s); lra].
  replace (T / cos (atan s) * (T / cos (atan s))) with (T * T * (1 + s * s)); [unfold Rdiv; ring|].
  pose proof (cos_at s) as K. pose proof (one_s s). replace (T / cos (atan s) * (T / cos (atan s))) with (T * T * / (cos (atan s) * cos (atan s))) by (field; lra). rewrite K, Rinv_inv. reflexivity.
Qed.
Lemma hq_cont_pos T t : 0 < cos t -> continuous (hq T) t.
Proof.
  intros C. assert (K : continuous cos t) by apply continuous_cos.
  apply (continuous_ext_loc _ (fun t => exp ((9 - (T / cos t) * (T / cos t)) / 2))).
  - pose proof (K _ (open_gt 0 (cos t) C)) as N. unfold filtermap in N. eapply filter_imp; [|exact N]. cbv beta. intros y Hy. unfold hq. destruct (Rlt_dec 0 (cos y)); [reflexivity|lra].
  - apply (ex_derive_continuous (V := R_NormedModule)). auto_derive. lra.
Qed.
Lemma hq_atan_int T a b : RInt (hq T) (atan a) (atan b) = RInt (ker T) a b.
Proof.
  rewrite <- (RInt_comp (V := R_CompleteNormedModule) (hq T) atan (fun s => / (1 + s * s))).
  - apply RInt_ext. intros s _. apply hq_atan.
  - intros s _. apply hq_cont_pos, cos_at_pos.
  - intros s _. pose proof (one_s s). split; [apply is_derive_atan|]. apply (ex_derive_continuous (V := R_NormedModule)). auto_derive. lra.
Qed.
Lemma ex_hq T a b : - PI / 2 < a < PI / 2 -> - PI / 2 < b < PI / 2 -> ex_RInt (hq T) a b.
Proof.
  intros A B. apply (ex_RInt_continuous (V := R_CompleteNormedModule)). intros z Hz. apply hq_cont_pos.
  assert (- PI / 2 < z < PI / 2) by (split; [apply Rlt_le_trans with (Rmin a b); [apply Rmin_glb_lt; lra|lra]|apply Rle_lt_trans with (Rmax a b); [lra|apply Rmax_lub_lt; lra]]).
  apply cos_gt_0; lra.
Qed.
