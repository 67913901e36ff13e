(** C13: the second coordinate, when the first is not beyond 3. *)
From Coq Require Import ZArith Bool Lia Reals Lra Psatz List.
From Coquelicot Require Import Coquelicot.
From Verif Require Import Base Arith RealArith M_Random S_Normal S_NormTail S_NormPlane P_Norm P_NormMix P_NormTail P_NormPlane P_NormPlane2 P_NormPlane3.
Import ListNotations.
Open Scope R_scope.

Definition side (t : R) : R := hq 3 (PI / 2 - t).
Lemma side_cont t : continuous side t.
Proof.
  unfold side. apply (continuous_comp (fun t => PI / 2 - t) (hq 3)).
  - apply (ex_derive_continuous (V := R_NormedModule)). auto_derive. auto.
  - apply hq_cont. lra.
Qed.
Lemma ex_side a b : ex_RInt side a b.
Proof. apply (ex_RInt_continuous (V := R_CompleteNormedModule)). intros. apply side_cont. Qed.
Lemma sin_side t : cos (PI / 2 - t) = sin t.
Proof. apply cos_shift. Qed.
Lemma tan_le t s : - (PI / 2) < t < PI / 2 -> t <= atan s -> tan t <= s.
Proof.
  intros H O. rewrite <- (tan_atan s). destruct O as [O|O]; [|rewrite O; right; reflexivity]. left. pose proof (atan_bound s). apply tan_increasing; lra.
Qed.
Lemma tan_ge t s : - (PI / 2) < t < PI / 2 -> atan s <= t -> s <= tan t.
Proof.
  intros H O. rewrite <- (tan_atan s). destruct O as [O|O]; [|rewrite O; right; reflexivity]. left. pose proof (atan_bound s). apply tan_increasing; lra.
Qed.
Lemma slope_pos T : 3 <= T -> 0 < atan (3 / T) < PI / 2.
Proof. intros H. split; [rewrite <- atan_0; apply atan_increasing; apply Rdiv_lt_0_compat; lra|pose proof (atan_bound (3 / T)); lra]. Qed.
Lemma sq_mono a b : 0 <= a <= b -> a * a <= b * b.
Proof. nra. Qed.
Lemma side_le T t : 3 <= T -> 0 <= t <= atan (3 / T) -> side t <= hq T t.
Proof.
  intros H Ht. pose proof (slope_pos T H). unfold side, hq. rewrite sin_side. assert (C : 0 < cos t) by (apply cos_gt_0; lra).
  destruct (Rlt_dec 0 (cos t)); [|lra]. destruct (Rlt_dec 0 (sin t)) as [S|S]; [|left; apply exp_pos].
  apply Raux.exp_le. assert (K : T / cos t <= 3 / sin t).
  { pose proof (tan_le t (3 / T) ltac:(lra) ltac:(lra)) as Q. unfold tan in Q. assert (Q2 : sin t * T <= 3 * cos t).
    { apply (Rmult_le_compat_r (cos t * T)) in Q; [|nra]. replace (sin t / cos t * (cos t * T)) with (sin t * T) in Q by (field; lra). replace (3 / T * (cos t * T)) with (3 * cos t) in Q by (field; lra). exact Q. }
    apply (Rmult_le_reg_r (cos t * sin t)); [nra|]. replace (T / cos t * (cos t * sin t)) with (sin t * T) by (field; lra). replace (3 / sin t * (cos t * sin t)) with (3 * cos t) by (field; lra). exact Q2. }
  assert (0 <= T / cos t) by (apply Rmult_le_pos; [lra|left; apply Rinv_0_lt_compat; lra]). pose proof (sq_mono _ _ (Logic.conj H1 K)). lra.
Qed.
Lemma side_ge T t : 3 <= T -> atan (3 / T) <= t <= PI / 2 -> hq T t <= side t.
Proof.
  intros H Ht. pose proof (slope_pos T H). unfold side, hq. rewrite sin_side. assert (S : 0 < sin t) by (apply sin_gt_0; lra).
  destruct (Rlt_dec 0 (sin t)); [|lra]. destruct (Rlt_dec 0 (cos t)) as [C|C]; [|left; apply exp_pos].
  assert (Hlt : t < PI / 2) by (destruct (Rle_lt_or_eq_dec t (PI / 2) ltac:(lra)) as [|Z]; [assumption|rewrite Z, cos_PI2 in C; lra]).
  apply Raux.exp_le. assert (K : 3 / sin t <= T / cos t).
  { pose proof (tan_ge t (3 / T) ltac:(lra) ltac:(lra)) as Q. unfold tan in Q. assert (Q2 : 3 * cos t <= sin t * T).
    { apply (Rmult_le_compat_r (cos t * T)) in Q; [|nra]. replace (sin t / cos t * (cos t * T)) with (sin t * T) in Q by (field; lra). replace (3 / T * (cos t * T)) with (3 * cos t) in Q by (field; lra). exact Q. }
    apply (Rmult_le_reg_r (cos t * sin t)); [nra|]. replace (T / cos t * (cos t * sin t)) with (sin t * T) by (field; lra). replace (3 / sin t * (cos t * sin t)) with (3 * cos t) by (field; lra). exact Q2. }
  assert (0 <= 3 / sin t) by (apply Rmult_le_pos; [lra|left; apply Rinv_0_lt_compat; lra]). pose proof (sq_mono _ _ (Logic.conj H1 K)). lra.
Qed.
Definition box (q T r t : R) : Prop := Rabs (tail_radius r * sin t) <= 3 /\ q < tail_radius r * cos t < T.
Lemma in_side r t : 0 < r < 1 -> 0 <= t <= PI / 2 -> (Rabs (tail_radius r * sin t) <= 3 <-> side t <= r * r).
Proof.
  intros Hr Ht. pose proof (in_x 3 r (PI / 2 - t) ltac:(lra) Hr) as [A B]. rewrite sin_side in A, B. fold (side t) in A, B.
  assert (P : 0 <= tail_radius r * sin t) by (apply Rmult_le_pos; [apply sqrt_pos|apply sin_ge_0; pose proof PI_RGT_0; lra]). rewrite Rabs_right by lra.
  split; intros X; apply Rnot_lt_le; intros Y; [apply B in Y|apply A in Y]; lra.
Qed.
Lemma is_half f g t1 t2 : ex_RInt f t1 t2 -> ex_RInt g t1 t2 -> is_RInt (fun t => (f t - g t) / 2 / PI) t1 t2 ((RInt f t1 t2 - RInt g t1 t2) / 2 / PI).
Proof.
  intros A B. pose proof (is_RInt_minus (V := R_NormedModule) _ _ _ _ _ _ (RInt_correct _ _ _ A) (RInt_correct _ _ _ B)) as K.
  pose proof (is_RInt_scal (V := R_NormedModule) _ _ _ (/ 2 * / PI) _ K) as K2.
  change (is_RInt (fun y : R => / 2 * / PI * (f y - g y)) t1 t2 (/ 2 * / PI * (RInt f t1 t2 - RInt g t1 t2))) in K2.
  replace ((RInt f t1 t2 - RInt g t1 t2) / 2 / PI) with (/ 2 * / PI * (RInt f t1 t2 - RInt g t1 t2)) by (unfold Rdiv; ring).
  eapply is_RInt_ext; [|exact K2]. intros t _. req. unfold Rdiv. ring.
Qed.
Lemma slope_anti q T : 3 <= q <= T -> atan (3 / T) <= atan (3 / q).
Proof.
  intros H. assert (K : 3 / T <= 3 / q) by (unfold Rdiv; apply Rmult_le_compat_l; [lra|]; apply Rinv_le_contravar; lra).
  destruct K as [K| ->]; [left; apply atan_increasing; exact K|right; reflexivity].
Qed.
Lemma box_half q T : 3 <= q <= T ->
  share (box q T) 0 (PI / 2) ((RInt (hq q) 0 (atan (3 / q)) - RInt (hq T) 0 (atan (3 / T)) - RInt side (atan (3 / T)) (atan (3 / q))) / 2 / PI).
Proof.
  intros H. pose proof (slope_pos q ltac:(lra)). pose proof (slope_pos T ltac:(lra)). pose proof (slope_anti q T H). pose proof PI_RGT_0.
  assert (S1 : share (box q T) 0 (atan (3 / T)) ((RInt (hq q) 0 (atan (3 / T)) - RInt (hq T) 0 (atan (3 / T))) / 2 / PI)).
  { apply (share_between _ (hq T) (hq q)); [| |apply is_half; apply ex_hqT; lra|lra].
    - intros t _. split; [split; [apply hq_range; lra|apply hq_anti; exact H]|apply hq_range; lra].
    - intros t r Ht Hr. destruct (between_x q T r t H Hr) as [A B]. pose proof (side_le T t ltac:(lra) Ht) as L. destruct (in_side r t Hr ltac:(lra)) as [C D]. split.
      + intros X. split; [apply D; lra|apply A; exact X].
      + intros [_ X]. apply B. exact X. }
  assert (S2 : share (box q T) (atan (3 / T)) (atan (3 / q)) ((RInt (hq q) (atan (3 / T)) (atan (3 / q)) - RInt side (atan (3 / T)) (atan (3 / q))) / 2 / PI)).
  { apply (share_between _ side (hq q)); [| |apply is_half; [apply ex_hqT; lra|apply ex_side]|lra].
    - intros t Ht. split; [split; [apply hq_range; lra|apply side_le; lra]|apply hq_range; lra].
    - intros t r Ht Hr. destruct (between_x q T r t H Hr) as [A B]. pose proof (side_ge T t ltac:(lra) ltac:(lra)) as L. destruct (in_side r t Hr ltac:(lra)) as [C D]. split.
      + intros X. split; [apply D; lra|apply A; lra].
      + intros [Y X]. apply B in X. apply C in Y. lra. }
  assert (S3 : share (box q T) (atan (3 / q)) (PI / 2) 0).
  { apply share_empty. intros r t Ht Hr [Y X]. destruct (between_x q T r t H Hr) as [A B]. apply B in X. apply (in_side r t Hr ltac:(lra)) in Y. pose proof (side_ge q t ltac:(lra) ltac:(lra)). lra. }
  pose proof (share_app _ 0 (atan (3 / q)) (PI / 2) _ _ ltac:(lra) (share_app _ 0 (atan (3 / T)) (atan (3 / q)) _ _ ltac:(lra) S1 S2) S3) as S.
  pose proof (RInt_Chasles (hq q) 0 (atan (3 / T)) (atan (3 / q)) (ex_hqT q _ _ ltac:(lra)) (ex_hqT q _ _ ltac:(lra))) as C.
  change (RInt (hq q) 0 (atan (3 / T)) + RInt (hq q) (atan (3 / T)) (atan (3 / q)) = RInt (hq q) 0 (atan (3 / q))) in C. rewrite <- C.
  match type of S with share _ _ _ ?v => match goal with |- share _ _ _ ?w => replace w with v; [exact S|] end end. field. lra.
Qed.
(** ** the value *)
Definition mk (s : R) : R := / (1 + s * s) * side (atan s).
Lemma mk_cont s : continuous mk s.
Proof.
  unfold mk. pose proof (one_s s). apply (continuous_mult (K := R_AbsRing)).
  - apply (ex_derive_continuous (V := R_NormedModule)). auto_derive. lra.
  - apply (continuous_comp atan side); [|apply side_cont]. apply (ex_derive_continuous (V := R_NormedModule)). eexists. apply is_derive_atan.
Qed.
Lemma ex_mk a b : ex_RInt mk a b.
Proof. apply (ex_RInt_continuous (V := R_CompleteNormedModule)). intros. apply mk_cont. Qed.
Lemma side_atan_int a b : RInt side (atan a) (atan b) = RInt mk a b.
Proof.
  rewrite <- (RInt_comp (V := R_CompleteNormedModule) side atan (fun s => / (1 + s * s))).
  - apply RInt_ext. intros s _. reflexivity.
  - intros s _. apply side_cont.
  - intros s _. pose proof (one_s s). split; [apply is_derive_atan|]. apply (ex_derive_continuous (V := R_NormedModule)). auto_derive. lra.
Qed.
Lemma mk_ker T : 3 <= T -> mk (3 / T) = ker T (3 / T).
Proof.
  intros H. rewrite <- hq_atan. unfold mk. f_equal. pose proof (slope_pos T H). apply Rle_antisym; [apply side_le|apply side_ge]; lra.
Qed.
Lemma mk_int_derive y : is_derive (fun y => RInt mk 0 y) y (mk y).
Proof. apply (is_derive_RInt (V := R_NormedModule) mk (fun y => RInt mk 0 y) 0 y); [apply filter_forall; intros z; exact (RInt_correct mk 0 z (ex_mk 0 z))|apply mk_cont]. Qed.
Lemma box_derive T : 3 <= T -> is_derive (fun z => RInt (ker z) 0 (3 / z) - RInt mk 0 (3 / z)) T (- (exp (9 / 2) * gau T * Gi 3)).
Proof.
  intros H. assert (D : is_derive (fun z => 3 / z) T (- (3 / (T * T)))) by (auto_derive; [lra|field; lra]).
  assert (A : is_derive (fun z => RInt (fun s => ker z s) 0 (3 / z)) T (RInt (fun s => Derive (fun z => ker z s) T) 0 (3 / T) + ker T (3 / T) * (- (3 / (T * T))))).
  { apply (is_derive_RInt_param_bound_comp_aux3 ker 0 (fun z => 3 / z) T).
    - apply filter_forall. intros y. apply ker_ex.
    - exists (mkposreal 1 Rlt_0_1). apply filter_forall. intros y. apply ker_ex.
    - exact D.
    - exists (mkposreal 1 Rlt_0_1). apply filter_forall. intros y t _. eexists. apply ker_derive.
    - intros t _. apply kerD_cont.
    - exists (mkposreal 1 Rlt_0_1). intros u v _ _. apply kerD_cont.
    - apply continuity_pt_filterlim. apply ker_cont. }
  pose proof (is_derive_comp (fun y => RInt mk 0 y) (fun z => 3 / z) T _ _ (mk_int_derive (3 / T)) D) as B.
  pose proof (is_derive_minus (V := R_NormedModule) _ _ _ _ _ A B) as K. rewrite ker_int in K.
  replace (- (exp (9 / 2) * gau T * Gi 3)) with (minus (- (exp (9 / 2) * gau T * RInt gau (T * 0) (T * (3 / T))) + ker T (3 / T) * - (3 / (T * T))) (scal (- (3 / (T * T))) (mk (3 / T)))); [exact K|].
  rewrite (mk_ker T H). replace (T * 0) with 0 by ring. replace (T * (3 / T)) with 3 by (field; lra). fold (Gi 3). unfold minus, plus, opp, scal. cbn. unfold mult. cbn. ring.
Qed.
Lemma box_int q T : 3 <= q <= T ->
  RInt (ker q) 0 (3 / q) - RInt (ker T) 0 (3 / T) - RInt mk (3 / T) (3 / q) = exp (9 / 2) * Gi 3 * RInt gau q T.
Proof.
  intros H. pose proof (RInt_Chasles mk 0 (3 / T) (3 / q) (ex_mk _ _) (ex_mk _ _)) as C.
  change (RInt mk 0 (3 / T) + RInt mk (3 / T) (3 / q) = RInt mk 0 (3 / q)) in C.
  pose proof (is_RInt_derive (V := R_CompleteNormedModule) (fun z => - (RInt (ker z) 0 (3 / z) - RInt mk 0 (3 / z))) (fun x => exp (9 / 2) * gau x * Gi 3) q T) as K.
  assert (K1 : is_RInt (fun x => exp (9 / 2) * gau x * Gi 3) q T (minus (- (RInt (ker T) 0 (3 / T) - RInt mk 0 (3 / T))) (- (RInt (ker q) 0 (3 / q) - RInt mk 0 (3 / q))))).
  { apply K.
    - intros x Hx. rewrite Rmin_left, Rmax_right in Hx by lra. pose proof (is_derive_opp (V := R_NormedModule) _ _ _ (box_derive x ltac:(lra))) as D.
      change (is_derive (fun z => - (RInt (ker z) 0 (3 / z) - RInt mk 0 (3 / z))) x (- - (exp (9 / 2) * gau x * Gi 3))) in D. rewrite Ropp_involutive in D. exact D.
    - intros x _. apply (continuous_mult (K := R_AbsRing)); [|apply continuous_const]. apply (continuous_mult (K := R_AbsRing)); [apply continuous_const|apply gau_cont]. }
  apply (is_RInt_unique (V := R_CompleteNormedModule)) in K1. pose proof (RInt_scal gau q T (exp (9 / 2) * Gi 3) (gau_ex _ _)) as S. change (RInt (fun x => exp (9 / 2) * Gi 3 * gau x) q T = exp (9 / 2) * Gi 3 * RInt gau q T) in S.
  rewrite <- S. transitivity (RInt (fun x => exp (9 / 2) * gau x * Gi 3) q T); [|apply RInt_ext; intros; req; ring].
  rewrite K1. match goal with |- ?x = minus ?a ?b => change (@eq R x (a - b)) end. lra.
Qed.
Lemma box_share q T : 3 <= q <= T -> share (box q T) (- (PI / 2)) (PI / 2) (exp (9 / 2) * (RInt phi (-3) 3 * RInt phi q T)).
Proof.
  intros H. pose proof PI_RGT_0. pose proof (box_half q T H) as A.
  rewrite <- atan_0 in A at 2 3. rewrite !hq_atan_int, side_atan_int, (box_int q T H) in A.
  pose proof (share_mirror _ 0 _ _ _ A) as B. replace (0 - PI / 2) with (- (PI / 2)) in B by ring. replace (0 - 0) with 0 in B by ring.
  apply (share_ext _ (box q T)) in B.
  2:{ intros r t _ _. unfold box. rewrite Rminus_0_l, sin_neg, cos_neg. replace (tail_radius r * - sin t) with (- (tail_radius r * sin t)) by ring. rewrite Rabs_Ropp. tauto. }
  pose proof (share_app _ (- (PI / 2)) 0 (PI / 2) _ _ ltac:(lra) B A) as S. match type of S with share _ _ _ ?v => match goal with |- share _ _ _ ?w => replace w with v; [exact S|] end end.
  assert (G : Gi 3 = rt2 * RInt phi (-3) 3 / 2). { pose proof (Gi_odd 3) as O. rewrite gau_phi_int in O. change (- (3)) with (-3) in O. rewrite O. field. }
  rewrite G, gau_phi_int. replace (exp (9 / 2) * (rt2 * RInt phi (-3) 3 / 2) * (rt2 * RInt phi q T)) with (exp (9 / 2) * (rt2 * rt2) / 2 * (RInt phi (-3) 3 * RInt phi q T)) by field. rewrite rt2_sq. field. lra.
Qed.
Lemma second_share q T : 3 <= q <= T ->
  share (fun r t => Rabs (tail_radius r * cos t) <= 3 /\ q < tail_radius r * sin t < T) 0 PI (exp (9 / 2) * (RInt phi (-3) 3 * RInt phi q T)).
Proof.
  intros H. pose proof (share_mirror _ (PI / 2) _ _ _ (box_share q T H)) as B. replace (PI / 2 - PI / 2) with 0 in B by ring. replace (PI / 2 - - (PI / 2)) with PI in B by field.
  eapply share_ext; [|exact B]. intros r t _ _. cbv beta. unfold box. rewrite sin_shift, cos_shift. tauto.
Qed.
(** the other signs *)
Lemma first_share_neg q T : 3 <= q <= T -> share (fun r t => - T < tail_radius r * cos t < - q) (PI / 2) (3 * (PI / 2)) (exp (9 / 2) * RInt phi q T).
Proof.
  intros H. pose proof (share_mirror _ PI _ _ _ (first_share q T H)) as B. replace (PI - PI / 2) with (PI / 2) in B by field. replace (PI - - (PI / 2)) with (3 * (PI / 2)) in B by field.
  eapply share_ext; [|exact B]. intros r t _ _. cbv beta. rewrite Rtrigo_facts.cos_pi_minus. split; lra.
Qed.
Lemma second_share_neg q T : 3 <= q <= T ->
  share (fun r t => Rabs (tail_radius r * cos t) <= 3 /\ - T < tail_radius r * sin t < - q) (- PI) 0 (exp (9 / 2) * (RInt phi (-3) 3 * RInt phi q T)).
Proof.
  intros H. pose proof (share_mirror _ 0 _ _ _ (second_share q T H)) as B. replace (0 - PI) with (- PI) in B by ring. replace (0 - 0) with 0 in B by ring.
  eapply share_ext; [|exact B]. intros r t _ _. cbv beta. rewrite Rminus_0_l, cos_neg, sin_neg. split; intros [X Y]; (split; [exact X|lra]).
Qed.
Lemma phi_total B : 1 <= B -> 0 <= 1 - RInt phi (- B) B <= 2 / B.
Proof.
  intros H. pose proof (Gi_lim B H) as G. pose proof (Gi_odd B) as O. rewrite gau_phi_int in O. pose proof rt2_pos as P.
  assert (E : rt2 - 2 * Gi B = rt2 * (1 - RInt phi (- B) B)) by (rewrite <- O; ring). rewrite E in G. assert (0 < / B) by (apply Rinv_0_lt_compat; lra). unfold Rdiv in *. split; nra.
Qed.
(** the share is determined by the set *)
Lemma rays_unique (E : R -> Prop) lo hi lo' hi' : 0 <= lo <= hi -> hi <= 1 -> 0 <= lo' <= hi' -> hi' <= 1 ->
  (forall r, 0 < r < 1 -> (lo < r < hi -> E r) /\ (E r -> lo <= r <= hi)) -> (forall r, 0 < r < 1 -> (lo' < r < hi' -> E r) /\ (E r -> lo' <= r <= hi')) ->
  lo < hi -> lo' <= lo /\ hi <= hi'.
Proof.
  intros A B A' B' H H' O.
  assert (K : forall r, lo < r < hi -> lo' <= r <= hi') by (intros r Hr; apply H'; [lra|]; apply H; lra).
  split; apply Rnot_lt_le; intros N.
  - destruct (K ((lo + Rmin hi lo') / 2)) as [X _]; [|]; destruct (Rle_dec hi lo'); rewrite ?Rmin_left, ?Rmin_right in * by lra; lra.
  - destruct (K ((hi + Rmax lo hi') / 2)) as [_ X]; [|]; destruct (Rle_dec lo hi'); rewrite ?Rmax_left, ?Rmax_right in * by lra; lra.
Qed.
Lemma share_unique E t1 t2 a b : t1 <= t2 -> share E t1 t2 a -> share E t1 t2 b -> a = b.
Proof.
  intros O (lo & hi & A & B) (lo' & hi' & A' & B'). rewrite <- (is_RInt_unique (V := R_CompleteNormedModule) _ _ _ _ B). apply (is_RInt_unique (V := R_CompleteNormedModule)).
  eapply is_RInt_ext; [|exact B']. intros t Ht. rewrite Rmin_left, Rmax_right in Ht by lra. req.
  destruct (A t ltac:(lra)) as (A1 & A2 & A3). destruct (A' t ltac:(lra)) as (B1 & B2 & B3).
  destruct (Rle_lt_or_eq_dec (lo t) (hi t) ltac:(lra)) as [L|L]; destruct (Rle_lt_or_eq_dec (lo' t) (hi' t) ltac:(lra)) as [L'|L'].
  - pose proof (rays_unique (fun r => E r t) _ _ _ _ A1 A2 B1 B2 A3 B3 L). pose proof (rays_unique (fun r => E r t) _ _ _ _ B1 B2 A1 A2 B3 A3 L'). replace (lo' t) with (lo t) by lra. replace (hi' t) with (hi t) by lra. reflexivity.
  - pose proof (rays_unique (fun r => E r t) _ _ _ _ A1 A2 B1 B2 A3 B3 L). lra.
  - pose proof (rays_unique (fun r => E r t) _ _ _ _ B1 B2 A1 A2 B3 A3 L'). lra.
  - rewrite L, L'. unfold Rdiv. ring.
Qed.
