(** Accuracy of correlations in double precision: the theorem about the API. *)
From Coq Require Import ZArith Bool Lia Reals Lra String List.
From Flocq Require Import Core IEEE754.BinarySingleNaN.
From Verif Require Import Base Arith RealArith FloatArith M_Variogram S_Vario S_Random S_Normal P_RBounds P_Cov P_Vario P_VarioNames P_VarioMore P_Special2 P_Images P_VarioF P_NormF S_CorrF P_CorrF P_CorrF2 P_CorrF4 P_CorrF5 P_CorrF7 S_Accur P_Accur P_Accur2 P_Accur3 P_Accur4 P_Accur5 P_Accur6 P_Accur7 P_Accur8 P_Accur9 P_Accur10.
Import ListNotations.
Open Scope R_scope.

Section Api.
Variable m : libm.
Notation F := (Farith m).
Lemma created_F s (main perp depth azi dp power : b64) v : @CreateVariogram F s main perp depth azi dp power = Ok v ->
  exists pw : b64, v = @new_variogram F (vt v) pw main (if Bltb perp (Flit 0 0) then main else perp) (if Bltb depth (Flit 0 0) then main else depth) (Bm azi degF) (Bm dp degF) (Flit 1 0) /\
    vt v <> N_TYPES /\ lookup_type s = Some (vt v) /\ vpower v = pw /\ (vt v = GENERAL_EXPONENTIAL -> vpower v = power).
Proof.
  intros H. unfold CreateVariogram in H. unfold lookup_type. destruct (Uppercase s) as [u| | |]; cbn [bind] in H; try discriminate H.
  change (flt F) with (@Bltb 53 1024) in H. change (lit F 0 0) with (Flit 0 0) in H. change (lit F 1 0) with (Flit 1 0) in H. change (mul F azi Degree) with (Bm azi degF) in H. change (mul F dp Degree) with (Bm dp degF) in H.
  pose proof (type_of_name_real u) as T. unfold Create in H.
  destruct (type_of_name u); try congruence; apply (f_equal (fun o => match o with Ok w => w | _ => v end)) in H; cbn beta iota in H; subst v;
    eexists; (split; [reflexivity|split; [discriminate|split; [reflexivity|split; [reflexivity|intros; first [reflexivity|discriminate]]]]]).
Qed.
Lemma ord_arg main r : ordinary main -> ordinary_arg r ->
  ordinary (if Bltb r (Flit 0 0) then main else r) /\ B2R (if Bltb r (Flit 0 0) then main else r) = or_main (B2R main) (B2R r) /\ B2R r <> 0.
Proof.
  intros M H. assert (E : fin r = true) by (destruct H as [[A _]|[A _]]; exact A). destruct l0 as [F0 V0]. rewrite (Bltb_correct _ _ r (Flit 0 0) E F0), V0.
  unfold or_main. pose proof (bpow_gt_0 radix2 (-100)). destruct H as [H|[_ H]].
  - pose proof H as [_ [A _]]. rewrite Rlt_bool_false by lra. destruct (Rlt_dec (B2R r) 0); [lra|]. split; [exact H|split; [reflexivity|lra]].
  - rewrite Rlt_bool_true by exact H. destruct (Rlt_dec (B2R r) 0); [|lra]. split; [exact M|split; [reflexivity|lra]].
Qed.
Lemma c77_rotated : fair m -> trig_rounded m -> exp_rounded m -> pow_rounded m ->
  forall (s : string) (main perp depth azi dp power x y z : b64) (k : R) v w,
  @CreateVariogram F s main perp depth azi dp power = Ok v ->
  @CreateVariogram Rarith s (B2R main) (B2R perp) (B2R depth) (B2R azi) (B2R dp) (B2R power) = Ok w ->
  is_finite power = true -> 0 < B2R power <= 2 ->
  ordinary main -> ordinary_arg perp -> ordinary_arg depth -> angle azi -> angle dp -> ordinary_lag x -> ordinary_lag y -> ordinary_lag z ->
  1 <= k <= 262144 -> ratio_at_most k (B2R main) (or_main (B2R main) (B2R perp)) (or_main (B2R main) (B2R depth)) ->
  close_by (k ^ 2 * bpow radix2 (-40)) (@GetCorr1 F v x) (@GetCorr1 Rarith w (B2R x)) /\
  close_by (k ^ 2 * bpow radix2 (-40)) (@GetCorr2 F v x y) (@GetCorr2 Rarith w (B2R x) (B2R y)) /\
  close_by (k ^ 2 * bpow radix2 (-40)) (@GetCorr3 F v x y z) (@GetCorr3 Rarith w (B2R x) (B2R y) (B2R z)).
Proof.
  intros ok T ER PR s main perp depth azi dp power x y z k v w HF HR FP P M MP MD AA AD X Y Z K KR.
  destruct (created_F s main perp depth azi dp power v HF) as (pw & Ev & NT & LT & PW & PG).
  destruct (ord_arg main perp M MP) as (M2 & V2 & NZ2). destruct (ord_arg main depth M MD) as (M3 & V3 & NZ3).
  pose proof (mod_pos _ (ord_mod _ M)) as MP0.
  destruct (created_corr s _ _ _ _ _ _ w HR MP0 NZ2 NZ3 ltac:(lra)) as [_ C]. destruct (created_new _ _ _ _ _ _ _ _ HR) as (t & p' & _ & _ & _ & Tw & LT').
  assert (TT : vt w = vt v) by (rewrite LT in LT'; injection LT' as ->; exact Tw).
  rewrite <- V2, <- V3 in C, KR. rewrite TT in C.
  set (ry := if Bltb perp (Flit 0 0) then main else perp) in *. set (rz := if Bltb depth (Flit 0 0) then main else depth) in *.
  destruct (dists m T main ry rz azi dp M M2 M3 AA AD k K KR (vt v) pw 0 (Flit 1 0) 0 x y z X Y Z) as (G1 & G2 & G3).
  assert (Ev' : v = @new_variogram F (vt v) pw main ry rz (Bm azi degF) (Bm dp degF) (Flit 1 0)) by exact Ev. rewrite <- Ev' in G1, G2, G3. set (nd := ndist (B2R main) (B2R ry) (B2R rz) (radians (B2R azi)) (radians (B2R dp))) in *.
  assert (N0 : forall h, 0 <= nd h) by (intros h; apply ndist_nonneg).
  assert (UK : 0 <= 1571 * u53 * (k * k) <= 1 / 50) by (split; [pose proof u53_small; assert (0 <= k * k) by nra; nra|apply (uk k K)]).
  assert (B : 16 * u53 + 3 * (1571 * u53 * (k * k)) <= k ^ 2 * bpow radix2 (-40)).
  { assert (E : bpow radix2 (-40) = 8192 * u53) by (rewrite u53_val; unfold bpow, radix2, Zpower_pos; simpl; lra). rewrite E. pose proof u53_small. assert (1 <= k * k) by nra.
    assert (u53 <= u53 * (k * k)) by nra. replace (k ^ 2 * (8192 * u53)) with (8192 * (u53 * (k * k))) by ring. replace (3 * (1571 * u53 * (k * k))) with (4713 * (u53 * (k * k))) by ring. lra. }
  assert (CC : forall q D, good k q D -> 0 <= D -> close_by (k ^ 2 * bpow radix2 (-40)) (Corr1D v q) (corr_fun (vt v) (B2R power) D)).
  { intros q D (Fq & Sq & Eq) D0. destruct (corr_near m ok ER PR v q (B2R power) (1571 * u53 * (k * k)) D NT) as [A1 A2]; try assumption.
    - intros E. rewrite (PG E). split; [exact FP|split; [reflexivity|exact P]].
    - split; [exact A1|]. apply Rle_trans with (1 := A2). exact B. }
  unfold GetCorr1 at 1, GetCorr2 at 1, GetCorr3 at 1. rewrite corr1_2, !corr2_3, !C.
  split; [|split]; apply CC; auto.
Qed.
(** the range of the values *)
Lemma c74_rotated : fair m -> trig_rounded m ->
  forall (s : string) (main perp depth azi dp power x y z : b64) (k : R) v,
  @CreateVariogram F s main perp depth azi dp power = Ok v -> ~ In (lower s) ["matern32"; "matern52"; "matern72"]%string -> Bltb zero64 power = true ->
  ordinary main -> ordinary_arg perp -> ordinary_arg depth -> angle azi -> angle dp -> ordinary_lag x -> ordinary_lag y -> ordinary_lag z ->
  1 <= k <= 262144 -> ratio_at_most k (B2R main) (or_main (B2R main) (B2R perp)) (or_main (B2R main) (B2R depth)) ->
  in_unit (@GetCorr1 F v x) /\ in_unit (@GetCorr2 F v x y) /\ in_unit (@GetCorr3 F v x y z).
Proof.
  intros ok T s main perp depth azi dp power x y z k v HF N P M MP MD AA AD X Y Z K KR.
  destruct (created_F s main perp depth azi dp power v HF) as (pw & Ev & NT & LT & PW & PG).
  destruct (ord_arg main perp M MP) as (M2 & V2 & NZ2). destruct (ord_arg main depth M MD) as (M3 & V3 & NZ3). rewrite <- V2, <- V3 in KR.
  set (ry := if Bltb perp (Flit 0 0) then main else perp) in *. set (rz := if Bltb depth (Flit 0 0) then main else depth) in *.
  destruct (dists m T main ry rz azi dp M M2 M3 AA AD k K KR (vt v) pw 0 (Flit 1 0) 0 x y z X Y Z) as (G1 & G2 & G3).
  assert (Ev' : v = @new_variogram F (vt v) pw main ry rz (Bm azi degF) (Bm dp degF) (Flit 1 0)) by exact Ev. rewrite <- Ev' in G1, G2, G3.
  assert (PL : plain (vt v) = true).
  { assert (Ha : is_ascii s).
    { destruct (is_ascii_dec s) as [H|H]; [exact H|]. rewrite (names_bad s (main : num F) perp depth azi dp power H) in HF. discriminate HF. }
    destruct (name_type s Ha) as (t' & El & H). rewrite LT in El. injection El as <-.
    destruct H as [(n' & Hin & Hl)|[H _]]; [|rewrite H; reflexivity]. subst n'. cbn [documented In] in Hin. cbn [In] in N.
    destruct (vt v); try reflexivity; exfalso; apply N; repeat (destruct Hin as [Hin|Hin]; [try discriminate Hin; injection Hin as Hin; rewrite <- Hin; auto|]); destruct Hin. }
  assert (CC : forall q D, good k q D -> in_unit (Corr1D v q)).
  { intros q D (Fq & Sq & _). apply (corr_unit m ok v q PL); [intros E; rewrite (PG E); exact P|]. apply (le_fin zero64 q eq_refl Fq). exact (szd_nn _ _ _ Sq). }
  unfold GetCorr1, GetCorr2, GetCorr3. split; [|split]; eapply CC; eassumption.
Qed.
(** without rotation, for any ranges *)
Lemma ord_lag_mod x : ordinary_lag x -> moderate_lag x.
Proof. intros [A [B|[B C]]]; (split; [exact A|]); [left; exact B|right]. split; [apply Rle_trans with (2 := B)|apply Rle_trans with (1 := C)]; apply bpow_le; lia. Qed.
Lemma tm_ord r x : ordinary r -> ordinary_lag x -> szd (-400) 400 (tm r x).
Proof.
  intros [_ [A B]] [_ X]. pose proof (bpow_gt_0 radix2 (-100)). assert (R0 : 0 < B2R r) by lra.
  assert (S1 : szd (-200) 200 (fc r)).
  { right. unfold fc. assert (Q : bpow radix2 (-200) <= B2R r * B2R r <= bpow radix2 200).
    { change (-200)%Z with (-100 + -100)%Z. change 200%Z with (100 + 100)%Z. rewrite !bpow_plus. split; apply Rmult_le_compat; lra. }
    pose proof (bpow_gt_0 radix2 (-200)). change (-200)%Z with (- (200))%Z at 1. change 200%Z with (- -200)%Z at 2. rewrite !bpow_opp. split; apply Rinv_le_contravar; lra. }
  assert (S2 : szd (-100) 100 (Rabs (B2R x))) by (destruct X as [E|E]; [left; rewrite E; apply Rabs_R0|right; exact E]).
  unfold tm. change (-400)%Z with (-200 + -100 + -100)%Z. change 400%Z with (200 + 100 + 100)%Z. apply szd_mult; [apply szd_mult; assumption|exact S2].
Qed.
Lemma acc_good (q : b64) D : acc 5 q D -> szd (-201) 201 D -> fin q = true /\ szd (-202) 202 (B2R q) /\ Rabs (B2R q - D) <= 6 * u53 * D.
Proof.
  intros [Fq (D0 & L & U)] S. pose proof u53_small as US. pose proof (up_bound 5 ltac:(lia)) as UB. pose proof (dn_bound 5) as DB. rewrite INR_IZR_INZ in UB, DB. change (IZR (Z.of_nat 5)) with 5 in UB, DB.
  pose proof (dn_half 5 ltac:(lia)). pose proof (up_two 5 ltac:(lia)). split; [exact Fq|split].
  - destruct S as [->|[S1 S2]]; [left; lra|right]. change (-201)%Z with (-202 + 1)%Z in S1. change 202%Z with (201 + 1)%Z. rewrite bp1 in *. pose proof (bpow_gt_0 radix2 (-202)). split; nra.
  - apply Rabs_le. split; nra.
Qed.
Lemma c77_unrotated_all : fair m -> trig_rounded m -> exp_rounded m -> pow_rounded m ->
  forall (s : string) (main perp depth power x y z : b64) v w,
  @CreateVariogram F s main perp depth (Flit 0 0) (Flit 0 0) power = Ok v ->
  @CreateVariogram Rarith s (B2R main) (B2R perp) (B2R depth) 0 0 (B2R power) = Ok w ->
  is_finite power = true -> 0 < B2R power <= 2 ->
  ordinary main -> ordinary_arg perp -> ordinary_arg depth -> ordinary_lag x -> ordinary_lag y -> ordinary_lag z ->
  close_by (bpow radix2 (-47)) (@GetCorr1 F v x) (@GetCorr1 Rarith w (B2R x)) /\
  close_by (bpow radix2 (-47)) (@GetCorr2 F v x y) (@GetCorr2 Rarith w (B2R x) (B2R y)) /\
  close_by (bpow radix2 (-47)) (@GetCorr3 F v x y z) (@GetCorr3 Rarith w (B2R x) (B2R y) (B2R z)).
Proof.
  intros ok T ER PR s main perp depth power x y z v w HF HR FP P M MP MD X Y Z.
  destruct (created_unrotated m s main perp depth power v HF) as (v0 & Ev & AZ & DP & RX & RY & RZ & NT & LT).
  destruct (created_F s main perp depth (Flit 0 0) (Flit 0 0) power v HF) as (pw & _ & _ & _ & PW & PG).
  destruct (ord_arg main perp M MP) as (M2 & V2 & NZ2). destruct (ord_arg main depth M MD) as (M3 & V3 & NZ3).
  destruct (created_corr s _ _ _ _ _ _ w HR (mod_pos _ (ord_mod _ M)) NZ2 NZ3 ltac:(lra)) as [_ C]. destruct (created_new _ _ _ _ _ _ _ _ HR) as (t & p' & _ & _ & _ & Tw & LT').
  assert (TT : vt w = vt v) by (rewrite LT in LT'; injection LT' as ->; exact Tw).
  assert (O1 : ordinary (range_x v0)) by (rewrite RX; exact M). assert (O2 : ordinary (range_y v0)) by (rewrite RY; exact M2). assert (O3 : ordinary (range_z v0)) by (rewrite RZ; exact M3).
  assert (W2 : B2R (range_y v0) = or_main (B2R main) (B2R perp)) by (rewrite RY; exact V2).
  assert (W3 : B2R (range_z v0) = or_main (B2R main) (B2R depth)) by (rewrite RZ; exact V3).
  assert (W1 : B2R (range_x v0) = B2R main) by (rewrite RX; reflexivity).
  pose proof (ord_mod _ O1) as N1. pose proof (ord_mod _ O2) as N2. pose proof (ord_mod _ O3) as N3.
  rewrite <- W2, <- W3, radians_0, <- W1, TT in C. clear M2 M3 V2 V3.
  assert (ZV : B2R zero64 = 0) by reflexivity.
  assert (C3 : forall a b c : b64, @GetCorr3 Rarith w (B2R a) (B2R b) (B2R c) = corr_fun (vt v) (B2R power) (sqrt (tm (range_x v0) a + tm (range_y v0) b + tm (range_z v0) c))).
  { intros a b c. rewrite C. f_equal. apply ndist_unrot; assumption. }
  assert (C2 : forall a b : b64, @GetCorr2 Rarith w (B2R a) (B2R b) = corr_fun (vt v) (B2R power) (sqrt (tm (range_x v0) a + tm (range_y v0) b))).
  { intros a b. rewrite corr2_3. rewrite <- ZV at 1. rewrite C3, (tm0 _ zero64 ZV), Rplus_0_r. reflexivity. }
  assert (C1 : forall a : b64, @GetCorr1 Rarith w (B2R a) = corr_fun (vt v) (B2R power) (sqrt (tm (range_x v0) a))).
  { intros a. rewrite corr1_2. rewrite <- ZV at 1. rewrite C2, (tm0 _ zero64 ZV), Rplus_0_r. reflexivity. }
  rewrite C1, C2, C3. unfold GetCorr1, GetCorr2, GetCorr3. pose proof u53_small as US.
  assert (CC : forall q D, acc 5 q D -> szd (-201) 201 D -> close_by (bpow radix2 (-47)) (Corr1D v q) (corr_fun (vt v) (B2R power) D)).
  { intros q D A S. destruct (acc_good q D A S) as (Fq & Sq & Eq). destruct (corr_near m ok ER PR v q (B2R power) (6 * u53) D NT) as [A1 A2]; try assumption.
    - intros E. rewrite (PG E). split; [exact FP|split; [reflexivity|exact P]].
    - exact (szd_nn _ _ _ S).
    - rewrite u53_val. lra.
    - split; [exact A1|]. apply Rle_trans with (1 := A2). assert (E : bpow radix2 (-47) = 64 * u53) by (rewrite u53_val; unfold bpow, radix2, Zpower_pos; simpl; lra). rewrite E. lra. }
  pose proof (tm_ord _ _ O1 X) as S1. pose proof (tm_ord _ _ O2 Y) as S2. pose proof (tm_ord _ _ O3 Z) as S3. pose proof (szd_plus _ _ _ _ S1 S2) as S12.
  assert (S3' : szd (-400) (400 + 1) (tm (range_z v0) z)) by (apply (szd_weak (-400) 400); [lia|lia|exact S3]). pose proof (szd_plus _ _ _ _ S12 S3') as S123.
  assert (SZ : forall e, szd (-400) 402 e -> szd (-201) 201 (sqrt e)) by (intros e H; apply szd_sqrt; apply (szd_weak (-400) 402); [lia|lia|exact H]).
  apply ord_lag_mod in X, Y, Z. split; [|split]; apply CC; try subst v.
  - apply dist1_acc; assumption.
  - apply SZ. apply (szd_weak (-400) 400); [lia|lia|exact S1].
  - apply dist2_acc; assumption.
  - apply SZ. apply (szd_weak (-400) 401); [lia|lia|exact S12].
  - apply dist3_acc; assumption.
  - apply SZ. exact S123.
Qed.
End Api.
