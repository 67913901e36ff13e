(** How the arguments of a variogram act: the power, the azimuth, the ranges. *)
From Coq Require Import ZArith List Bool String Reals Lra Lia Machin.
From Verif Require Import Base Arith RealArith M_Variogram S_Vario P_Vario P_VarioNames P_VarioMore.
Import ListNotations.
Open Scope R_scope.

Lemma is_ascii_dec s : is_ascii s \/ ~ is_ascii s.
Proof. induction s as [|a s IH]; cbn [is_ascii]; [left; exact I|]. destruct (Nat.lt_ge_cases (Ascii.nat_of_ascii a) 128); [destruct IH|]; [tauto|tauto|right; lia]. Qed.

(** ** the power *)
Lemma power_ignored (A : Arith) s main perp depth azi dp (p p' : num A) : lower s <> "general_exponential"%string ->
  CreateVariogram s main perp depth azi dp p = CreateVariogram s main perp depth azi dp p'.
Proof.
  intros N. destruct (Uppercase s) as [u| | |] eqn:U; unfold CreateVariogram; rewrite U; cbn [bind]; try reflexivity.
  destruct (type_of_name u) eqn:T; try reflexivity. exfalso. apply N.
  assert (As : is_ascii s).
  { destruct (is_ascii_dec s) as [H|H]; [exact H|]. rewrite Uppercase_bad in U by exact H. discriminate U. }
  destruct (name_type s As) as (t & L & H). unfold lookup_type in L. rewrite U in L. injection L as <-. rewrite T in H.
  destruct H as [(n & I & E)|[H _]]; [|discriminate H]. rewrite E. cbn [documented In] in I.
  repeat match goal with H : _ \/ _ |- _ => destruct H as [H|H] end; try contradiction; injection I as <-; try discriminate; reflexivity.
Qed.
Lemma power_effect p p' d : 0 < p < p' ->
  (0 < d < 1 -> corr_fun GENERAL_EXPONENTIAL p d < corr_fun GENERAL_EXPONENTIAL p' d) /\
  (1 < d -> corr_fun GENERAL_EXPONENTIAL p' d < corr_fun GENERAL_EXPONENTIAL p d) /\
  (d = 0 \/ d = 1 -> corr_fun GENERAL_EXPONENTIAL p d = corr_fun GENERAL_EXPONENTIAL p' d).
Proof.
  intros [P0 P1]. unfold corr_fun, Rpow. split; [|split].
  - intros [D0 D1]. destruct (Rlt_dec 0 d); [|lra]. apply exp_increasing. unfold Rpower.
    assert (ln d < 0) by (rewrite <- ln_1; apply ln_increasing; lra).
    assert (exp (p' * ln d) < exp (p * ln d)) by (apply exp_increasing; nra). lra.
  - intros D1. destruct (Rlt_dec 0 d); [|lra]. apply exp_increasing. unfold Rpower.
    assert (0 < ln d) by (rewrite <- ln_1; apply ln_increasing; lra).
    assert (exp (p * ln d) < exp (p' * ln d)) by (apply exp_increasing; nra). lra.
  - intros [-> | ->].
    + destruct (Rlt_dec 0 0); [lra|]. destruct (Req_EM_T p 0), (Req_EM_T p' 0); try lra.
    + destruct (Rlt_dec 0 1); [|lra]. unfold Rpower. rewrite ln_1, !Rmult_0_r. reflexivity.
Qed.
Lemma c88_effect s main perp depth azi dp p p' v v' : lower s = "general_exponential"%string ->
  @CreateVariogram Rarith s main perp depth azi dp p = Ok v -> @CreateVariogram Rarith s main perp depth azi dp p' = Ok v' ->
  0 < main -> perp <> 0 -> depth <> 0 -> 0 < p < p' -> forall x y z,
  let d := ndist main (or_main main perp) (or_main main depth) (radians azi) (radians dp) (x, y, z) in
  (0 < d < 1 -> @GetCorr3 Rarith v x y z < @GetCorr3 Rarith v' x y z) /\
  (1 < d -> @GetCorr3 Rarith v' x y z < @GetCorr3 Rarith v x y z) /\
  (d = 0 \/ d = 1 -> @GetCorr3 Rarith v x y z = @GetCorr3 Rarith v' x y z).
Proof.
  intros L C C' M Pe De P x y z d.
  assert (G : forall q w, @CreateVariogram Rarith s main perp depth azi dp q = Ok w -> vt w = GENERAL_EXPONENTIAL).
  { intros q w E. assert (As : is_ascii s). { destruct (is_ascii_dec s) as [H|H]; [exact H|]. rewrite names_bad in E by exact H. discriminate E. }
    destruct (@names_documented Rarith s "general_exponential" GENERAL_EXPONENTIAL main perp depth azi dp q) as (w' & E' & T); [cbn; tauto|exact L|exact As|]. congruence. }
  destruct (created_corr _ _ _ _ _ _ _ _ C M Pe De ltac:(lra)) as [_ H], (created_corr _ _ _ _ _ _ _ _ C' M Pe De ltac:(lra)) as [_ H'].
  rewrite H, H', (G _ _ C), (G _ _ C'). apply power_effect, P.
Qed.

(** ** the azimuth *)
Lemma ndist_swap main perp depth a a' d x y z : a + a' = PI / 2 -> ndist main perp depth a' d (x, y, z) = ndist main perp depth a d (y, x, z).
Proof.
  intros E. replace a' with (PI / 2 - a) by lra. unfold ndist, dot, main_axis, perp_axis, third_axis. rewrite cos_shift, sin_shift. f_equal.
  replace (- cos a * x + sin a * y + 0 * z) with (- (- sin a * y + cos a * x + 0 * z)) by ring.
  replace (cos d * sin a * x + cos d * cos a * y + sin d * z) with (cos d * cos a * y + cos d * sin a * x + sin d * z) by ring.
  replace (- (sin d * sin a) * x + - (sin d * cos a) * y + cos d * z) with (- (sin d * cos a) * y + - (sin d * sin a) * x + cos d * z) by ring.
  unfold Rdiv. ring.
Qed.
Lemma c89_swap s main perp depth azi azi' dp p v v' : radians azi + radians azi' = PI / 2 ->
  @CreateVariogram Rarith s main perp depth azi dp p = Ok v -> @CreateVariogram Rarith s main perp depth azi' dp p = Ok v' ->
  0 < main -> perp <> 0 -> depth <> 0 -> 0 < p -> forall x y z, @GetCorr3 Rarith v' x y z = @GetCorr3 Rarith v y x z.
Proof.
  intros E C C' M Pe De P x y z.
  destruct (created_corr _ _ _ _ _ _ _ _ C M Pe De P) as [_ H], (created_corr _ _ _ _ _ _ _ _ C' M Pe De P) as [_ H'].
  destruct (created_new _ _ _ _ _ _ _ _ C) as (t & q & _ & _ & _ & T & L), (created_new _ _ _ _ _ _ _ _ C') as (t' & q' & _ & _ & _ & T' & L').
  rewrite H, H'. rewrite T, T'. assert (t = t') as <- by congruence. f_equal. apply ndist_swap, E.
Qed.

(** ** the ranges *)
Lemma sq_div_le c r r' : 0 < r <= r' -> (c / r') ^ 2 <= (c / r) ^ 2.
Proof.
  intros [A B]. unfold Rdiv. rewrite !Rpow_mult_distr. apply Rmult_le_compat_l; [nra|]. rewrite !pow_inv by lra.
  apply Rinv_le_contravar; nra.
Qed.
Lemma ndist_ranges main perp depth main' perp' depth' a d h : 0 < main <= main' -> 0 < perp <= perp' -> 0 < depth <= depth' ->
  ndist main' perp' depth' a d h <= ndist main perp depth a d h.
Proof. intros A B C. unfold ndist. apply sqrt_le_1_alt. repeat apply Rplus_le_compat; apply sq_div_le; assumption. Qed.
Lemma c90_ranges s main perp depth main' perp' depth' azi dp p v v' :
  @CreateVariogram Rarith s main perp depth azi dp p = Ok v -> @CreateVariogram Rarith s main' perp' depth' azi dp p = Ok v' ->
  0 < main <= main' -> 0 < or_main main perp <= or_main main' perp' -> 0 < or_main main depth <= or_main main' depth' -> 0 < p ->
  forall x y z, @GetCorr3 Rarith v x y z <= @GetCorr3 Rarith v' x y z.
Proof.
  intros C C' M Pe De P x y z.
  assert (N : forall m r, 0 < or_main m r -> r <> 0) by (intros m r H ->; unfold or_main in H; destruct (Rlt_dec 0 0); lra).
  destruct (created_corr _ _ _ _ _ _ _ _ C) as [_ H]; [lra|apply (N main); lra|apply (N main); lra|lra|].
  destruct (created_corr _ _ _ _ _ _ _ _ C') as [_ H']; [lra|apply (N main'); lra|apply (N main'); lra|lra|].
  destruct (created_new _ _ _ _ _ _ _ _ C) as (t & q & _ & _ & _ & T & L), (created_new _ _ _ _ _ _ _ _ C') as (t' & q' & _ & _ & _ & T' & L').
  rewrite H, H'. rewrite T, T'. assert (t = t') as <- by congruence. apply corr_fun_decr; [|exact P]. split; [apply sqrt_pos|]. apply ndist_ranges; assumption.
Qed.

(** along the compass direction [th] (clockwise from the second axis) and across it *)
Lemma c89_compass s main perp depth azi th p v : radians azi = PI / 2 - th ->
  @CreateVariogram Rarith s main perp depth azi 0 p = Ok v -> 0 < main -> perp <> 0 -> depth <> 0 -> 0 < p -> forall t, 0 <= t ->
  @GetCorr3 Rarith v (t * sin th) (t * cos th) 0 = corr_fun (vt v) p (t / main) /\
  @GetCorr3 Rarith v (t * cos th) (- (t * sin th)) 0 = corr_fun (vt v) p (t / or_main main perp).
Proof.
  intros E C M Pe De P t T. destruct (created_corr _ _ _ _ _ _ _ _ C M Pe De P) as [_ H]. rewrite !H, E.
  assert (Z : radians 0 = 0) by (unfold radians; ring). rewrite Z. unfold ndist, dot, main_axis, perp_axis, third_axis.
  rewrite cos_shift, sin_shift, cos_0, sin_0. pose proof (sin2_cos2 th) as SC. unfold Rsqr in SC. pose proof (or_main_nz main perp M Pe) as Pp.
  assert (Q : forall r, 0 < r -> sqrt ((t / r) ^ 2) = t / r).
  { intros r R0. rewrite sqrt_pow2; [reflexivity|]. unfold Rdiv. apply Rmult_le_pos; [exact T|]. apply Rlt_le, Rinv_0_lt_compat, R0. }
  split; f_equal.
  - rewrite <- (Q main M). f_equal. replace (1 * sin th * (t * sin th) + 1 * cos th * (t * cos th) + 0 * 0) with (t * (sin th * sin th + cos th * cos th)) by ring.
    rewrite SC. unfold Rdiv. ring.
  - rewrite <- (Q _ Pp). f_equal. replace (- cos th * (t * cos th) + sin th * - (t * sin th) + 0 * 0) with (- (t * (sin th * sin th + cos th * cos th))) by ring.
    rewrite SC. unfold Rdiv. ring.
Qed.
Lemma pi_bounds : 31415926535897932384 / 10000000000000000000 <= PI <= 31415926535897932385 / 10000000000000000000.
Proof.
  pose proof (PI_2_3_7_ineq 11) as [A B]. cbn [Nat.mul Nat.add] in A, B.
  cbv [sum_f_R0 tg_alt PI_2_3_7_tg Ratan_seq pow Nat.mul Nat.add INR] in A, B. split; lra.
Qed.
Lemma radians_near x : Rabs (radians x - x * (PI / 180)) <= Rabs x / 10 ^ 20.
Proof.
  unfold radians, Degree. cbn [lit Rarith]. change (10 ^ 23)%Z with 100000000000000000000000%Z. pose proof pi_bounds.
  match goal with |- Rabs (x * ?a - x * ?b) <= _ => replace (x * a - x * b) with (x * (a - b)) by ring; assert (B : Rabs (a - b) <= / 10 ^ 20) end.
  { apply Rabs_le. cbn [pow]. lra. }
  rewrite Rabs_mult. unfold Rdiv. apply Rmult_le_compat_l; [apply Rabs_pos|exact B].
Qed.
