(** Smoothing in double precision: the lengths it refers to, the kernel, and the tables of variograms along the axes. *)
From Coq Require Import ZArith Bool List String Lia Reals Lra Psatz.
From Flocq Require Import Core IEEE754.BinarySingleNaN.
From Verif Require Import Base Arith RealArith FloatArith M_Variogram M_Grid M_CovGrid M_Field S_CovGrid S_Vario S_Random P_NormF S_CorrF P_CorrF P_CorrF2 P_CorrF4 P_Accur P_Accur2 P_Accur3 P_Accur6 P_Accur9 P_Accur10 P_Accur11
  S_Accur S_Reach S_Damp P_Base P_Grid P_Bounds P_Vario P_VarioMore P_VarioKernel P_VarioTables P_Reach S_FieldF S_FieldH P_FieldF P_FieldG P_FieldH P_FieldI P_FieldJ P_Damp.
Import ListNotations.
Open Scope R_scope.

Lemma prod_val (x y : b64) : fin x = true -> fin y = true -> Rabs (B2R x * B2R y) <= bpow radix2 300 -> fin (Bm x y) = true /\ B2R (Bm x y) = rnd (B2R x * B2R y).
Proof.
  intros X Y H. assert (O : Rlt_bool (Rabs (rnd (B2R x * B2R y))) (bpow radix2 1024) = true). { apply top_ok. apply Rle_trans with (1 := H). apply bpow_le. lia. }
  pose proof (Bmult_correct 53 1024 Hprec Hmax mode_NE x y) as Q. change (round radix2 (SpecFloat.fexp 53 1024) (round_mode mode_NE) (B2R x * B2R y)) with (rnd (B2R x * B2R y)) in Q.
  rewrite O in Q. destruct Q as (V & G & _). split; [rewrite G, X, Y; reflexivity|exact V].
Qed.
Lemma fmt_B (x : b64) : fmt (B2R x). Proof. apply generic_format_B2R. Qed.
Lemma prod_one (x : b64) : fin x = true -> Rabs (B2R x) <= bpow radix2 300 -> fin (Bm x (Flit 1 0)) = true /\ B2R (Bm x (Flit 1 0)) = B2R x.
Proof.
  intros X H. destruct l1 as [F1 V1]. destruct (prod_val x (Flit 1 0) X F1) as [A B]; rewrite V1, Rmult_1_r in *; [exact H|]. split; [exact A|]. rewrite B. apply rnd_id, fmt_B.
Qed.
(** the test for smoothing *)
Lemma lit_on : exactly (Flit 99999 5) (1 - 90071992547 * u53).
Proof. split; [reflexivity|]. rewrite u53_val. cbn. unfold F2R. cbn. lra. Qed.
Lemma test_on (s : b64) : fin s = true -> Bltb s (Flit 99999 5) = true <-> B2R s < 99999 / 100000.
Proof.
  intros Fs. destruct lit_on as [FL VL]. rewrite (Bltb_correct _ _ s (Flit 99999 5) Fs FL), VL. pose proof u53_val as U. split; intros H.
  - destruct (Rlt_bool_spec (B2R s) (1 - 90071992547 * u53)) as [A|A]; [|discriminate H].
    destruct (Rle_dec (1 / 2) (B2R s)) as [B|B]; [|lra].
    destruct (half_grid (B2R s) (fmt_B s)) as (n & _ & E). { rewrite U in *. lra. }
    assert (N : (90071992547 < n)%Z). { apply lt_IZR. rewrite E in A. rewrite U in A. lra. }
    assert (N' : 90071992548 <= IZR n) by (apply IZR_le; lia). rewrite E, U. lra.
  - apply Rlt_bool_true. rewrite U. lra.
Qed.

(** ** one axis *)
Lemma damp_near s r l r' l' : 0 < s -> 0 < r' -> Rabs (r - r') <= 4 * u53 * r' -> Rabs (l - l') <= u53 * Rabs l' -> Rabs (damp s r l - damp s r' l') <= 24 * u53.
Proof.
  intros S R0 HR HL. pose proof u53_val as U. assert (U0 : 0 < u53) by (rewrite U; lra). unfold damp. destruct (Rlt_dec s (99999 / 100000)) as [H|H]; [|rewrite Rminus_diag_eq, Rabs_R0 by reflexivity; lra].
  pose proof (ln_neg s (Logic.conj S H)) as L0. unfold Rpower.
  set (a := (r - r') / r'). assert (EA : r = r' * (1 + a)) by (unfold a; field; lra).
  assert (A : Rabs a <= 4 * u53). { unfold a, Rdiv. rewrite Rabs_mult, (Rabs_pos_eq (/ r')) by (left; apply Rinv_0_lt_compat; exact R0). apply (Rmult_le_reg_r r'); [exact R0|]. rewrite Rmult_assoc, Rinv_l by lra. lra. }
  assert (B : exists b, Rabs b <= u53 /\ l = l' * (1 + b)).
  { destruct (Req_dec l' 0) as [->|NZ]; [exists 0; rewrite Rabs_R0 in *; split; [lra|]; rewrite Rmult_0_r in HL; assert (Rabs (l - 0) = 0) by (pose proof (Rabs_pos (l - 0)); lra); destruct (Req_dec (l - 0) 0) as [E|E]; [lra|apply Rabs_no_R0 in E; lra]|].
    exists ((l - l') / l'). split; [|field; exact NZ]. unfold Rdiv. rewrite Rabs_mult, Rabs_inv. pose proof (Rabs_pos_lt l' NZ). apply (Rmult_le_reg_r (Rabs l')); [assumption|]. rewrite Rmult_assoc, Rinv_l by lra. lra. }
  destruct B as (b & B & EB). apply Rabs_le_inv in A, B.
  set (q := (1 + b) / (1 + a)). set (x := (l' / r') ^ 2 * - ln s). assert (X0 : 0 <= x) by (unfold x; apply Rmult_le_pos; [apply pow2_ge_0|lra]).
  assert (Q : 1 - 55 / 10 * u53 <= q <= 1 + 55 / 10 * u53).
  { unfold q. split; apply (Rmult_le_reg_r (1 + a)); try (rewrite U in *; lra); unfold Rdiv; rewrite (Rmult_assoc (1 + b)), Rinv_l by (rewrite U in *; lra); rewrite U in *; nra. }
  assert (E1 : (l / r) ^ 2 * ln s = - (x * (1 + (q ^ 2 - 1)))). { rewrite EA, EB. unfold x, q. field. rewrite U in *; lra. }
  assert (E2 : (l' / r') ^ 2 * ln s = - x) by (unfold x; ring).
  rewrite E1, E2. assert (D : Rabs (q ^ 2 - 1) <= 111 / 10 * u53) by (apply Rabs_le; rewrite U in *; nra).
  apply Rle_trans with (2 * Rabs (q ^ 2 - 1)); [apply exp_scaled; [exact X0|]; rewrite U in *; lra|]. 
  rewrite U in *; lra.
Qed.
Section K.
Variable m : libm.
Hypothesis PR : pow_rounded m.
Hypothesis PO : pow_one m.
Notation F := (Farith m).
(** one smoothing factor, applied to an entry [c] close to [c'] *)
Definition fits (d : R) (c : b64) (c' : R) : Prop := fin c = true /\ Rabs (B2R c) <= 1 + bpow radix2 (-20) /\ Rabs (B2R c - c') <= d /\ Rabs c' <= 1.
Lemma b20 : bpow radix2 (-20) = / 1048576. Proof. cbn. lra. Qed.
Lemma fmt_b20 : fmt (1 + bpow radix2 (-20)).
Proof. replace (1 + bpow radix2 (-20)) with (IZR 1048577 * bpow radix2 (-20)) by (rewrite b20; lra). apply fmt_scaled; [reflexivity|lia]. Qed.
Lemma damp_unit s r l : 0 < s -> 0 <= damp s r l <= 1.
Proof.
  intros S. unfold damp. destruct (Rlt_dec s (99999 / 100000)) as [H|H]; [|lra]. pose proof (ln_neg s (Logic.conj S H)). unfold Rpower. pose proof (exp_pos ((l / r) ^ 2 * ln s)). split; [lra|].
  pose proof (pow2_ge_0 (l / r)). rewrite <- exp_0. assert (Q : (l / r) ^ 2 * ln s <= 0) by nra. destruct Q as [Q| ->]; [left; apply exp_increasing; exact Q|lra].
Qed.
Lemma kernel_near (s r p lF c : b64) (r' l' c' d : R) : smooth_args s p -> moderate r -> 0 < r' -> Rabs (B2R r - r') <= 4 * u53 * r' -> (1 - 1 / 1000000) * B2R p <= B2R r <= B2R p ->
  nearby lF l' -> fits d c c' -> 
  fits (d + damp_error s p) (@kernel F s (base m s r) lF c) (@kernel Rarith (B2R s) (Rpow (B2R s) (1 / (r' * r'))) l' c').
Proof.
  intros (Fs & S0 & HS) Mr R0 HR [P1 P2] [Ol Hl] (Fc & Bc & Ec & Bc'). pose proof (mod_pos r Mr) as RP. rewrite kernel_damp by lra. pose proof (damp_unit (B2R s) r' l' S0) as DU.
  assert (CB : Rabs (c' * damp (B2R s) r' l') <= 1) by (rewrite Rabs_mult, (Rabs_pos_eq (damp _ _ _)) by lra; pose proof (Rabs_pos c'); nra).
  unfold kernel, damp_error. change (flt F s (lit F 99999 5)) with (Bltb s (Flit 99999 5)). pose proof (test_on s Fs) as TO. destruct (Rlt_dec (B2R s) (99999 / 100000)) as [H|H].
  - rewrite (proj2 TO H). specialize (HS H). pose proof (ln_neg _ (Logic.conj S0 H)) as L0.
    set (h := spread (B2R s) (B2R r)). set (h0 := spread (B2R s) (B2R p)) in *.
    assert (IL : 0 < / - ln (B2R s)) by (apply Rinv_0_lt_compat; exact L0).
    assert (HH : h <= h0) by (unfold h, h0, spread, Rdiv; apply Rmult_le_compat_r; [lra|nra]).
    assert (HL : 1 / 660 <= h).
    { assert (K : (1 - 1 / 100000) * h0 <= h). { unfold h, h0, spread, Rdiv. rewrite <- Rmult_assoc. apply Rmult_le_compat_r; [lra|]. assert (0 < B2R p) by lra. nra. } lra. }
    pose proof (factor_F m PR PO s r lF Fs (Logic.conj S0 H) Mr ltac:(fold h; lra) Ol) as Q. cbv zeta in Q. fold h in Q. destruct Q as (Ff & Uf & Ef).
    change (fpow F (base m s r) (mul F lF lF)) with (lm_pow m (base m s r) (Bm lF lF)). set (f := lm_pow m (base m s r) (Bm lF lF)) in *. change (mul F c f) with (Bm c f).
    pose proof (damp_near (B2R s) (B2R r) (B2R lF) r' l' S0 R0 HR Hl) as Dn. pose proof u53_val as U. rewrite b20 in Bc.
    assert (CF : Rabs (B2R c * B2R f) <= 1 + / 1048576) by (rewrite Rabs_mult, (Rabs_pos_eq (B2R f)) by lra; pose proof (Rabs_pos (B2R c)); nra).
    assert (B3 : 2 <= bpow radix2 300) by (change 2 with (bpow radix2 1); apply bpow_le; lia).
    destruct (prod_val c f Fc Ff ltac:(lra)) as [Fk Vk]. split; [exact Fk|]. split; [|split; [|exact CB]].
    + rewrite Vk, b20. apply Rabs_le_inv in CF. apply Rabs_le. pose proof fmt_b20 as FB. rewrite b20 in FB. apply rnd_between; [apply generic_format_opp; exact FB|exact FB|exact CF].
    + rewrite Vk. pose proof (abs_err1 (B2R c * B2R f) ltac:(lra)) as R1.
      replace (rnd (B2R c * B2R f) - c' * damp (B2R s) r' l') with ((rnd (B2R c * B2R f) - B2R c * B2R f) + ((B2R c - c') * B2R f + c' * ((B2R f - damp (B2R s) (B2R r) (B2R lF)) + (damp (B2R s) (B2R r) (B2R lF) - damp (B2R s) r' l')))) by ring.
      apply Rle_trans with (1 := Rabs_triang _ _). assert (B47 : bpow radix2 (-47) = 64 * u53) by (rewrite U; cbn; lra). rewrite B47.
      assert (K1 : Rabs ((B2R c - c') * B2R f) <= d) by (rewrite Rabs_mult, (Rabs_pos_eq (B2R f)) by lra; pose proof (Rabs_pos (B2R c - c')); nra).
      set (g := B2R f - damp (B2R s) (B2R r) (B2R lF) + (damp (B2R s) (B2R r) (B2R lF) - damp (B2R s) r' l')) in *.
      assert (G : Rabs g <= 15 * u53 * (1 + h) + 24 * u53) by (apply Rle_trans with (1 := Rabs_triang _ _); lra).
      assert (K2 : Rabs (c' * g) <= 15 * u53 * (1 + h) + 24 * u53) by (rewrite Rabs_mult; pose proof (Rabs_pos c'); pose proof (Rabs_pos g); nra).
      pose proof (Rabs_triang ((B2R c - c') * B2R f) (c' * g)). assert (U0 : 0 < u53) by (rewrite U; lra). nra.
  - assert (BF : Bltb s (Flit 99999 5) = false) by (destruct (Bltb s (Flit 99999 5)); [exfalso; apply H, TO; reflexivity|reflexivity]). rewrite BF.
    unfold damp in *. destruct (Rlt_dec (B2R s) (99999 / 100000)); [contradiction|]. rewrite Rmult_1_r, Rplus_0_r in *. split; [exact Fc|split; [exact Bc|split; assumption]].
Qed.
End K.
