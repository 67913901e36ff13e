(** Accuracy of correlations in double precision: numbers known up to a relative error. *)
From Coq Require Import ZArith Bool Lia Reals Lra String List.
From Flocq Require Import Core IEEE754.BinarySingleNaN.
From Verif Require Import Base Arith RealArith FloatArith M_Variogram S_Vario S_Random S_Normal P_NormF S_CorrF P_CorrF P_CorrF2 P_CorrF4 P_Accur.
Import ListNotations.
Open Scope R_scope.

Notation up := (1 + u53).
Notation dn := (1 - u53).
Lemma up_pos n : 1 <= up ^ n. Proof. apply pow_R1_Rle. pose proof u53_small. lra. Qed.
Lemma dn_pos n : 0 < dn ^ n <= 1.
Proof. pose proof u53_small. split; [apply pow_lt; lra|]. apply Rle_trans with (1 ^ n); [apply pow_incr; lra|rewrite pow1; lra]. Qed.
Lemma up_mono n k : (n <= k)%nat -> up ^ n <= up ^ k. Proof. intros H. apply Rle_pow; [pose proof u53_small; lra|exact H]. Qed.
Lemma dn_mono n k : (n <= k)%nat -> dn ^ k <= dn ^ n.
Proof. intros H. replace k with (n + (k - n))%nat by lia. rewrite pow_add. destruct (dn_pos n), (dn_pos (k - n)). nra. Qed.
Lemma up_bound n : (n <= 64)%nat -> up ^ n <= 1 + 11 / 10 * INR n * u53.
Proof.
  pose proof u53_small as U. induction n as [|n IH]; intros H; [cbn; lra|]. specialize (IH ltac:(lia)). rewrite S_INR. cbn [pow].
  assert (N : 0 <= INR n <= 64) by (split; [apply pos_INR|rewrite INR_IZR_INZ; apply IZR_le; lia]).
  assert (V : INR n * u53 <= 1 / 64) by nra. pose proof (up_pos n). nra.
Qed.
Lemma dn_bound n : 1 - INR n * u53 <= dn ^ n.
Proof.
  pose proof u53_small as U. induction n as [|n IH]; [cbn; lra|]. rewrite S_INR. cbn [pow]. destruct (dn_pos n). pose proof (pos_INR n). nra.
Qed.
Lemma dn_half n : (n <= 64)%nat -> 1 / 2 <= dn ^ n.
Proof. intros H. pose proof u53_small. pose proof (dn_bound n). assert (INR n <= 64) by (rewrite INR_IZR_INZ; apply IZR_le; lia). pose proof (pos_INR n). nra. Qed.
Lemma up_two n : (n <= 64)%nat -> up ^ n <= 2.
Proof. intros H. pose proof u53_small. pose proof (up_bound n H). assert (INR n <= 64) by (rewrite INR_IZR_INZ; apply IZR_le; lia). pose proof (pos_INR n). nra. Qed.

(** [y] is [e] up to [n] relative errors *)
Definition close (n : nat) (y e : R) : Prop := 0 <= e /\ dn ^ n * e <= y <= up ^ n * e.
Definition acc (n : nat) (t : b64) (e : R) : Prop := fin t = true /\ close n (B2R t) e.
(** of a size that neither overflows nor loses bits *)
Definition sized (e : R) : Prop := e = 0 \/ bpow radix2 (-990) <= e <= bpow radix2 990.
Lemma close_weak n k y e : (n <= k)%nat -> close n y e -> close k y e.
Proof. intros H (A & B & C). split; [exact A|]. pose proof (up_mono n k H). pose proof (dn_mono n k H). split; nra. Qed.
Lemma acc_weak n k t e : (n <= k)%nat -> acc n t e -> acc k t e.
Proof. intros H [A B]. split; [exact A|]. exact (close_weak n k _ _ H B). Qed.
Lemma close_nn n y e : close n y e -> 0 <= y. Proof. intros (A & B & _). destruct (dn_pos n). nra. Qed.
Lemma close_0 n y : close n y 0 -> y = 0. Proof. intros (_ & B & C). lra. Qed.
Lemma bp1 z : bpow radix2 (z + 1) = 2 * bpow radix2 z. Proof. rewrite bpow_plus. cbn. lra. Qed.
Lemma close_size n y e : (n <= 64)%nat -> sized e -> close n y e -> y = 0 \/ bpow radix2 (-991) <= y <= bpow radix2 991.
Proof.
  intros N [->|S] C; [left; exact (close_0 _ _ C)|right]. destruct C as (A & B & C). pose proof (dn_half n N). pose proof (up_two n N).
  change (-990)%Z with (-991 + 1)%Z in S. change 991%Z with (990 + 1)%Z. rewrite bp1 in *. pose proof (bpow_gt_0 radix2 (-991)). split; nra.
Qed.
Lemma close_round n y e : (n <= 64)%nat -> sized e -> close n y e -> close (S n) (rnd y) e /\ Rlt_bool (Rabs (rnd y)) (bpow radix2 1024) = true.
Proof.
  intros N S C. pose proof (close_nn _ _ _ C) as Y0. destruct (close_size n y e N S C) as [Z|Z].
  - subst y. rewrite (rnd_id 0 fmt_0). split.
    + apply (close_weak n); [lia|exact C].
    + rewrite Rabs_R0. apply Rlt_bool_true, bpow_gt_0.
  - split.
    + destruct (rel_err y) as (d & D & E). { rewrite Rabs_right by lra. apply Rle_trans with (2 := proj1 Z). apply bpow_le. lia. }
      apply Rabs_le_inv in D. rewrite E. destruct C as (A & B & C). split; [exact A|]. cbn [pow]. pose proof u53_small.
      split.
      * apply Rle_trans with (dn * y); [rewrite Rmult_assoc; apply Rmult_le_compat_l; lra|]. rewrite Rmult_comm. apply Rmult_le_compat_l; lra.
      * apply Rle_trans with (up * y); [rewrite (Rmult_comm up); apply Rmult_le_compat_l; lra|]. rewrite Rmult_assoc. apply Rmult_le_compat_l; lra.
    + apply Rlt_bool_true. assert (Q : 0 <= rnd y <= bpow radix2 991) by (apply rnd_between; [apply fmt_0|apply fmt_pow; lia|lra]).
      rewrite Rabs_right by lra. apply Rle_lt_trans with (1 := proj2 Q). apply bpow_lt. lia.
Qed.
Lemma close_mult n k x y e g : close n x e -> close k y g -> close (n + k) (x * y) (e * g).
Proof.
  intros X Y. pose proof (close_nn _ _ _ X) as X0. pose proof (close_nn _ _ _ Y) as Y0. destruct X as (A & B & C). destruct Y as (A' & B' & C').
  split; [nra|]. rewrite !pow_add. destruct (dn_pos n), (dn_pos k). pose proof (up_pos n). pose proof (up_pos k).
  replace (dn ^ n * dn ^ k * (e * g)) with ((dn ^ n * e) * (dn ^ k * g)) by ring. replace (up ^ n * up ^ k * (e * g)) with ((up ^ n * e) * (up ^ k * g)) by ring.
  split; apply Rmult_le_compat; try assumption; apply Rmult_le_pos; lra.
Qed.
Lemma close_plus n x y e g : close n x e -> close n y g -> close n (x + y) (e + g).
Proof. intros (A & B & C) (A' & B' & C'). split; [lra|]. rewrite !Rmult_plus_distr_l. lra. Qed.
Lemma close_inv n x e : 0 < e -> (n <= 20)%nat -> close n x e -> close (n + n) (/ x) (/ e).
Proof.
  intros E N (A & B & C). destruct (dn_pos n) as [D D']. pose proof (up_pos n) as U. pose proof u53_small as US.
  assert (X : 0 < x) by (apply Rlt_le_trans with (2 := B), Rmult_lt_0_compat; lra).
  assert (DU : 1 <= dn ^ n * (up ^ n * up ^ n)).
  { rewrite <- !Rpow_mult_distr. apply Rle_trans with (1 ^ n); [rewrite pow1; lra|apply pow_incr; nra]. }
  assert (UD : up ^ n * dn ^ n <= 1). { rewrite <- Rpow_mult_distr. apply Rle_trans with (1 ^ n); [apply pow_incr; nra|rewrite pow1; lra]. }
  split; [apply Rlt_le, Rinv_0_lt_compat; exact E|]. rewrite !pow_add.
  assert (I : / x * x = 1) by (field; lra). assert (J : / e * e = 1) by (field; lra).
  split; apply Rmult_le_reg_r with x; try exact X; rewrite I.
  - apply Rle_trans with (dn ^ n * dn ^ n * / e * (up ^ n * e)).
    + apply Rmult_le_compat_l; [|exact C]. apply Rmult_le_pos; [nra|apply Rlt_le, Rinv_0_lt_compat; exact E].
    + replace (dn ^ n * dn ^ n * / e * (up ^ n * e)) with (dn ^ n * (up ^ n * dn ^ n) * (/ e * e)) by ring. rewrite J. nra.
  - apply Rle_trans with (up ^ n * up ^ n * / e * (dn ^ n * e)).
    + replace (up ^ n * up ^ n * / e * (dn ^ n * e)) with (dn ^ n * (up ^ n * up ^ n) * (/ e * e)) by ring. rewrite J. lra.
    + apply Rmult_le_compat_l; [|exact B]. apply Rmult_le_pos; [nra|apply Rlt_le, Rinv_0_lt_compat; exact E].
Qed.
Lemma close_sqrt n x e : close (n + n) x e -> close n (sqrt x) (sqrt e).
Proof.
  intros (A & B & C). split; [apply sqrt_pos|]. rewrite !pow_add in *. destruct (dn_pos n) as [D D']. pose proof (up_pos n) as U.
  assert (P1 : 0 <= dn ^ n * dn ^ n) by nra. assert (P2 : 0 <= up ^ n * up ^ n) by nra.
  apply sqrt_le_1_alt in B. apply sqrt_le_1_alt in C. rewrite (sqrt_mult _ _ P1 A), (sqrt_square (dn ^ n)) in B by lra.
  rewrite (sqrt_mult _ _ P2 A), (sqrt_square (up ^ n)) in C by lra. split; assumption.
Qed.

(** the operations *)
Lemma acc_mult n k x y e g : (n + k <= 64)%nat -> sized (e * g) -> acc n x e -> acc k y g -> acc (S (n + k)) (Bm x y) (e * g).
Proof.
  intros N S [Fx X] [Fy Y]. destruct (close_round (n + k) _ _ N S (close_mult _ _ _ _ _ _ X Y)) as [C O].
  pose proof (Bmult_correct 53 1024 Hprec Hmax mode_NE x y) as Q. rewrite O in Q. destruct Q as [V [F _]].
  split; [rewrite F, Fx, Fy; reflexivity|]. rewrite V. exact C.
Qed.
Lemma acc_plus n x y e g : (n <= 64)%nat -> sized (e + g) -> acc n x e -> acc n y g -> acc (S n) (Bplus mode_NE x y) (e + g).
Proof.
  intros N S [Fx X] [Fy Y]. destruct (close_round n _ _ N S (close_plus _ _ _ _ _ X Y)) as [C O].
  pose proof (Bplus_correct 53 1024 Hprec Hmax mode_NE x y Fx Fy) as Q. rewrite O in Q. destruct Q as [V [F _]].
  split; [exact F|]. rewrite V. exact C.
Qed.
Lemma acc_div n k x y e g : (n + (k + k) <= 64)%nat -> (k <= 20)%nat -> 0 < g -> sized (e * / g) -> acc n x e -> acc k y g -> acc (S (n + (k + k))) (Bdiv mode_NE x y) (e * / g).
Proof.
  intros N K G S [Fx X] [Fy Y]. pose proof (close_inv k _ _ G K Y) as I. destruct (close_round (n + (k + k)) _ _ N S (close_mult _ _ _ _ _ _ X I)) as [C O].
  assert (NZ : B2R y <> 0). { destruct Y as (_ & B & _). destruct (dn_pos k). assert (0 < dn ^ k * g) by (apply Rmult_lt_0_compat; lra). lra. }
  pose proof (Bdiv_correct 53 1024 Hprec Hmax mode_NE x y NZ) as Q. unfold Rdiv in Q. rewrite O in Q. destruct Q as [V [F _]].
  split; [rewrite F; exact Fx|]. rewrite V. exact C.
Qed.
Lemma acc_sqrt n x e : (n <= 64)%nat -> sized (sqrt e) -> acc (n + n) x e -> acc (S n) (Bsqrt mode_NE x) (sqrt e).
Proof.
  intros N S [Fx X]. destruct (close_round n _ _ N S (close_sqrt _ _ _ X)) as [C O]. pose proof (close_nn _ _ _ X) as X0.
  pose proof (Bsqrt_correct 53 1024 Hprec Hmax mode_NE x) as [V [F _]].
  split; [|rewrite V; exact C]. rewrite F. destruct x as [s|s| |s k q H]; try discriminate; [reflexivity|]. destruct s; [|reflexivity]. exfalso.
  assert (B2R (B754_finite true k q H) < 0) by (apply F2R_lt_0; cbn; lia). lra.
Qed.
Lemma acc_exact x r : exactly x r -> 0 <= r -> acc 0 x r.
Proof. intros [A B] R0. split; [exact A|]. rewrite B. split; [exact R0|]. cbn. lra. Qed.
(** a term f*x*x, where x may be negative *)
Lemma rnd_opp y : rnd (- y) = - rnd y. Proof. unfold rnd. apply round_NE_opp. Qed.
Lemma acc_term n f e x : (n <= 60)%nat -> acc n f e -> fin x = true -> sized (e * Rabs (B2R x)) -> sized (e * Rabs (B2R x) * Rabs (B2R x)) ->
  acc (S (S n)) (Bm (Bm f x) x) (e * Rabs (B2R x) * Rabs (B2R x)).
Proof.
  intros N [Ff A] Fx S1 S2. set (X := Rabs (B2R x)) in *.
  assert (CX : close 0 X X) by (split; [apply Rabs_pos|cbn; lra]).
  assert (C1 : close n (B2R f * X) (e * X)) by (rewrite <- (Nat.add_0_r n); apply close_mult; assumption).
  destruct (close_round n _ _ ltac:(lia) S1 C1) as [C2 O1].
  assert (C3 : close (S n) (rnd (B2R f * X) * X) (e * X * X)) by (rewrite <- (Nat.add_0_r (S n)); apply close_mult; assumption).
  destruct (close_round (S n) _ _ ltac:(lia) S2 C3) as [C4 O2].
  assert (P1 : Rabs (rnd (B2R f * B2R x)) = Rabs (rnd (B2R f * X)) /\ rnd (B2R f * B2R x) * B2R x = rnd (B2R f * X) * X).
  { unfold X. destruct (Rle_dec 0 (B2R x)) as [L|L].
    - rewrite (Rabs_right (B2R x)) by lra. split; reflexivity.
    - rewrite (Rabs_left (B2R x)) by lra. replace (B2R f * - B2R x) with (- (B2R f * B2R x)) by ring. rewrite rnd_opp, Rabs_Ropp. split; [reflexivity|ring]. }
  destruct P1 as [P1 P2].
  pose proof (Bmult_correct 53 1024 Hprec Hmax mode_NE f x) as Q. change (round radix2 (SpecFloat.fexp 53 1024) (round_mode mode_NE) (B2R f * B2R x)) with (rnd (B2R f * B2R x)) in Q.
  rewrite P1, O1 in Q. destruct Q as [V [F _]]. rewrite Ff, Fx in F. cbn [andb] in F.
  pose proof (Bmult_correct 53 1024 Hprec Hmax mode_NE (Bm f x) x) as Q. rewrite V, P2, O2 in Q. destruct Q as [V2 [F2 _]].
  split; [rewrite F2, F, Fx; reflexivity|]. rewrite V2. exact C4.
Qed.
(** zeros *)
Lemma acc_zero n z : is_zero z -> acc n z 0. Proof. intros [s ->]. split; [reflexivity|]. split; [lra|]. cbn. lra. Qed.
Lemma mult_zero_l z x : is_zero z -> fin x = true -> is_zero (Bm z x).
Proof. intros [s ->] H. destruct x; try discriminate H; eexists; reflexivity. Qed.
Lemma mult_zero_r z x : is_zero z -> fin x = true -> is_zero (Bm x z).
Proof. intros [s ->] H. destruct x; try discriminate H; eexists; reflexivity. Qed.
Lemma plus_zeros y z : is_zero y -> is_zero z -> is_zero (Bplus mode_NE y z).
Proof. intros [s ->] [t ->]. destruct s, t; eexists; reflexivity. Qed.
Lemma minus_zeros y z : is_zero y -> is_zero z -> is_zero (Bminus mode_NE y z).
Proof. intros [s ->] [t ->]. destruct s, t; eexists; reflexivity. Qed.
Lemma acc_plus0 n a z e : acc n a e -> is_zero z -> acc n (Bplus mode_NE a z) e.
Proof.
  intros [Fa A] [s ->]. assert (V : fin (Bplus mode_NE a (B754_zero s)) = true /\ B2R (Bplus mode_NE a (B754_zero s)) = B2R a).
  { destruct a as [t|t| |t k q H]; try discriminate Fa; [destruct s, t; split; reflexivity|split; reflexivity]. }
  destruct V as [F V]. split; [exact F|]. rewrite V. exact A.
Qed.
Lemma acc_0plus n a z e : acc n a e -> is_zero z -> acc n (Bplus mode_NE z a) e.
Proof.
  intros [Fa A] [s ->]. assert (V : fin (Bplus mode_NE (B754_zero s) a) = true /\ B2R (Bplus mode_NE (B754_zero s) a) = B2R a).
  { destruct a as [t|t| |t k q H]; try discriminate Fa; [destruct s, t; split; reflexivity|split; reflexivity]. }
  destruct V as [F V]. split; [exact F|]. rewrite V. exact A.
Qed.
Lemma acc_1mult n a e : acc n a e -> acc n (Bm (Flit 1 0) a) e.
Proof.
  intros [Fa A]. destruct l1 as [F1 V1]. pose proof (Bmult_correct 53 1024 Hprec Hmax mode_NE (Flit 1 0) a) as Q.
  rewrite V1, Rmult_1_l in Q. change (round radix2 (SpecFloat.fexp 53 1024) (round_mode mode_NE) (B2R a)) with (rnd (B2R a)) in Q. rewrite (rnd_id (B2R a)) in Q by apply generic_format_B2R.
  assert (O : Rlt_bool (Rabs (B2R a)) (bpow radix2 1024) = true) by (apply Rlt_bool_true, abs_B2R_lt_emax). rewrite O in Q. destruct Q as [V [F _]].
  split; [rewrite F, F1, Fa; reflexivity|]. rewrite V. exact A.
Qed.
