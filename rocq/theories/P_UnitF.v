(** Multiplying by powers of two commutes with the operations on doubles. *)
From Coq Require Import ZArith Bool Lia Reals Lra Psatz List.
From Flocq Require Import Core IEEE754.BinarySingleNaN.
From Verif Require Import Base Arith FloatArith.
Open Scope R_scope.
Notation rnd := (round radix2 (FLT_exp (-1074) 53) ZnearestE).
Notation fmt := (generic_format radix2 (FLT_exp (-1074) 53)).
Notation bp := (bpow radix2).
Notation fin := (BinarySingleNaN.is_finite).

Lemma cexp_normal (z : R) : z <> 0 -> bp (-1022) <= Rabs z -> cexp radix2 (FLT_exp (-1074) 53) z = (mag radix2 z - 53)%Z.
Proof.
  intros Z0 H. unfold cexp, FLT_exp. assert (M : (-1021 <= mag radix2 z)%Z) by (apply mag_ge_bpow; exact H). lia.
Qed.
Lemma rnd_scale (k : Z) (z : R) : z = 0 \/ (bp (-1022) <= Rabs z /\ bp (-1022) <= Rabs (z * bp k)) -> rnd (z * bp k) = rnd z * bp k.
Proof.
  intros [->|[H1 H2]]; [rewrite Rmult_0_l, round_0 by apply valid_rnd_N; ring|].
  assert (Z0 : z <> 0) by (intros ->; rewrite Rabs_R0 in H1; pose proof (bpow_gt_0 radix2 (-1022)); lra).
  assert (Z1 : z * bp k <> 0) by (apply Rmult_integral_contrapositive_currified; [exact Z0|apply Rgt_not_eq, bpow_gt_0]).
  unfold round, scaled_mantissa, F2R. cbn [Fnum Fexp]. rewrite !cexp_normal by assumption.
  rewrite (mag_mult_bpow radix2 z k Z0). set (e := mag radix2 z : Z).
  replace (e + k - 53)%Z with (e - 53 + k)%Z by ring. rewrite Z.opp_add_distr, (bpow_plus radix2 (e - 53) k), (bpow_plus radix2 (- (e - 53)) (- k)).
  replace (z * bp k * (bp (- (e - 53)) * bp (- k))) with (z * bp (- (e - 53)) * (bp k * bp (- k))) by ring.
  rewrite <- (bpow_plus radix2 k (- k)), Z.add_opp_diag_r. cbn [bpow]. rewrite Rmult_1_r. ring.
Qed.
Lemma rnd_le_bp (z : R) hi : (-1074 <= hi)%Z -> Rabs z <= bp hi -> Rabs (rnd z) <= bp hi.
Proof. intros E H. apply abs_round_le_generic; [apply FLT_exp_valid; reflexivity|apply valid_rnd_N|apply generic_format_bpow; unfold FLT_exp; lia|exact H]. Qed.
Lemma rnd_ge_bp (z : R) lo : (-1074 <= lo)%Z -> bp lo <= Rabs z -> bp lo <= Rabs (rnd z).
Proof. intros E H. apply abs_round_ge_generic; [apply FLT_exp_valid; reflexivity|apply valid_rnd_N|apply generic_format_bpow; unfold FLT_exp; lia|exact H]. Qed.

(** [y] is [x] times 2^k, both finite with the same sign; [x] is zero or between 2^lo and 2^hi *)
Definition rel (k lo hi : Z) (x y : b64) : Prop :=
  fin x = true /\ fin y = true /\ B2R y = B2R x * bp k /\ Bsign y = Bsign x /\ (B2R x = 0 \/ bp lo <= Rabs (B2R x)) /\ Rabs (B2R x) <= bp hi.

Lemma rel_same lo hi x y : rel 0 lo hi x y -> x = y.
Proof.
  intros (FX & FY & E & S & _). apply B2R_Bsign_inj; auto. cbn [bpow] in E. rewrite E. ring.
Qed.
Lemma rel_refl lo hi (x : b64) : fin x = true -> (B2R x = 0 \/ bp lo <= Rabs (B2R x)) -> Rabs (B2R x) <= bp hi -> rel 0 lo hi x x.
Proof. intros F A B. unfold rel. cbn [bpow]. rewrite Rmult_1_r. auto 6. Qed.
Lemma rel_weak k lo hi lo' hi' x y : rel k lo hi x y -> (lo' <= lo)%Z -> (hi <= hi')%Z -> rel k lo' hi' x y.
Proof.
  intros (FX & FY & E & S & A & B) H1 H2. unfold rel. do 4 (split; auto). split.
  - destruct A as [A|A]; [left; auto|right]. eapply Rle_trans; [apply bpow_le; exact H1|exact A].
  - eapply Rle_trans; [exact B|apply bpow_le; exact H2].
Qed.
Lemma fin_fmt (x : b64) : fmt (B2R x).
Proof. apply (generic_format_B2R 53 1024 x). Qed.
Lemma no_ovf (z : R) hi : (-1074 <= hi <= 1023)%Z -> Rabs z <= bp hi -> Rlt_bool (Rabs (rnd z)) (bp 1024) = true.
Proof. intros H B. apply Rlt_bool_true. eapply Rle_lt_trans; [apply (rnd_le_bp z hi); [lia|exact B]|apply bpow_lt; lia]. Qed.
Lemma abs_bp (z : R) k : Rabs (z * bp k) = Rabs z * bp k.
Proof. rewrite Rabs_mult, (Rabs_pos_eq (bp k)) by apply bpow_ge_0. reflexivity. Qed.
Lemma scaled_le z k hi : Rabs z <= bp hi -> Rabs (z * bp k) <= bp (hi + k).
Proof. intros H. rewrite abs_bp, bpow_plus. apply Rmult_le_compat_r; [apply bpow_ge_0|exact H]. Qed.
Lemma scaled_ge z k lo : bp lo <= Rabs z -> bp (lo + k) <= Rabs (z * bp k).
Proof. intros H. rewrite abs_bp, bpow_plus. apply Rmult_le_compat_r; [apply bpow_ge_0|exact H]. Qed.
(** rounding a value that is zero or of normal size, before and after *)
Lemma rnd_rel z k lo hi : z = 0 \/ bp lo <= Rabs z -> Rabs z <= bp hi -> (-1022 <= lo)%Z -> (-1022 <= lo + k)%Z -> (-1022 <= hi)%Z -> 
  rnd (z * bp k) = rnd z * bp k /\ (rnd z = 0 \/ bp lo <= Rabs (rnd z)) /\ Rabs (rnd z) <= bp hi.
Proof.
  intros A B H1 H2 H3. split; [|split].
  - apply rnd_scale. destruct A as [A|A]; [left; auto|right]. split.
    + eapply Rle_trans; [apply bpow_le; exact H1|exact A].
    + eapply Rle_trans; [apply bpow_le; exact H2|apply scaled_ge; exact A].
  - destruct A as [->|A]; [left; apply round_0, valid_rnd_N|right; apply rnd_ge_bp; [lia|exact A]].
  - apply rnd_le_bp; [lia|exact B].
Qed.

Lemma rel_mul k1 lo1 hi1 k2 lo2 hi2 (x y u w : b64) : rel k1 lo1 hi1 x y -> rel k2 lo2 hi2 u w ->
  (-1022 <= lo1 + lo2)%Z -> (-1022 <= lo1 + lo2 + (k1 + k2))%Z -> (-1022 <= hi1 + hi2 <= 1023)%Z -> (-1022 <= hi1 + hi2 + (k1 + k2) <= 1023)%Z ->
  rel (k1 + k2) (lo1 + lo2) (hi1 + hi2) (Bmult mode_NE x u) (Bmult mode_NE y w).
Proof.
  intros (FX & FY & E1 & S1 & A1 & B1) (FU & FW & E2 & S2 & A2 & B2) H1 H2 H3 H4.
  set (z := B2R x * B2R u).
  assert (EZ : B2R y * B2R w = z * bp (k1 + k2)) by (rewrite E1, E2, bpow_plus; unfold z; ring).
  assert (A : z = 0 \/ bp (lo1 + lo2) <= Rabs z).
  { unfold z. destruct A1 as [->|A1]; [left; ring|]. destruct A2 as [->|A2]; [left; ring|]. right. rewrite Rabs_mult, bpow_plus. apply Rmult_le_compat; auto using bpow_ge_0. }
  assert (B : Rabs z <= bp (hi1 + hi2)) by (unfold z; rewrite Rabs_mult, bpow_plus; apply Rmult_le_compat; auto using Rabs_pos).
  destruct (rnd_rel z (k1 + k2) _ _ A B H1 H2 (proj1 H3)) as (R1 & R2 & R3).
  pose proof (Bmult_correct 53 1024 Hprec Hmax mode_NE x u) as C1. pose proof (Bmult_correct 53 1024 Hprec Hmax mode_NE y w) as C2.
  change (SpecFloat.fexp 53 1024) with (FLT_exp (-1074) 53) in C1, C2. cbn [round_mode] in C1, C2. fold z in C1. rewrite EZ in C2.
  rewrite (no_ovf z (hi1 + hi2)) in C1 by (try exact B; lia).
  rewrite (no_ovf (z * bp (k1 + k2)) (hi1 + hi2 + (k1 + k2))) in C2 by (try (apply scaled_le; exact B); lia).
  destruct C1 as (V1 & F1 & G1). destruct C2 as (V2 & F2 & G2). rewrite FX, FU in F1. rewrite FY, FW in F2. cbn [andb] in F1, F2.
  assert (N : forall q : b64, fin q = true -> is_nan q = false) by (intros []; cbn; congruence).
  unfold rel. rewrite F1, F2, V1, V2, G1, G2 by (apply N; auto). rewrite S1, S2. do 4 (split; auto).
Qed.
Lemma rel_div k1 lo1 hi1 k2 lo2 hi2 (x y u w : b64) : rel k1 lo1 hi1 x y -> rel k2 lo2 hi2 u w -> B2R u <> 0 ->
  (-1022 <= lo1 - hi2)%Z -> (-1022 <= lo1 - hi2 + (k1 - k2))%Z -> (-1022 <= hi1 - lo2 <= 1023)%Z -> (-1022 <= hi1 - lo2 + (k1 - k2) <= 1023)%Z ->
  rel (k1 - k2) (lo1 - hi2) (hi1 - lo2) (Bdiv mode_NE x u) (Bdiv mode_NE y w).
Proof.
  intros (FX & FY & E1 & S1 & A1 & B1) (FU & FW & E2 & S2 & A2 & B2) U0 H1 H2 H3 H4.
  destruct A2 as [A2|A2]; [contradiction|].
  set (z := B2R x / B2R u).
  assert (W0 : B2R w <> 0) by (rewrite E2; apply Rmult_integral_contrapositive_currified; [exact U0|apply Rgt_not_eq, bpow_gt_0]).
  assert (EZ : B2R y / B2R w = z * bp (k1 - k2)).
  { rewrite E1, E2. unfold z, Zminus. rewrite bpow_plus, bpow_opp. field. split; [apply Rgt_not_eq, bpow_gt_0|exact U0]. }
  assert (UP : 0 < Rabs (B2R u)) by (apply Rabs_pos_lt; exact U0).
  assert (AZ : Rabs z = Rabs (B2R x) * / Rabs (B2R u)) by (unfold z, Rdiv; rewrite Rabs_mult, Rabs_inv; reflexivity).
  assert (A : z = 0 \/ bp (lo1 - hi2) <= Rabs z).
  { destruct A1 as [A1|A1]; [left; unfold z; rewrite A1; field; exact U0|]. right. rewrite AZ. unfold Zminus. rewrite bpow_plus, bpow_opp.
    apply Rmult_le_compat; [apply bpow_ge_0|left; apply Rinv_0_lt_compat, bpow_gt_0|exact A1|apply Rinv_le_contravar; assumption]. }
  assert (B : Rabs z <= bp (hi1 - lo2)).
  { rewrite AZ. unfold Zminus. rewrite bpow_plus, bpow_opp. apply Rmult_le_compat; [apply Rabs_pos|left; apply Rinv_0_lt_compat; exact UP|exact B1|].
    apply Rinv_le_contravar; [apply bpow_gt_0|exact A2]. }
  destruct (rnd_rel z (k1 - k2) _ _ A B H1 H2 (proj1 H3)) as (R1 & R2 & R3).
  pose proof (Bdiv_correct 53 1024 Hprec Hmax mode_NE x u U0) as C1. pose proof (Bdiv_correct 53 1024 Hprec Hmax mode_NE y w W0) as C2.
  change (SpecFloat.fexp 53 1024) with (FLT_exp (-1074) 53) in C1, C2. cbn [round_mode] in C1, C2. fold z in C1. rewrite EZ in C2.
  rewrite (no_ovf z (hi1 - lo2)) in C1 by (try exact B; lia).
  rewrite (no_ovf (z * bp (k1 - k2)) (hi1 - lo2 + (k1 - k2))) in C2 by (try (apply scaled_le; exact B); lia).
  destruct C1 as (V1 & F1 & G1). destruct C2 as (V2 & F2 & G2). rewrite FX in F1. rewrite FY in F2.
  assert (N : forall q : b64, fin q = true -> is_nan q = false) by (intros []; cbn; congruence).
  unfold rel. rewrite F1, F2, V1, V2, G1, G2 by (apply N; auto). rewrite S1, S2. do 4 (split; auto).
Qed.

Lemma multiple (x : R) lo : fmt x -> (-1022 <= lo)%Z -> x = 0 \/ bp lo <= Rabs x -> exists n, x = IZR n * bp (lo - 52).
Proof.
  intros F L [->|H]; [exists 0%Z; cbn [IZR]; ring|].
  assert (M : (lo + 1 <= mag radix2 x)%Z) by (apply mag_ge_bpow; replace (lo + 1 - 1)%Z with lo by ring; exact H).
  unfold generic_format, F2R in F. cbn [Fnum Fexp] in F. set (n := Ztrunc (scaled_mantissa radix2 (FLT_exp (-1074) 53) x)) in F.
  set (e := cexp radix2 (FLT_exp (-1074) 53) x) in F.
  assert (EE : (lo - 52 <= e)%Z) by (unfold e, cexp, FLT_exp; lia).
  exists (n * 2 ^ (e - (lo - 52)))%Z. rewrite F at 1. rewrite mult_IZR. change (2 ^ (e - (lo - 52)))%Z with (radix2 ^ (e - (lo - 52)))%Z. rewrite (IZR_Zpower radix2 (e - (lo - 52))) by lia.
  rewrite Rmult_assoc, <- bpow_plus. do 2 f_equal. ring.
Qed.
Lemma rel_add k lo1 hi1 lo2 hi2 (x y u w : b64) : rel k lo1 hi1 x y -> rel k lo2 hi2 u w -> let lo := (Z.min lo1 lo2 - 52)%Z in let hi := (Z.max hi1 hi2 + 1)%Z in
  (-1022 <= lo)%Z -> (-1022 <= lo + k)%Z -> (-1022 <= hi <= 1023)%Z -> (-1022 <= hi + k <= 1023)%Z ->
  rel k lo hi (Bplus mode_NE x u) (Bplus mode_NE y w).
Proof.
  intros (FX & FY & E1 & S1 & A1 & B1) (FU & FW & E2 & S2 & A2 & B2) lo hi H1 H2 H3 H4.
  set (z := B2R x + B2R u).
  assert (EZ : B2R y + B2R w = z * bp k) by (rewrite E1, E2; unfold z; ring).
  assert (A : z = 0 \/ bp lo <= Rabs z).
  { assert (W1 : B2R x = 0 \/ bp (Z.min lo1 lo2) <= Rabs (B2R x)) by (destruct A1 as [|A1]; [left; auto|right; eapply Rle_trans; [apply bpow_le|exact A1]; lia]).
    assert (W2 : B2R u = 0 \/ bp (Z.min lo1 lo2) <= Rabs (B2R u)) by (destruct A2 as [|A2]; [left; auto|right; eapply Rle_trans; [apply bpow_le|exact A2]; lia]).
    destruct (multiple (B2R x) (Z.min lo1 lo2) (fin_fmt x)) as [n N]; [lia|exact W1|]. destruct (multiple (B2R u) (Z.min lo1 lo2) (fin_fmt u)) as [n' N']; [lia|exact W2|].
    unfold z. rewrite N, N', <- Rmult_plus_distr_r, <- plus_IZR. fold lo. destruct (Z.eq_dec (n + n') 0) as [->|NZ]; [left; ring|right].
    rewrite Rabs_mult, (Rabs_pos_eq (bp lo)) by apply bpow_ge_0. rewrite <- abs_IZR. assert (1 <= IZR (Z.abs (n + n'))) by (apply IZR_le; lia). pose proof (bpow_gt_0 radix2 lo). nra. }
  assert (B : Rabs z <= bp hi).
  { unfold z. eapply Rle_trans; [apply Rabs_triang|]. unfold hi. rewrite bpow_plus. change (bp 1) with 2.
    assert (Rabs (B2R x) <= bp (Z.max hi1 hi2)) by (eapply Rle_trans; [exact B1|apply bpow_le; lia]). assert (Rabs (B2R u) <= bp (Z.max hi1 hi2)) by (eapply Rle_trans; [exact B2|apply bpow_le; lia]). lra. }
  destruct (rnd_rel z k _ _ A B H1 H2 (proj1 H3)) as (R1 & R2 & R3).
  pose proof (Bplus_correct 53 1024 Hprec Hmax mode_NE x u FX FU) as C1. pose proof (Bplus_correct 53 1024 Hprec Hmax mode_NE y w FY FW) as C2.
  change (SpecFloat.fexp 53 1024) with (FLT_exp (-1074) 53) in C1, C2. cbn [round_mode] in C1, C2. fold z in C1. rewrite EZ in C2.
  rewrite (no_ovf z hi) in C1 by (try exact B; lia).
  rewrite (no_ovf (z * bp k) (hi + k)) in C2 by (try (apply scaled_le; exact B); lia).
  destruct C1 as (V1 & F1 & G1). destruct C2 as (V2 & F2 & G2).
  assert (RC : Rcompare (z * bp k) 0 = Rcompare z 0).
  { pose proof (bpow_gt_0 radix2 k). destruct (Rcompare_spec z 0); [apply Rcompare_Lt|apply Rcompare_Eq|apply Rcompare_Gt]; nra. }
  unfold rel. rewrite F1, F2, V1, V2, G1, G2, RC, S1, S2. do 4 (split; auto).
Qed.
Lemma rel_sub k lo1 hi1 lo2 hi2 (x y u w : b64) : rel k lo1 hi1 x y -> rel k lo2 hi2 u w -> let lo := (Z.min lo1 lo2 - 52)%Z in let hi := (Z.max hi1 hi2 + 1)%Z in
  (-1022 <= lo)%Z -> (-1022 <= lo + k)%Z -> (-1022 <= hi <= 1023)%Z -> (-1022 <= hi + k <= 1023)%Z ->
  rel k lo hi (Bminus mode_NE x u) (Bminus mode_NE y w).
Proof.
  intros (FX & FY & E1 & S1 & A1 & B1) (FU & FW & E2 & S2 & A2 & B2) lo hi H1 H2 H3 H4.
  set (z := B2R x - B2R u).
  assert (EZ : B2R y - B2R w = z * bp k) by (rewrite E1, E2; unfold z; ring).
  assert (A : z = 0 \/ bp lo <= Rabs z).
  { assert (W1 : B2R x = 0 \/ bp (Z.min lo1 lo2) <= Rabs (B2R x)) by (destruct A1 as [|A1]; [left; auto|right; eapply Rle_trans; [apply bpow_le|exact A1]; lia]).
    assert (W2 : B2R u = 0 \/ bp (Z.min lo1 lo2) <= Rabs (B2R u)) by (destruct A2 as [|A2]; [left; auto|right; eapply Rle_trans; [apply bpow_le|exact A2]; lia]).
    destruct (multiple (B2R x) (Z.min lo1 lo2) (fin_fmt x)) as [n N]; [lia|exact W1|]. destruct (multiple (B2R u) (Z.min lo1 lo2) (fin_fmt u)) as [n' N']; [lia|exact W2|].
    unfold z. rewrite N, N', <- Rmult_minus_distr_r, <- minus_IZR. fold lo. destruct (Z.eq_dec (n - n') 0) as [->|NZ]; [left; ring|right].
    rewrite Rabs_mult, (Rabs_pos_eq (bp lo)) by apply bpow_ge_0. rewrite <- abs_IZR. assert (1 <= IZR (Z.abs (n - n'))) by (apply IZR_le; lia). pose proof (bpow_gt_0 radix2 lo). nra. }
  assert (B : Rabs z <= bp hi).
  { unfold z. unfold Rminus. eapply Rle_trans; [apply Rabs_triang|]. rewrite Rabs_Ropp. unfold hi. rewrite bpow_plus. change (bp 1) with 2.
    assert (Rabs (B2R x) <= bp (Z.max hi1 hi2)) by (eapply Rle_trans; [exact B1|apply bpow_le; lia]). assert (Rabs (B2R u) <= bp (Z.max hi1 hi2)) by (eapply Rle_trans; [exact B2|apply bpow_le; lia]). lra. }
  destruct (rnd_rel z k _ _ A B H1 H2 (proj1 H3)) as (R1 & R2 & R3).
  pose proof (Bminus_correct 53 1024 Hprec Hmax mode_NE x u FX FU) as C1. pose proof (Bminus_correct 53 1024 Hprec Hmax mode_NE y w FY FW) as C2.
  change (SpecFloat.fexp 53 1024) with (FLT_exp (-1074) 53) in C1, C2. cbn [round_mode] in C1, C2. fold z in C1. rewrite EZ in C2.
  rewrite (no_ovf z hi) in C1 by (try exact B; lia).
  rewrite (no_ovf (z * bp k) (hi + k)) in C2 by (try (apply scaled_le; exact B); lia).
  destruct C1 as (V1 & F1 & G1). destruct C2 as (V2 & F2 & G2).
  assert (RC : Rcompare (z * bp k) 0 = Rcompare z 0).
  { pose proof (bpow_gt_0 radix2 k). destruct (Rcompare_spec z 0); [apply Rcompare_Lt|apply Rcompare_Eq|apply Rcompare_Gt]; nra. }
  unfold rel. rewrite F1, F2, V1, V2, G1, G2, RC, S1, S2. do 4 (split; auto).
Qed.
Lemma rel_lt k lo1 hi1 lo2 hi2 (x y u w : b64) : rel k lo1 hi1 x y -> rel k lo2 hi2 u w -> Bltb y w = Bltb x u.
Proof.
  intros (FX & FY & E1 & S1 & _) (FU & FW & E2 & S2 & _). rewrite !Bltb_correct by auto. rewrite E1, E2. pose proof (bpow_gt_0 radix2 k).
  unfold Rlt_bool. replace (Rcompare (B2R x * bp k) (B2R u * bp k)) with (Rcompare (B2R x) (B2R u)); [reflexivity|]. symmetry. apply Rcompare_mult_r. exact H.
Qed.
