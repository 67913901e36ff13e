(** Accuracy of correlations in double precision: distances without rotation. *)
From Coq Require Import ZArith Bool Lia Reals Lra String List.
From Flocq Require Import Core IEEE754.BinarySingleNaN.
From Verif Require Import Base Arith RealArith FloatArith M_Variogram S_Vario S_Random S_Normal P_NormF S_CorrF P_CorrF P_CorrF2 P_CorrF4 S_Accur P_Accur P_Accur2.
Import ListNotations.
Open Scope R_scope.

Definition szd (a b : Z) (e : R) : Prop := e = 0 \/ bpow radix2 a <= e <= bpow radix2 b.
Lemma szd_sized a b e : (-990 <= a)%Z -> (b <= 990)%Z -> szd a b e -> sized e.
Proof. intros A B [->|[L U]]; [left; reflexivity|right]. split; [apply Rle_trans with (2 := L)|apply Rle_trans with (1 := U)]; apply bpow_le; assumption. Qed.
Lemma szd_nn a b e : szd a b e -> 0 <= e. Proof. intros [->|[L _]]; [lra|]. pose proof (bpow_gt_0 radix2 a). lra. Qed.
Lemma szd_mult a b c d e g : szd a b e -> szd c d g -> szd (a + c) (b + d) (e * g).
Proof.
  intros [->|[A B]] [->|[C D]]; try (left; ring). right. pose proof (bpow_ge_0 radix2 a). pose proof (bpow_ge_0 radix2 c). rewrite !bpow_plus. split; apply Rmult_le_compat; lra.
Qed.
Lemma szd_plus a b e g : szd a b e -> szd a b g -> szd a (b + 1) (e + g).
Proof. intros E G. pose proof (szd_nn _ _ _ E). pose proof (szd_nn _ _ _ G). pose proof (bpow_gt_0 radix2 b). unfold szd. rewrite bp1. destruct E as [->|[A B]], G as [->|[C D]]; [left; ring|right; lra|right; lra|right; lra]. Qed.
Lemma szd_weak a b c d e : (c <= a)%Z -> (b <= d)%Z -> szd a b e -> szd c d e.
Proof. intros A B [->|[L U]]; [left; reflexivity|right]. split; [apply Rle_trans with (2 := L)|apply Rle_trans with (1 := U)]; apply bpow_le; assumption. Qed.
Lemma szd_sqrt a b e : szd (a + a) (b + b) e -> szd a b (sqrt e).
Proof.
  intros [->|[A B]]; [left; apply sqrt_0|right].
  assert (Q : forall z, sqrt (bpow radix2 (z + z)) = bpow radix2 z) by (intros z; rewrite bpow_plus; apply sqrt_square, bpow_ge_0).
  rewrite <- (Q a), <- (Q b). split; apply sqrt_le_1_alt; assumption.
Qed.

(** the sum of squares of the coordinates in ranges *)
Definition fc (r : b64) : R := / (B2R r * B2R r).
Definition tm (r x : b64) : R := fc r * Rabs (B2R x) * Rabs (B2R x).
Lemma mod_pos r : moderate r -> 0 < B2R r. Proof. intros [_ [A _]]. pose proof (bpow_gt_0 radix2 (-200)). lra. Qed.
Lemma fc_size r : moderate r -> szd (-400) 400 (fc r).
Proof.
  intros H. pose proof (mod_pos r H) as P. destruct H as [_ [A B]]. right. unfold fc.
  assert (Q : bpow radix2 (-400) <= B2R r * B2R r <= bpow radix2 400).
  { change (-400)%Z with (-200 + -200)%Z. change 400%Z with (200 + 200)%Z. pose proof (bpow_ge_0 radix2 (-200)). rewrite !bpow_plus. split; apply Rmult_le_compat; lra. }
  pose proof (bpow_gt_0 radix2 (-400)). change (-400)%Z with (- (400))%Z at 1. change 400%Z with (- -400)%Z at 2. rewrite !bpow_opp. split; apply Rinv_le_contravar; lra.
Qed.
Lemma lag_size x : moderate_lag x -> szd (-200) 200 (Rabs (B2R x)).
Proof. intros [_ [E|E]]; [left; rewrite E; apply Rabs_R0|right; exact E]. Qed.
Lemma tm_size r x : moderate r -> moderate_lag x -> szd (-600) 600 (fc r * Rabs (B2R x)) /\ szd (-800) 800 (tm r x).
Proof. intros R X. pose proof (szd_mult _ _ _ _ _ _ (fc_size r R) (lag_size x X)) as Q. split; [exact Q|]. exact (szd_mult _ _ _ _ _ _ Q (lag_size x X)). Qed.
Lemma acc_fac r : moderate r -> acc 3 (Bdiv mode_NE (Flit 1 0) (Bm r r)) (fc r).
Proof.
  intros H. pose proof (mod_pos r H) as P. pose proof (fc_size r H) as S. destruct H as [Fr [A B]].
  assert (R0 : acc 0 r (B2R r)) by (apply acc_exact; [split; [exact Fr|reflexivity]|lra]).
  assert (SQ : sized (B2R r * B2R r)).
  { right. pose proof (bpow_ge_0 radix2 (-200)). split.
    - apply Rle_trans with (bpow radix2 (-200 + -200)); [apply bpow_le; lia|]. rewrite bpow_plus. apply Rmult_le_compat; lra.
    - apply Rle_trans with (bpow radix2 (200 + 200)); [|apply bpow_le; lia]. rewrite bpow_plus. apply Rmult_le_compat; lra. }
  pose proof (acc_mult 0 0 r r _ _ ltac:(lia) SQ R0 R0) as M. pose proof (acc_exact _ _ l1 ltac:(lra)) as O.
  unfold fc. rewrite <- (Rmult_1_l (/ (B2R r * B2R r))). apply (acc_div 0 1); [lia|lia|nra| |exact O|exact M].
  rewrite Rmult_1_l. apply (szd_sized (-400) 400); [lia|lia|exact S].
Qed.
Lemma acc_tm r x : moderate r -> moderate_lag x -> forall f, acc 3 f (fc r) -> acc 5 (Bm (Bm f x) x) (tm r x).
Proof.
  intros R X f A. destruct (tm_size r x R X) as [S1 S2]. apply (acc_term 3 f (fc r) x); [lia|exact A|apply X| |].
  - apply (szd_sized (-600) 600); [lia|lia|exact S1].
  - apply (szd_sized (-800) 800); [lia|lia|exact S2].
Qed.
Lemma zero_fin (q : b64) : is_zero q -> fin q = true. Proof. intros [b ->]. reflexivity. Qed.
Ltac zr := lazymatch goal with
  | |- is_zero (Bplus _ _ _) => apply plus_zeros; zr
  | |- is_zero (Bminus _ _ _) => apply minus_zeros; zr
  | |- is_zero (Bm _ _) => first [apply mult_zero_l; [zr|fz] | apply mult_zero_r; [zr|fz]]
  | |- _ => assumption
  end
with fz := first [assumption | apply zero_fin; zr].
Section Dist.
Variable m : libm.
Hypothesis T : trig_rounded m.
Notation F := (Farith m).
Variable v0 : variogram F.
Hypothesis AZ : azimuth v0 = Flit 0 0.
Hypothesis DP : dip v0 = Flit 0 0.
Hypothesis RX : moderate (range_x v0).
Hypothesis RY : moderate (range_y v0).
Hypothesis RZ : moderate (range_z v0).
Notation v := (EstimateFactors v0).
Lemma one_one : Bm (Flit 1 0) (Flit 1 0) = Flit 1 0. Proof. apply B2SF_inj. vm_compute. reflexivity. Qed.
Lemma zero_is s : is_zero (B754_zero s). Proof. eexists. reflexivity. Qed.
Lemma unrotated_factors : acc 3 (txx v) (fc (range_x v0)) /\ acc 3 (tyy v) (fc (range_y v0)) /\ acc 3 (tzz v) (fc (range_z v0)) /\
  is_zero (txy v) /\ is_zero (txz v) /\ is_zero (tyz v).
Proof.
  unfold EstimateFactors. cbn [txx tyy tzz txy txz tyz]. rewrite AZ, DP. cbn [fsin fcos mul add sub div lit Farith].
  pose proof (acc_fac _ RX) as A1. pose proof (acc_fac _ RY) as A2. pose proof (acc_fac _ RZ) as A3.
  pose proof (cos0 m T) as C0. destruct (sin0 m T) as [s S0]. unfold Farith; cbn [fsin fcos]. rewrite C0, S0.
  pose proof (proj1 A1) as F1. pose proof (proj1 A2) as F2. pose proof (proj1 A3) as F3. pose proof (zero_is s) as Z. pose proof (proj1 l1) as FO. pose proof (proj1 l2) as FT.
  assert (FZ : fin (B754_zero s : b64) = true) by reflexivity. rewrite !one_one.
  generalize dependent (B754_zero s : b64). intros z _ Z FZ.
  split; [|split; [|split; [|split; [|split]]]].
  - apply acc_plus0; [apply acc_plus0; [apply acc_1mult; exact A1|zr]|zr].
  - apply acc_plus0; [apply acc_0plus; [apply acc_1mult; exact A2|zr]|zr].
  - apply acc_0plus; [apply acc_1mult; exact A3|zr].
  - zr.
  - zr.
  - zr.
Qed.
Lemma sum2_size x y : moderate_lag x -> moderate_lag y -> szd (-800) 801 (tm (range_x v0) x + tm (range_y v0) y).
Proof. intros X Y. apply (szd_plus (-800) 800); apply tm_size; assumption. Qed.
Lemma sum3_size x y z : moderate_lag x -> moderate_lag y -> moderate_lag z -> szd (-800) 802 (tm (range_x v0) x + tm (range_y v0) y + tm (range_z v0) z).
Proof. intros X Y Z. apply (szd_plus (-800) 801); [apply sum2_size; assumption|]. apply (szd_weak (-800) 800); [lia|lia|]. apply tm_size; assumption. Qed.
Lemma cross_zero (t x y : b64) : is_zero t -> fin x = true -> fin y = true -> is_zero (Bm (Bm t x) y).
Proof. intros A B C. zr. Qed.
Lemma dist1_acc x : moderate_lag x -> acc 5 (@Distance1 F v x) (sqrt (tm (range_x v0) x)).
Proof.
  intros X. destruct unrotated_factors as (A1 & _). pose proof (acc_tm _ x RX X _ A1) as Q. unfold Distance1. cbn [fsqrt mul Farith].
  apply (acc_sqrt 4); [lia| |apply (acc_weak 5); [lia|exact Q]].
  apply (szd_sized (-400) 400); [lia|lia|]. apply szd_sqrt. apply tm_size; assumption.
Qed.
Lemma dist2_acc x y : moderate_lag x -> moderate_lag y -> acc 5 (@Distance2 F v x y) (sqrt (tm (range_x v0) x + tm (range_y v0) y)).
Proof.
  intros X Y. destruct unrotated_factors as (A1 & A2 & _ & Z & _). pose proof (acc_tm _ x RX X _ A1) as Q1. pose proof (acc_tm _ y RY Y _ A2) as Q2.
  pose proof (sum2_size x y X Y) as S. unfold Distance2. cbn [fsqrt mul add Farith].
  apply (acc_sqrt 4); [lia| |].
  - apply (szd_sized (-401) 401); [lia|lia|]. apply szd_sqrt. apply (szd_weak (-800) 801); [lia|lia|exact S].
  - apply (acc_weak 6); [lia|]. apply acc_plus0; [|apply cross_zero; [exact Z|apply X|apply Y]].
    apply (acc_plus 5); [lia| |exact Q1|exact Q2]. apply (szd_sized (-800) 801); [lia|lia|exact S].
Qed.
Lemma dist3_acc x y z : moderate_lag x -> moderate_lag y -> moderate_lag z ->
  acc 5 (@Distance3 F v x y z) (sqrt (tm (range_x v0) x + tm (range_y v0) y + tm (range_z v0) z)).
Proof.
  intros X Y Z. destruct unrotated_factors as (A1 & A2 & A3 & Z1 & Z2 & Z3). pose proof (acc_tm _ x RX X _ A1) as Q1. pose proof (acc_tm _ y RY Y _ A2) as Q2.
  pose proof (acc_tm _ z RZ Z _ A3) as Q3. pose proof (sum2_size x y X Y) as S2. pose proof (sum3_size x y z X Y Z) as S3.
  unfold Distance3. cbn [fsqrt mul add Farith]. apply (acc_sqrt 4); [lia| |].
  - apply (szd_sized (-401) 401); [lia|lia|]. apply szd_sqrt. apply (szd_weak (-800) 802); [lia|lia|exact S3].
  - apply (acc_weak 7); [lia|].
    apply acc_plus0; [|apply cross_zero; [exact Z3|apply Y|apply Z]]. apply acc_plus0; [|apply cross_zero; [exact Z2|apply X|apply Z]]. apply acc_plus0; [|apply cross_zero; [exact Z1|apply X|apply Y]].
    apply (acc_plus 6); [lia|apply (szd_sized (-800) 802); [lia|lia|exact S3]| |apply (acc_weak 5); [lia|exact Q3]].
    apply (acc_plus 5); [lia|apply (szd_sized (-800) 801); [lia|lia|exact S2]|exact Q1|exact Q2].
Qed.
End Dist.
