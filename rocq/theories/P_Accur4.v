(** Accuracy of correlations in double precision: the correlation functions. *)
From Coq Require Import ZArith QArith Qreals Bool Lia Reals Lra String List.
From Flocq Require Import Core IEEE754.BinarySingleNaN.
From Verif Require Import Base Arith RealArith FloatArith M_Variogram S_Vario S_Random S_Normal P_QBounds P_NormF S_CorrF P_CorrF P_CorrF2 P_CorrF4 P_CorrF5 S_Accur P_Accur P_Accur2 P_Accur3.
Import ListNotations.
Open Scope R_scope.

(** functions that change little when the argument changes relatively little *)
Definition slow (f f' : R -> R) : Prop := forall c, 0 < c -> derivable_pt_lim f c (f' c) /\ Rabs (c * f' c) <= 1.
Lemma slow_close f f' n s t : slow f f' -> (n <= 20)%nat -> close n t s -> Rabs (f t - f s) <= 6 / 5 * INR n * u53.
Proof.
  intros H N C. pose proof u53_small as U. assert (NN : 0 <= INR n <= 20) by (split; [apply pos_INR|rewrite INR_IZR_INZ; apply IZR_le; lia]).
  assert (NU : 0 <= INR n * u53 <= 1 / 100) by (split; nra).
  destruct C as (S0 & A & B). destruct S0 as [S0|<-]; [|rewrite !Rmult_0_r in *; replace t with 0 by lra; rewrite Rminus_diag_eq, Rabs_R0 by reflexivity; lra].
  pose proof (dn_bound n) as D. pose proof (up_bound n ltac:(lia)) as E. set (q := INR n * u53) in *.
  replace (11 / 10 * INR n * u53) with (11 / 10 * q) in E by (unfold q; ring). replace (6 / 5 * INR n * u53) with (6 / 5 * q) by (unfold q; ring).
  assert (T1 : s * (1 - q) <= t) by nra. assert (T2 : t <= s * (1 + 11 / 10 * q)) by nra. clear A B D E.
  assert (T0 : 99 / 100 * s <= t) by nra.
  assert (G : forall a b, a < b -> 99 / 100 * s <= a -> b - a <= 11 / 10 * q * s -> Rabs (f b - f a) <= 6 / 5 * q).
  { intros a b L LA LB. destruct (MVT_cor2 f f' a b L) as (c & E & Cc); [intros c Cc; apply H; lra|].
    destruct (H c ltac:(lra)) as [_ K]. rewrite E, Rabs_mult, (Rabs_right (b - a)) by lra. rewrite Rabs_mult, (Rabs_right c) in K by lra. pose proof (Rabs_pos (f' c)) as P.
    assert (SF : s * Rabs (f' c) <= 100 / 99) by nra.
    apply Rle_trans with (Rabs (f' c) * (11 / 10 * q * s)); [apply Rmult_le_compat_l; lra|].
    replace (Rabs (f' c) * (11 / 10 * q * s)) with (11 / 10 * q * (s * Rabs (f' c))) by ring. nra. }
  destruct (Rtotal_order t s) as [L|[->|L]].
  - rewrite Rabs_minus_sym. apply G; [exact L|exact T0|nra].
  - rewrite Rminus_diag_eq, Rabs_R0 by reflexivity. lra.
  - apply G; [exact L|lra|nra].
Qed.

(** bounds on exp *)
Lemma exp1_b : 27 / 10 <= exp 1 <= 4.
Proof.
  pose proof (exp_between 1 1 (QArith_base.Qmake 27 10) (QArith_base.Qmake 4 1) 8 1 ltac:(vm_compute; reflexivity)) as H. replace (IZR 1 / IZR 1) with 1 in H by lra.
  unfold Q2R in H. cbn [QArith_base.Qnum QArith_base.Qden] in H. lra.
Qed.
Lemma exp_lin x : 0 <= x -> 27 / 10 * x <= exp x.
Proof.
  intros X. replace (exp x) with (exp 1 * exp (x - 1)) by (rewrite <- exp_plus; f_equal; ring). pose proof exp1_b. pose proof (exp_ineq1_le (x - 1)) as Q. pose proof (exp_pos (x - 1)). nra.
Qed.
Lemma exp_sq x : 0 <= x -> x ^ 2 <= 55 / 100 * exp x.
Proof.
  intros X. pose proof (exp_lin (x / 2) ltac:(lra)) as H. replace (exp x) with (exp (x / 2) * exp (x / 2)) by (rewrite <- exp_plus; f_equal; lra).
  set (e := exp (x / 2)) in *. assert (27 / 20 * x <= e) by lra. nra.
Qed.
Lemma exp_cube x : 0 <= x -> x ^ 3 <= 138 / 100 * exp x.
Proof.
  intros X. pose proof (exp_lin (x / 3) ltac:(lra)) as H. replace (exp x) with (exp (x / 3) * exp (x / 3) * exp (x / 3)) by (rewrite <- !exp_plus; f_equal; lra).
  set (e := exp (x / 3)) in *. assert (E : 9 / 10 * x <= e) by lra. assert (E2 : (9 / 10 * x) * (9 / 10 * x) <= e * e) by nra. 
  assert (E3 : (9 / 10 * x) * (9 / 10 * x) * (9 / 10 * x) <= e * e * e) by (apply Rmult_le_compat; nra). nra.
Qed.
Lemma exp_pow2 z : (0 <= z)%Z -> bpow radix2 z <= exp (IZR z) <= bpow radix2 (2 * z).
Proof.
  intros H. pattern z. apply natlike_ind; [cbn; rewrite exp_0; lra| |exact H]. intros y Y [A B].
  pose proof (bpow_gt_0 radix2 y). pose proof (bpow_gt_0 radix2 (2 * y)). pose proof (exp_pos (IZR y)). pose proof exp1_b.
  replace (2 * Z.succ y)%Z with (2 * y + 2)%Z by lia. unfold Z.succ. rewrite plus_IZR, exp_plus, !bpow_plus. change (bpow radix2 1) with 2. change (bpow radix2 2) with 4. split; nra.
Qed.
Lemma exp_m_le x z : (0 <= z)%Z -> IZR z <= x -> exp (- x) <= bpow radix2 (- z).
Proof.
  intros H L. rewrite exp_Ropp, bpow_opp. apply Rinv_le_contravar; [apply bpow_gt_0|]. apply Rle_trans with (1 := proj1 (exp_pow2 z H)).
  destruct L as [L| <-]; [left; apply exp_increasing, L|lra].
Qed.
Lemma exp_m_ge x z : (0 <= z)%Z -> x <= IZR z -> bpow radix2 (- (2 * z)) <= exp (- x).
Proof.
  intros H L. rewrite exp_Ropp, bpow_opp. apply Rinv_le_contravar; [apply exp_pos|]. apply Rle_trans with (2 := proj2 (exp_pow2 z H)).
  destruct L as [L| ->]; [left; apply exp_increasing, L|lra].
Qed.
Lemma exp_neg_le1 x : 0 <= x -> 0 < exp (- x) <= 1.
Proof. intros H. split; [apply exp_pos|]. rewrite <- exp_0. destruct H as [H| <-]; [left; apply exp_increasing; lra|rewrite Ropp_0; lra]. Qed.

(** the three functions *)
Lemma d_expm c : derivable_pt_lim (fun t => exp (- t)) c (- exp (- c)).
Proof.
  replace (- exp (- c)) with (exp (- c) * - 1) by ring. apply (derivable_pt_lim_comp (fun t => - t) exp c); [|apply derivable_pt_lim_exp].
  replace (-1) with (- (1)) by ring. apply derivable_pt_lim_opp, derivable_pt_lim_id.
Qed.
Lemma exp_cancel c : exp (- c) * exp c = 1. Proof. rewrite <- exp_plus, Rplus_opp_l, exp_0. reflexivity. Qed.
Lemma slow_from f f' : (forall c, 0 < c -> derivable_pt_lim f c (f' c)) -> (forall c, 0 < c -> exists g, f' c = - (exp (- c) * g) /\ 0 <= c * g <= exp c) -> slow f f'.
Proof.
  intros D H c C. split; [apply D, C|]. destruct (H c C) as (g & -> & G0 & G1). pose proof (exp_cancel c) as X. pose proof (exp_pos (- c)) as P.
  replace (c * - (exp (- c) * g)) with (- (exp (- c) * (c * g))) by ring. rewrite Rabs_Ropp, Rabs_right by (apply Rle_ge; nra). nra.
Qed.
Lemma slow_exp : slow (fun t => exp (- t)) (fun t => - exp (- t)).
Proof. apply slow_from; [intros c _; apply d_expm|]. intros c C. exists 1. split; [ring|]. pose proof (exp_ineq1_le c). lra. Qed.
Definition p32 (s : R) : R := 1 + s.
Definition p52 (s : R) : R := 1 + s + s * s * / 3.
Lemma slow_32 : slow (fun s => exp (- s) * p32 s) (fun s => - exp (- s) * p32 s + exp (- s) * (0 + 1)).
Proof.
  apply slow_from.
  - intros c _. apply (derivable_pt_lim_mult (fun t => exp (- t)) p32); [apply d_expm|]. unfold p32. apply (derivable_pt_lim_plus (fun _ => 1) id); [apply derivable_pt_lim_const|apply derivable_pt_lim_id].
  - intros c C. exists c. split; [unfold p32; ring|]. pose proof (exp_sq c ltac:(lra)). pose proof (exp_pos c). nra.
Qed.
Lemma slow_52 : slow (fun s => exp (- s) * p52 s) (fun s => - exp (- s) * p52 s + exp (- s) * (0 + 1 + (1 * s + s * 1) * / 3)).
Proof.
  apply slow_from.
  - intros c _. apply (derivable_pt_lim_mult (fun t => exp (- t)) p52); [apply d_expm|]. unfold p52.
    apply (derivable_pt_lim_plus (fun s => 1 + s) (fun s => s * s * / 3)).
    + apply (derivable_pt_lim_plus (fun _ => 1) id); [apply derivable_pt_lim_const|apply derivable_pt_lim_id].
    + replace ((1 * c + c * 1) * / 3) with ((1 * c + c * 1) * / 3 + (c * c) * 0) by ring.
      apply (derivable_pt_lim_mult (fun s => s * s) (fun _ => / 3)); [|apply derivable_pt_lim_const].
      apply (derivable_pt_lim_mult id id); apply derivable_pt_lim_id.
  - intros c C. exists ((c + c ^ 2) / 3). split; [unfold p52; field|]. pose proof (exp_sq c ltac:(lra)). pose proof (exp_cube c ltac:(lra)). pose proof (exp_pos c).
    assert (0 <= c ^ 3) by (apply pow_le; lra). replace (c * ((c + c ^ 2) / 3)) with ((c ^ 2 + c ^ 3) / 3) by field. nra.
Qed.
