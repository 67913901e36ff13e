(** Covariances and semivariograms of the C++ variogram objects, after any history of setter calls. *)
From Coq Require Import ZArith List Bool Lia Reals Lra Psatz.
From Verif Require Import Base Arith RealArith M_Variogram M_Points S_Vario S_Points P_Vario P_VarioMore.
Import ListNotations.
Open Scope R_scope.

Definition positive (v : variogram Rarith) : Prop := 0 < (range_x v : R) /\ 0 < (range_y v : R) /\ 0 < (range_z v : R).

Lemma Rleb_false (x y : R) : Rleb x y = false -> y < x.
Proof. unfold Rleb. destruct (Rle_dec x y); [discriminate|lra]. Qed.
Lemma lit0 : @eq R (lit Rarith 0 0) 0.
Proof. change (@eq R (0 / 1) 0). lra. Qed.

Lemma positive_step v o : positive v -> positive (object v o).
Proof.
  intros [A [B C]]. unfold object.
  destruct (set1 v o) as [v'| | |] eqn:E; try (repeat split; assumption).
  destruct o; cbn [set1] in E; unfold SetAngles, RotateAngles, SetStdDev, SetRanges, LimitRangeX, LimitRangeY, LimitRangeZ, SetRangeX, SetRangeY, SetRangeZ in E;
    repeat match type of E with context [if ?b then _ else _] => let H := fresh "H" in destruct b eqn:H end; try discriminate;
    match type of E with Ok ?a = Ok _ => assert (E' : a = v') by congruence; rewrite <- E'; unfold positive end;
    repeat match goal with H : (_ || _)%bool = false |- _ => apply orb_false_iff in H; destruct H end;
    repeat match goal with H : fle Rarith _ _ = false |- _ => apply Rleb_false in H; rewrite lit0 in H end;
    cbn [EstimateFactors set_params range_x range_y range_z]; repeat split; assumption.
Qed.
Lemma positive_history os v : positive v -> positive (fold_left object os v).
Proof. revert v. induction os; cbn [fold_left]; auto. intros. apply IHos, positive_step. auto. Qed.

Lemma kind_step v (o : setter Rarith) : vt (object v o) = vt v /\ vpower (object v o) = vpower v.
Proof.
  unfold object. destruct (set1 v o) as [v'| | |] eqn:E; auto.
  destruct (set_effect v o v' E) as [? [? _]]. auto.
Qed.
Lemma kind_history os (v : variogram Rarith) : vt (fold_left object os v) = vt v /\ vpower (fold_left object os v) = vpower v.
Proof.
  revert v. induction os as [|o os IH]; cbn [fold_left]; auto. intros v. destruct (IH (object v o)) as [A B].
  destruct (kind_step v o) as [A' B']. split; [exact (eq_trans A A')|exact (eq_trans B B')].
Qed.

Lemma std_step v (o : setter Rarith) : match o with OStd s => @eq R (var (object v o)) (s * s) | _ => var (object v o) = var v end.
Proof.
  unfold object. destruct o; cbn [set1]; unfold SetAngles, RotateAngles, SetStdDev, SetRanges, LimitRangeX, LimitRangeY, LimitRangeZ, SetRangeX, SetRangeY, SetRangeZ;
    repeat match goal with |- context [if ?b then _ else _] => destruct b end; reflexivity.
Qed.
Lemma std_history os : forall (v : variogram Rarith) (std : R), @eq R (var v) (std * std) -> @eq R (var (fold_left object os v)) (last_std std os * last_std std os).
Proof.
  induction os as [|o os IH]; intros v std H; cbn [fold_left last_std]; auto.
  pose proof (std_step v o) as S. destruct o; (apply IH; rewrite S; try exact H; reflexivity).
Qed.

Section History.
Variables (t : vtype) (pw rx ry rz a d std : R) (v0 v : variogram Rarith) (os : list (setter Rarith)).
Hypothesis HC : @Create Rarith t pw rx ry rz a d std = Ok v0.
Hypothesis (Hx : 0 < rx) (Hy : 0 < ry) (Hz : 0 < rz) (Hp : 0 < pw).
Hypothesis Hv : v = fold_left object os v0.

Lemma made : exists pw', v0 = @new_variogram Rarith t pw' rx ry rz a d std /\ (t = GENERAL_EXPONENTIAL -> pw' = pw) /\ t <> N_TYPES.
Proof.
  unfold Create in HC.
  destruct t; try discriminate; match type of HC with Ok ?w = Ok _ => assert (E : w = v0) by congruence end;
    eexists; (split; [symmetry; exact E|split; [intros; congruence || reflexivity|discriminate]]).
Qed.
Lemma now : positive v /\ vt v = t /\ (t = GENERAL_EXPONENTIAL -> vpower v = pw) /\ t <> N_TYPES /\
  @eq R (var v) (last_std std os * last_std std os) /\
  exists s, v = @new_variogram Rarith t (vpower v) (range_x v) (range_y v) (range_z v) (azimuth v) (dip v) s.
Proof.
  destruct made as (pw' & E & Hpw & Hn). destruct (kind_history os v0) as [K1 K2]. rewrite <- Hv in K1, K2.
  assert (K3 : vt v = t) by (rewrite K1, E; reflexivity).
  split; [|split; [exact K3|split; [|split; [exact Hn|split]]]].
  - rewrite Hv. apply positive_history. rewrite E. repeat split; assumption.
  - intros T. rewrite K2, E. exact (Hpw T).
  - rewrite Hv. apply std_history. rewrite E. reflexivity.
  - assert (F : P_VarioMore.fresh v) by (rewrite Hv; apply fresh_history; rewrite E; apply fresh_new).
    destruct F as [s F]. exists s. rewrite K3 in F. exact F.
Qed.

Definition rho (x y z : R) : R := corr_fun t pw (ndist (range_x v) (range_y v) (range_z v) (azimuth v) (dip v) (x, y, z)).
Lemma corr_now x y z : @eq R (@GetCorr3 Rarith v x y z) (rho x y z).
Proof.
  destruct now as ((A & B & C) & Ht & Hpw & Hn & _ & s & E). unfold GetCorr3, rho.
  transitivity (corr_fun (vt v) (vpower v) (Distance3 v x y z)); [apply Corr1D_fun; apply sqrt_pos|].
  rewrite Ht, (corr_fun_power t (vpower v) pw) by exact Hpw. f_equal.
  exact (eq_trans (f_equal (fun w => @Distance3 Rarith w x y z) E)
    (Distance3_ndist t (vpower v) (range_x v) (range_y v) (range_z v) (azimuth v) (dip v) s
      (Rgt_not_eq _ _ A) (Rgt_not_eq _ _ B) (Rgt_not_eq _ _ C) x y z)).
Qed.
Lemma rho_bounds x y z : 0 <= rho x y z <= 1.
Proof. split; [apply corr_fun_nonneg|apply corr_fun_le1; [|exact Hp]]; apply ndist_nonneg. Qed.
Lemma rho_0 : rho 0 0 0 = 1.
Proof.
  destruct now as ((A & B & C) & _ & _ & Hn & _). unfold rho. rewrite <- (corr_fun_0 t pw Hn Hp). f_equal.
  pose proof (ndist_scale (range_x v) (range_y v) (range_z v) (azimuth v) (dip v) 0 (0, 0, 0)
     (Rgt_not_eq _ _ A) (Rgt_not_eq _ _ B) (Rgt_not_eq _ _ C)) as S.
  cbn [scale] in S. rewrite Rmult_0_r, Rabs_R0, Rmult_0_l in S. exact S.
Qed.

Let s := last_std std os.
Lemma c67_std : @eq R (GetStdDev v) (Rabs s).
Proof. destruct now as (_ & _ & _ & _ & E & _). unfold GetStdDev. change (sqrt (var v) = Rabs s). rewrite E. apply sqrt_Rsqr_abs. Qed.
Lemma c67_values x y z :
  @eq R (@GetCov3 Rarith v x y z) (s ^ 2 * rho x y z) /\ @eq R (@GetCov2 Rarith v x y) (s ^ 2 * rho x y 0) /\ @eq R (@GetCov1 Rarith v x) (s ^ 2 * rho x 0 0) /\
  @eq R (@GetVariogram3 Rarith v x y z) (s ^ 2 * (1 - rho x y z)) /\ @eq R (@GetVariogram2 Rarith v x y) (s ^ 2 * (1 - rho x y 0)) /\
  @eq R (@GetVariogram1 Rarith v x) (s ^ 2 * (1 - rho x 0 0)).
Proof.
  destruct now as (_ & _ & _ & _ & E & _). fold s in E.
  assert (C2 : @eq R (@GetCorr2 Rarith v x y) (rho x y 0)) by exact (eq_trans (corr2_3 v x y) (corr_now x y 0)).
  assert (C1 : @eq R (@GetCorr1 Rarith v x) (rho x 0 0)) by exact (eq_trans (eq_trans (corr1_2 v x) (corr2_3 v x 0)) (corr_now x 0 0)).
  pose proof (corr_now x y z) as C3.
  assert (L1 : @eq R (lit Rarith 1 0) 1) by (change (@eq R (1 / 1) 1); lra).
  unfold GetCov3, GetCov2, GetCov1, GetVariogram3, GetVariogram2, GetVariogram1. cbn [mul sub Rarith].
  change (mul Rarith) with Rmult. change (sub Rarith) with Rminus.
  repeat split; rewrite ?C3, ?C2, ?C1, E, ?L1; ring.
Qed.
Lemma c67_bounds x y z : @eq R (@GetVariogram3 Rarith v 0 0 0) 0 /\ 0 <= @GetVariogram3 Rarith v x y z <= s ^ 2 /\ 0 <= @GetCov3 Rarith v x y z <= s ^ 2 /\
  @eq R (@GetCov3 Rarith v 0 0 0) (s ^ 2).
Proof.
  destruct (c67_values x y z) as (E1 & _ & _ & E2 & _ & _). destruct (c67_values 0 0 0) as (F1 & _ & _ & F2 & _ & _).
  pose proof (rho_bounds x y z) as B. pose proof (pow2_ge_0 s) as P.
  rewrite rho_0 in F1, F2.
  assert (Z1 : s ^ 2 * (1 - 1) = 0) by ring. assert (Z2 : s ^ 2 * 1 = s ^ 2) by ring.
  split; [exact (eq_trans F2 Z1)|]. rewrite E1, E2. split; [nra|]. split; [nra|]. exact (eq_trans F1 Z2).
Qed.
Lemma rho_neg x y z : rho (- x) (- y) (- z) = rho x y z.
Proof.
  destruct now as ((A & B & C) & _). unfold rho. f_equal.
  pose proof (ndist_scale (range_x v) (range_y v) (range_z v) (azimuth v) (dip v) (-1) (x, y, z)
     (Rgt_not_eq _ _ A) (Rgt_not_eq _ _ B) (Rgt_not_eq _ _ C)) as S.
  cbn [scale] in S. rewrite (Rabs_left (-1)) in S by lra. 
  replace (- x) with (-1 * x) by ring. replace (- y) with (-1 * y) by ring. replace (- z) with (-1 * z) by ring. rewrite S. ring.
Qed.
(** the functions of two points *)
Lemma c67_points (x1 y1 z1 x2 y2 z2 : R) :
  @eq R (@GetCovpoint3 Rarith v x1 y1 z1 x2 y2 z2) (@GetCov3 Rarith v (x1 - x2) (y1 - y2) (z1 - z2)) /\
  @eq R (@GetCovpoint3 Rarith v x1 y1 z1 x2 y2 z2) (@GetCov3 Rarith v (x2 - x1) (y2 - y1) (z2 - z1)) /\
  @eq R (@GetCovpoint2 Rarith v x1 y1 x2 y2) (@GetCovpoint3 Rarith v x1 y1 0 x2 y2 0) /\
  @eq R (@GetCovpoint1 Rarith v x1 x2) (@GetCovpoint3 Rarith v x1 0 0 x2 0 0) /\
  @eq R (@GetCovpoint3 Rarith v x1 y1 z1 x2 y2 z2) (s ^ 2 * @GetCorrpoint3 Rarith v x1 y1 z1 x2 y2 z2) /\
  @eq R (@GetCorrpoint2 Rarith v x1 y1 x2 y2) (@GetCorrpoint3 Rarith v x1 y1 0 x2 y2 0) /\
  @eq R (@GetCorrpoint1 Rarith v x1 x2) (@GetCorrpoint3 Rarith v x1 0 0 x2 0 0).
Proof.
  destruct now as (_ & _ & _ & _ & E & _). fold s in E.
  assert (R3 : forall x y z : R, @eq R (@GetCov3 Rarith v x y z) (s ^ 2 * rho x y z)) by exact (fun x y z => proj1 (c67_values x y z)).
  assert (P3 : @eq R (@GetCovpoint3 Rarith v x1 y1 z1 x2 y2 z2) (@GetCov3 Rarith v (x2 - x1) (y2 - y1) (z2 - z1))) by reflexivity.
  assert (D2 : @eq R (@GetCorrpoint2 Rarith v x1 y1 x2 y2) (@GetCorrpoint3 Rarith v x1 y1 0 x2 y2 0)).
  { change (@eq R (@GetCorr2 Rarith v (x2 - x1) (y2 - y1)) (@GetCorr3 Rarith v (x2 - x1) (y2 - y1) (0 - 0))).
    rewrite Rminus_0_r. exact (corr2_3 v _ _). }
  assert (D1 : @eq R (@GetCorrpoint1 Rarith v x1 x2) (@GetCorrpoint3 Rarith v x1 0 0 x2 0 0)).
  { change (@eq R (@GetCorr1 Rarith v (x2 - x1)) (@GetCorr3 Rarith v (x2 - x1) (0 - 0) (0 - 0))).
    rewrite Rminus_0_r. exact (eq_trans (corr1_2 v _) (corr2_3 v _ _)). }
  split; [|split; [exact P3|split; [|split; [|split; [|split; [exact D2|exact D1]]]]]].
  - rewrite P3, (R3 (x1 - x2)), (R3 (x2 - x1)). f_equal.
    replace (x1 - x2) with (- (x2 - x1)) by ring. replace (y1 - y2) with (- (y2 - y1)) by ring. replace (z1 - z2) with (- (z2 - z1)) by ring. symmetry. apply rho_neg.
  - exact (f_equal (Rmult (var v)) D2).
  - exact (f_equal (Rmult (var v)) D1).
  - change (@eq R (var v * @GetCorr3 Rarith v (x2 - x1) (y2 - y1) (z2 - z1)) (s ^ 2 * @GetCorr3 Rarith v (x2 - x1) (y2 - y1) (z2 - z1))).
    rewrite E. ring.
Qed.
End History.
