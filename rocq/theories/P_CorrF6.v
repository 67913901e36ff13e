(** The correlation, in exact arithmetic, of the rotated variogram for which doubles give a NaN distance. *)
From Coq Require Import ZArith QArith Qreals Bool Lia Reals Lra String List.
From Verif Require Import Base Arith RealArith M_Variogram S_Vario P_RBounds P_QBounds P_Vario P_VarioNames P_VarioMore P_Special2 P_CorrF4.
Import ListNotations.
Open Scope R_scope.

Lemma angle45 : radians 45 = Q2R (45 * 1745329251994329576924 # 100000000000000000000000).
Proof. unfold radians, Degree. cbn [lit Rarith]. unfold Q2R. cbn [Qnum Qden]. rewrite mult_IZR. change (10 ^ 23)%Z with 100000000000000000000000%Z. unfold Rdiv. ring. Qed.
Lemma exact_45 s v : lower s = "spherical"%string -> @CreateVariogram Rarith s 1000000000 3 (-1) 45 0 (15 / 10) = Ok v -> 999 / 1000 <= @GetCorr2 Rarith v 3 3.
Proof.
  intros Hs H. pose proof (created_type s 1000000000 3 (-1) 45 0 (15 / 10) v "spherical"%string SPHERICAL H ltac:(cbn; tauto) Hs) as T.
  destruct (created_corr s 1000000000 3 (-1) 45 0 (15 / 10) v H ltac:(lra) ltac:(lra) ltac:(lra) ltac:(lra)) as [_ C].
  rewrite corr2_3, C, T. cbn [corr_fun].
  set (q := (45 * 1745329251994329576924 # 100000000000000000000000)%Q).
  pose proof (sin_between q (70710 # 100000) (70711 # 100000) 1 ltac:(vm_compute; discriminate) ltac:(vm_compute; discriminate) ltac:(vm_compute; reflexivity) ltac:(vm_compute; reflexivity)) as S.
  pose proof (cos_between q (70710 # 100000) (70711 # 100000) 1 ltac:(vm_compute; discriminate) ltac:(vm_compute; discriminate) ltac:(vm_compute; reflexivity) ltac:(vm_compute; reflexivity)) as K.
  unfold q in *. rewrite <- angle45 in S, K. rewrite !q2r' in S, K.
  set (d := ndist _ _ _ _ _ _).
  assert (D : 0 <= d <= 1 / 10000).
  { unfold d, ndist, or_main. destruct (Rlt_dec 3 0); [lra|]. destruct (Rlt_dec (-1) 0); [|lra].
    assert (Z : radians 0 = 0) by (unfold radians; ring). rewrite Z. unfold main_axis, perp_axis, third_axis, dot. rewrite cos_0, sin_0.
    split; [apply sqrt_pos|]. set (a := sin (radians 45)) in *. set (b := cos (radians 45)) in *.
    rewrite <- (sqrt_pow2 (1 / 10000)) by lra. apply sqrt_le_1_alt.
    assert (X : - (1 / 100000) <= (1 * b * 3 + 1 * a * 3 + 0 * 0) / 1000000000 <= 1 / 100000) by lra.
    assert (Y : - (1 / 100000) <= (- a * 3 + b * 3 + 0 * 0) / 3 <= 1 / 100000) by lra.
    assert (W : (- (0 * b) * 3 + - (0 * a) * 3 + 1 * 0) / 1000000000 = 0) by (field; lra).
    rewrite W.
    set (p := (1 * b * 3 + 1 * a * 3 + 0 * 0) / 1000000000) in *. set (r1 := (- a * 3 + b * 3 + 0 * 0) / 3) in *.
    assert (P2 : p ^ 2 <= (1 / 100000) ^ 2) by (rewrite <- !Rsqr_pow2; apply neg_pos_Rsqr_le; lra).
    assert (R2 : r1 ^ 2 <= (1 / 100000) ^ 2) by (rewrite <- !Rsqr_pow2; apply neg_pos_Rsqr_le; lra).
    lra. }
  destruct (Rlt_dec d 1); [|lra]. assert (0 <= d ^ 3) by (apply pow_le; lra). lra.
Qed.
