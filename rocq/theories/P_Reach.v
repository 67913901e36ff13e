(** Smoothing of rotated variograms: which length the parameter refers to. *)
From Coq Require Import ZArith QArith Qreals List Bool String Lia Reals Lra Psatz.
From Verif Require Import Base Arith RealArith M_Variogram M_Grid M_CovGrid S_CovGrid S_Vario S_Reach P_Base P_Bounds P_Cov P_Vario P_VarioNames P_VarioMore P_VarioKernel P_VarioTables.
Import ListNotations.
Open Scope R_scope.

Lemma Rabs_le_inv x y : Rabs x <= y -> - y <= x <= y.
Proof. intros H. pose proof (Rle_abs x). pose proof (Rle_abs (- x)). rewrite Rabs_Ropp in H1. lra. Qed.
Lemma Rmax_near a b a' b' e : Rabs (a - a') <= e -> Rabs (b - b') <= e -> Rabs (Rmax a b - Rmax a' b') <= e.
Proof. intros A B. apply Rabs_le_inv in A, B. apply Rabs_le. unfold Rmax. destruct (Rle_dec a b), (Rle_dec a' b'); lra. Qed.
Lemma Rabs_near a b : Rabs (Rabs a - Rabs b) <= Rabs (a - b).
Proof. apply Rabs_le. pose proof (Rabs_triang (a - b) b). pose proof (Rabs_triang (b - a) a). rewrite (Rabs_minus_sym b a) in H0.
  replace (a - b + b) with a in H by ring. replace (b - a + a) with b in H0 by ring. lra. Qed.
(** the 1.57 of the code for a quarter turn *)
Lemma cos_quarter a : Rabs (cos (a + qt) - - sin a) <= 1 / 1000.
Proof.
  pose proof cos_qt as C. destruct sin_qt as [S _]. pose proof (sc2 qt) as Q. pose proof (SIN_bound a). pose proof (COS_bound a).
  rewrite cos_plus. apply Rabs_le. 
  assert (T : 0 <= 1 - sin qt <= 1 / 100000) by nra.
  assert (Rabs (cos a * cos qt) <= 8 / 10000). { rewrite Rabs_mult. rewrite (Rabs_pos_eq (cos qt)) by lra. assert (Rabs (cos a) <= 1) by (apply Rabs_le; lra). pose proof (Rabs_pos (cos a)). nra. }
  apply Rabs_le_inv in H1. assert (Rabs (sin a * (1 - sin qt)) <= 1 / 100000).
  { rewrite Rabs_mult. rewrite (Rabs_pos_eq (1 - sin qt)) by lra. assert (Rabs (sin a) <= 1) by (apply Rabs_le; lra). pose proof (Rabs_pos (sin a)). nra. }
  apply Rabs_le_inv in H2. lra.
Qed.
Lemma sin_quarter a : Rabs (sin (a + qt) - cos a) <= 1 / 1000.
Proof.
  pose proof (cos_quarter (a - PI / 2)) as H. replace (a - PI / 2 + qt) with (- (PI / 2 - (a + qt))) in H by ring.
  rewrite cos_neg, cos_shift in H. replace (a - PI / 2) with (- (PI / 2 - a)) in H by ring. rewrite sin_neg, sin_shift in H.
  replace (sin (a + qt) - cos a) with (sin (a + qt) - - - cos a) by ring. exact H.
Qed.
Lemma proj_near r x y e : 0 < r -> Rabs (x - y) <= e -> Rabs (Rabs (r * x) - r * Rabs y) <= r * e.
Proof.
  intros R0 H. rewrite <- (Rabs_pos_eq r) at 2 by lra. rewrite <- Rabs_mult. eapply Rle_trans; [apply Rabs_near|].
  rewrite <- Rmult_minus_distr_l, Rabs_mult, Rabs_pos_eq by lra. apply Rmult_le_compat_l; lra.
Qed.
Lemma prod_near x y u e : 0 <= e -> Rabs u <= 1 -> Rabs (x - - y) <= e -> Rabs (x * u - - (y * u)) <= e.
Proof. intros E0 U H. replace (x * u - - (y * u)) with ((x - - y) * u) by ring. rewrite Rabs_mult. pose proof (Rabs_pos u). pose proof (Rabs_pos (x - - y)). nra. Qed.
Lemma weaken x e e' : e <= e' -> Rabs x <= e -> Rabs x <= e'. Proof. lra. Qed.

Lemma ranges_reach t pw rx ry rz a d std x y z : 0 < rx -> 0 < ry -> 0 < rz ->
  @FindVariogramRanges Rarith (@new_variogram Rarith t pw rx ry rz a d std) = (x, y, z) ->
  Rabs (x - reach_x rx ry rz a d) <= (ry + rz) / 1000 /\ Rabs (y - reach_y rx ry rz a d) <= (ry + rz) / 1000 /\ Rabs (z - reach_z rx rz d) <= rz / 1000.
Proof.
  intros X Y Z. rewrite ranges_R. intros [= <- <- <-]. unfold reach_x, reach_y, reach_z.
  assert (Cs : forall u, Rabs (cos u) <= 1) by (intros; apply Rabs_le; pose proof (COS_bound u); lra).
  assert (Sn : forall u, Rabs (sin u) <= 1) by (intros; apply Rabs_le; pose proof (SIN_bound u); lra).
  assert (N : forall u, Rabs (- u) = Rabs u) by apply Rabs_Ropp.
  assert (E0 : forall r c, 0 < r -> Rabs (Rabs (r * c) - r * Rabs c) <= 0).
  { intros r c Hr. rewrite Rabs_mult, (Rabs_pos_eq r) by lra. rewrite Rminus_diag_eq by reflexivity. rewrite Rabs_R0. lra. }
  repeat split.
  - repeat apply Rmax_near.
    + rewrite Rmult_assoc. eapply weaken; [|apply E0; exact X]. lra.
    + rewrite <- (N (sin a)). eapply weaken; [|apply proj_near; [exact Y|apply cos_quarter]]. lra.
    + rewrite Rmult_assoc, <- (N (sin d * cos a)). eapply weaken; [|apply proj_near; [exact Z|apply prod_near; [|apply Cs|apply cos_quarter]; lra]]. lra.
  - repeat apply Rmax_near.
    + rewrite Rmult_assoc. eapply weaken; [|apply E0; exact X]. lra.
    + eapply weaken; [|apply proj_near; [exact Y|apply sin_quarter]]. lra.
    + rewrite Rmult_assoc, <- (N (sin d * sin a)). eapply weaken; [|apply proj_near; [exact Z|apply prod_near; [|apply Sn|apply cos_quarter]; lra]]. lra.
  - replace (Rmax (Rabs (rx * sin d)) 0) with (Rabs (rx * sin d)) by (unfold Rmax; destruct (Rle_dec _ _); pose proof (Rabs_pos (rx * sin d)); lra).
    apply Rmax_near.
    + eapply weaken; [|apply E0; exact X]. lra.
    + eapply weaken; [|apply proj_near; [exact Z|apply sin_quarter]]. lra.
Qed.
Lemma kernel_damp s r l c : 0 < s -> r <> 0 -> @kernel Rarith s (Rpow s (1 / (r * r))) l c = c * damp s r l.
Proof.
  intros S R0. unfold damp. destruct (Rlt_dec s (99999 / 100000)) as [H|H].
  - rewrite kernel_on by exact H. rewrite factor by exact S. do 2 f_equal. field. exact R0.
  - rewrite kernel_off by lra. symmetry. exact (Rmult_1_r c).
Qed.

Lemma c41_rotated s main perp depth azi dp pw v : @CreateVariogram Rarith s main perp depth azi dp pw = Ok v ->
  0 < main -> perp <> 0 -> depth <> 0 -> 0 < pw ->
  let p := or_main main perp in let q := or_main main depth in let a := radians azi in let d := radians dp in
  exists rx ry rz, 0 < rx /\ 0 < ry /\ 0 < rz /\
    Rabs (rx - reach_x main p q a d) <= (p + q) / 1000 /\ Rabs (ry - reach_y main p q a d) <= (p + q) / 1000 /\ Rabs (rz - reach_z main q d) <= q / 1000 /\
    forall nx dx ny dy nz dz sx sy sz, 0 < sx -> 0 < sy -> 0 < sz ->
    (forall t t1 i e, @FFTCovGrid1D Rarith v nx dx sx = Ok t -> @FFTCovGrid1D Rarith v nx dx 1 = Ok t1 -> (i < nx)%nat ->
       nth i t e = nth i t1 e * damp sx rx (@lag1 Rarith nx i dx)) /\
    (forall t t1 i j e, @FFTCovGrid2D Rarith v nx dx ny dy sx sy = Ok t -> @FFTCovGrid2D Rarith v nx dx ny dy 1 1 = Ok t1 -> (i < nx)%nat -> (j < ny)%nat ->
       nth (i + nx * j) t e = nth (i + nx * j) t1 e * damp sx rx (@lag Rarith nx i dx) * damp sy ry (@lag Rarith ny j dy)) /\
    (forall t t1 i j k e, @FFTCovGrid3D Rarith v nx dx ny dy nz dz sx sy sz = Ok t -> @FFTCovGrid3D Rarith v nx dx ny dy nz dz 1 1 1 = Ok t1 ->
       (i < nx)%nat -> (j < ny)%nat -> (k < nz)%nat ->
       nth (i + nx * j + nx * ny * k) t e = nth (i + nx * j + nx * ny * k) t1 e * damp sx rx (@lag Rarith nx i dx) * damp sy ry (@lag Rarith ny j dy) * damp sz rz (@lag Rarith nz k dz)).
Proof.
  intros E Hm Hp Hd Hw p q a d. pose proof (or_main_nz main perp Hm Hp) as P0. pose proof (or_main_nz main depth Hm Hd) as Q0.
  destruct (created_new _ _ _ _ _ _ _ _ E) as (t & pw' & -> & _). fold p q a d. fold p in P0. fold q in Q0.
  set (v := new_variogram t pw' main p q a d 1).
  destruct (@FindVariogramRanges Rarith v) as [[rx ry] rz] eqn:F. exists rx, ry, rz.
  destruct (ranges_pos _ _ _ _ _ _ _ _ _ _ _ Hm P0 Q0 F) as (Rx & Ry & Rz). destruct (ranges_reach _ _ _ _ _ _ _ _ _ _ _ Hm P0 Q0 F) as (Nx & Ny & Nz).
  repeat (split; [assumption|]). intros nx dx ny dy nz dz sx sy sz Sx Sy Sz. split; [|split].
  - intros u u1 i e U U1 I. destruct (@c31_1d Rarith v nx dx sx) as (t' & E' & _ & H). rewrite U in E'. injection E' as <-.
    destruct (@c31_1d Rarith v nx dx 1) as (t' & E' & _ & H1). rewrite U1 in E'. injection E' as <-.
    rewrite H, H1 by exact I. unfold cov1_spec. rewrite !(factors_R _ _ _ _ _ _ _ F). rewrite !kernel_damp by lra.
    unfold damp at 2. destruct (Rlt_dec 1 (99999 / 100000)); [lra|]. rewrite Rmult_1_r. reflexivity.
  - intros u u1 i j e U U1 I J. destruct (@c31_2d Rarith v nx dx ny dy sx sy) as (t' & E' & _ & H). rewrite U in E'. injection E' as <-.
    destruct (@c31_2d Rarith v nx dx ny dy 1 1) as (t' & E' & _ & H1). rewrite U1 in E'. injection E' as <-.
    rewrite H, H1 by assumption. unfold cov2_spec. rewrite !(factors_R _ _ _ _ _ _ _ F). rewrite !kernel_damp by lra.
    assert (D1 : forall r l, damp 1 r l = 1) by (intros; unfold damp; destruct (Rlt_dec 1 (99999 / 100000)); lra). rewrite !D1, !Rmult_1_r. reflexivity.
  - intros u u1 i j k e U U1 I J K. destruct (@c31_3d Rarith v nx dx ny dy nz dz sx sy sz) as (t' & E' & _ & H). rewrite U in E'. injection E' as <-.
    destruct (@c31_3d Rarith v nx dx ny dy nz dz 1 1 1) as (t' & E' & _ & H1). rewrite U1 in E'. injection E' as <-.
    rewrite H, H1 by assumption. unfold cov3_spec. rewrite !(factors_R _ _ _ _ _ _ _ F). rewrite !kernel_damp by lra.
    assert (D1 : forall r l, damp 1 r l = 1) by (intros; unfold damp; destruct (Rlt_dec 1 (99999 / 100000)); lra). rewrite !D1, !Rmult_1_r. reflexivity.
Qed.
