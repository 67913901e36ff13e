(** Distances between periodic images. *)
From Coq Require Import ZArith Bool String Lia Reals Lra Psatz List.
From Flocq Require Import Core.Raux.
From Verif Require Import Base Arith RealArith M_Variogram M_Padding M_Grid M_CovGrid M_Dsfmt M_Random M_Field M_Api S_Api S_CovGrid S_Sizes S_Vario S_Spectrum P_Base P_Grid P_Api P_Bounds P_Padding P_Cov P_Vario P_VarioNames P_VarioMore P_VarioKernel
  P_Dft P_DftList P_DftField P_DftCov P_DftMain P_DftRound P_Convex.
Import ListNotations.
Open Scope R_scope.

Lemma sq_div a r M : 0 < r <= M -> (a / M) ^ 2 <= (a / r) ^ 2.
Proof.
  intros H. unfold Rdiv. rewrite !Rpow_mult_distr. apply Rmult_le_compat_l; [apply pow2_ge_0|].
  apply pow_incr. split; [apply Rlt_le, Rinv_0_lt_compat; lra|]. apply Rinv_le_contravar; lra.
Qed.
Lemma one_lt_sqrt x : 1 < x -> 1 < sqrt x.
Proof. intros. rewrite <- sqrt_1. apply sqrt_lt_1_alt. lra. Qed.
Lemma sq_gt x M : 0 < M -> M < Rabs x -> 1 < (x / M) ^ 2.
Proof.
  intros HM H. replace ((x / M) ^ 2) with ((Rabs x / M) ^ 2). 
  - assert (1 < Rabs x / M) by (apply (Rmult_lt_reg_r M); auto; unfold Rdiv; rewrite Rmult_assoc, Rinv_l by lra; lra). nra.
  - unfold Rdiv. rewrite !Rpow_mult_distr. rewrite pow2_abs. reflexivity.
Qed.
Lemma radians_0 : radians 0 = 0.
Proof. unfold radians. ring. Qed.

Section N.
Variables rx ry rz a d : R.
Hypotheses (Hx : 0 < rx) (Hy : 0 < ry) (Hz : 0 < rz).
(** the largest of the ranges bounds the distance *)
Lemma nd_far M x y z : rx <= M -> ry <= M -> rz <= M -> M < Rabs x \/ M < Rabs y \/ M < Rabs z -> 1 < ndist rx ry rz a d (x, y, z).
Proof.
  intros Mx My Mz H. apply one_lt_sqrt. 
  set (u := dot (main_axis a d) (x, y, z)). set (w := dot (perp_axis a) (x, y, z)). set (t := dot (third_axis a d) (x, y, z)).
  pose proof (sq_div u rx M ltac:(lra)). pose proof (sq_div w ry M ltac:(lra)). pose proof (sq_div t rz M ltac:(lra)).
  assert (E : u ^ 2 + w ^ 2 + t ^ 2 = x ^ 2 + y ^ 2 + z ^ 2).
  { unfold u, w, t, dot, main_axis, perp_axis, third_axis. pose proof (sc2 a) as Ea. pose proof (sc2 d) as Ed.
    generalize dependent (cos a). generalize dependent (sin a). generalize dependent (cos d). generalize dependent (sin d). intros sd cd Ed sa ca Ea.
    transitivity ((cd ^ 2 + sd ^ 2) * (ca * x + sa * y) ^ 2 + (ca * y - sa * x) ^ 2 + (cd ^ 2 + sd ^ 2) * z ^ 2); [ring|]. rewrite Ed.
    transitivity ((ca ^ 2 + sa ^ 2) * (x ^ 2 + y ^ 2) + z ^ 2); [ring|]. rewrite Ea. ring. }
  assert (E' : (u / M) ^ 2 + (w / M) ^ 2 + (t / M) ^ 2 = (x / M) ^ 2 + (y / M) ^ 2 + (z / M) ^ 2).
  { unfold Rdiv. rewrite !Rpow_mult_distr. rewrite <- !Rmult_plus_distr_r, E. ring. }
  pose proof (pow2_ge_0 (x / M)). pose proof (pow2_ge_0 (y / M)). pose proof (pow2_ge_0 (z / M)).
  destruct H as [H | [H | H]]; pose proof (sq_gt _ M ltac:(lra) H); lra.
Qed.
(** without dip the horizontal and the vertical ranges count separately *)
Lemma nd_flat_far x y z : Rmax rx ry < Rabs x \/ Rmax rx ry < Rabs y \/ rz < Rabs z -> 1 < ndist rx ry rz a 0 (x, y, z).
Proof.
  set (M := Rmax rx ry). assert (Mx : rx <= M) by apply Rmax_l. assert (My : ry <= M) by apply Rmax_r. intros H. apply one_lt_sqrt. 
  set (u := dot (main_axis a 0) (x, y, z)). set (w := dot (perp_axis a) (x, y, z)).
  assert (Et : dot (third_axis a 0) (x, y, z) = z) by (unfold dot, third_axis; rewrite sin_0, cos_0; ring). rewrite Et.
  pose proof (sq_div u rx M ltac:(lra)). pose proof (sq_div w ry M ltac:(lra)).
  assert (E : u ^ 2 + w ^ 2 = x ^ 2 + y ^ 2).
  { unfold u, w, dot, main_axis, perp_axis. rewrite cos_0, sin_0. pose proof (sc2 a) as Ea.
    generalize dependent (cos a). generalize dependent (sin a). intros sa ca Ea.
    transitivity ((ca ^ 2 + sa ^ 2) * (x ^ 2 + y ^ 2)); [ring|]. rewrite Ea. ring. }
  assert (E' : (u / M) ^ 2 + (w / M) ^ 2 = (x / M) ^ 2 + (y / M) ^ 2).
  { unfold Rdiv. rewrite !Rpow_mult_distr. rewrite <- !Rmult_plus_distr_r, E. ring. }
  pose proof (pow2_ge_0 (x / M)). pose proof (pow2_ge_0 (y / M)). pose proof (pow2_ge_0 (z / rz)).
  destruct H as [H | [H | H]]; [pose proof (sq_gt _ M ltac:(lra) H) | pose proof (sq_gt _ M ltac:(lra) H) | pose proof (sq_gt _ rz ltac:(lra) H)]; lra.
Qed.
(** without azimuth y is the perpendicular direction *)
Lemma nd_y_far x y z : ry < Rabs y -> 1 < ndist rx ry rz 0 d (x, y, z).
Proof.
  intros H. apply one_lt_sqrt. assert (E : dot (perp_axis 0) (x, y, z) = y) by (unfold dot, perp_axis; rewrite sin_0, cos_0; ring). rewrite E.
  pose proof (sq_gt _ ry ltac:(lra) H). pose proof (pow2_ge_0 (dot (main_axis 0 d) (x, y, z) / rx)). pose proof (pow2_ge_0 (dot (third_axis 0 d) (x, y, z) / rz)). lra.
Qed.
Lemma nd_x_far x y z : rx < Rabs x -> 1 < ndist rx ry rz 0 0 (x, y, z).
Proof.
  intros H. apply one_lt_sqrt. assert (E : dot (main_axis 0 0) (x, y, z) = x) by (unfold dot, main_axis; rewrite sin_0, cos_0; ring). rewrite E.
  pose proof (sq_gt _ rx ltac:(lra) H). pose proof (pow2_ge_0 (dot (perp_axis 0) (x, y, z) / ry)). pose proof (pow2_ge_0 (dot (third_axis 0 0) (x, y, z) / rz)). lra.
Qed.
End N.

Lemma sub_bounds (a b c : R) : b <= a -> a <= c -> 0 <= b -> 0 <= a - b <= c.
Proof. lra. Qed.
(** an image in one direction *)
Lemma cell_far r step (n ns N p a : Z) : 0 < step -> IZR n + r / step < IZR ns -> (ns <= N)%Z -> (Z.abs p < n)%Z -> a <> 0%Z -> r < Rabs (IZR (p + a * N) * step).
Proof.
  intros Hs H HN Hp Ha. rewrite Rabs_mult, (Rabs_right step), <- abs_IZR by lra.
  assert (H1 : (N - n + 1 <= Z.abs (p + a * N))%Z \/ (N < n)%Z) by nia.
  assert (K : r / step < IZR (ns - n)) by (rewrite minus_IZR; lra).
  assert (K2 : (0 < N - n)%Z \/ r / step < 0).
  { destruct (Z.le_gt_cases (ns - n) 0) as [L|L]; [right; apply IZR_le in L; lra|left; lia]. }
  assert (K3 : r = r / step * step) by (field; lra). rewrite K3.
  apply Rmult_lt_compat_r; auto.
  destruct K2 as [K2|K2].
  - apply Rlt_le_trans with (IZR (ns - n)); auto. apply IZR_le. lia.
  - apply Rlt_le_trans with 0; auto. apply (IZR_le 0). lia.
Qed.

Section C33.
Variables (o : Z -> outcome Z) (cl : Z -> Z -> Z).
Notation L := (Rlib o cl).
Variables (s : string) (main perp depth azi dp pw : R) (v : variogram L).
Hypothesis HC : @CreateVariogram Rarith s main perp depth azi dp pw = Ok v.
Hypotheses (Hm : 0 < main) (Hp : perp <> 0) (Hd : depth <> 0).
Notation perp' := (or_main main perp).
Notation depth' := (or_main main depth).
Notation nd := (ndist main perp' depth' (radians azi) (radians dp)).

Lemma created_ranges : range_x v = main /\ range_y v = perp' /\ range_z v = depth' /\ azimuth v = radians azi.
Proof. destruct (created_new _ _ _ _ _ _ _ _ HC) as (t & pw' & -> & _). repeat split. Qed.

Variables (rec : recursion) (fuel : nat) (t : Z) (d : dims L) (st : rstate) (ns : list Z).
Hypothesis HS : fst (step rec fuel t (CSize v d) st) = Ok (VSizes ns).
Hypothesis Hsp : forall i, (i < length ns)%nat -> 0 < spacing o cl d i /\ (cells d i < 2 ^ 63)%Z.

Lemma sizes_gt i : (i < length ns)%nat -> IZR (cells d i) + range_used o cl v (length ns) i / spacing o cl d i < IZR (nth i ns 0%Z).
Proof.
  intros Hi. destruct created_ranges as (Ex & Ey & Ez & _). pose proof (or_main_nz main perp Hm Hp). pose proof (or_main_nz main depth Hm Hd).
  destruct (size_exact o cl rec fuel t v d st ns) with (i := i) as (_ & H1 & _); auto; try (rewrite ?Ex, ?Ey, ?Ez; auto).
Qed.
Lemma azi_case : {radians azi = 0} + {radians azi <> 0}.
Proof. apply Req_EM_T. Qed.

Lemma c33_1 N p a : length ns = 1%nat -> (perp' <= main /\ depth' <= main) \/ (radians azi = 0 /\ radians dp = 0) ->
  (nth 0 ns 0%Z <= N)%Z -> (Z.abs p < d_nx d)%Z -> a <> 0%Z -> 1 < nd (IZR (p + a * N) * d_dx d, 0, 0).
Proof.
  intros Hl Hc HN Hp' Ha. destruct created_ranges as (Ex & _). pose proof (or_main_nz main perp Hm Hp) as P1. pose proof (or_main_nz main depth Hm Hd) as P2.
  destruct (Hsp 0) as [S0 _]; [lia|]. pose proof (sizes_gt 0 ltac:(lia)) as F. rewrite Hl in F. cbn [range_used Nat.eqb] in F. rewrite Ex in F.
  pose proof (cell_far main (spacing o cl d 0) (cells d 0) (nth 0 ns 0%Z) N p a S0 F HN Hp' Ha) as Q. change (spacing o cl d 0) with (d_dx d) in Q.
  destruct Hc as [[C1 C2]|[-> ->]].
  - apply (nd_far _ _ _ _ _ Hm P1 P2 main); auto; lra.
  - apply nd_x_far; auto.
Qed.
Lemma c33_2 Nx Ny p q a b : length ns = 2%nat -> radians dp = 0 \/ depth' <= Rmax main perp' ->
  (nth 0 ns 0%Z <= Nx)%Z -> (nth 1 ns 0%Z <= Ny)%Z -> (Z.abs p < cells d 0)%Z -> (Z.abs q < cells d 1)%Z -> a <> 0%Z \/ b <> 0%Z ->
  1 < nd (IZR (p + a * Nx) * spacing o cl d 0, IZR (q + b * Ny) * spacing o cl d 1, 0).
Proof.
  intros Hl Hc HNx HNy Hp' Hq' Hab. destruct created_ranges as (Ex & Ey & Ez & Ea). pose proof (or_main_nz main perp Hm Hp) as P1. pose proof (or_main_nz main depth Hm Hd) as P2.
  destruct (Hsp 0) as [S0 _]; [lia|]. destruct (Hsp 1) as [S1 _]; [lia|].
  assert (B : Rmax main perp' < Rabs (IZR (p + a * Nx) * spacing o cl d 0) \/ Rmax main perp' < Rabs (IZR (q + b * Ny) * spacing o cl d 1) ->
     1 < nd (IZR (p + a * Nx) * spacing o cl d 0, IZR (q + b * Ny) * spacing o cl d 1, 0)).
  { intros H. destruct Hc as [C|C].
    - rewrite C. apply nd_flat_far; auto. destruct H; auto.
    - apply (nd_far _ _ _ _ _ Hm P1 P2 (Rmax main perp')); auto; [apply Rmax_l|apply Rmax_r|destruct H; auto]. }
  destruct Hab as [Ha|Hb].
  - apply B. left. pose proof (sizes_gt 0 ltac:(lia)) as F. rewrite Hl in F. cbn [range_used Nat.eqb] in F. rewrite Ex, Ey in F. apply (cell_far _ _ (cells d 0) (nth 0 ns 0%Z)); auto.
  - pose proof (sizes_gt 1 ltac:(lia)) as F. cbn [range_used] in F. rewrite Ex, Ey, Ea in F. destruct (Req_EM_T (radians azi) 0) as [Z0|Z0].
    + rewrite Z0. apply nd_y_far; auto. apply (cell_far _ _ (cells d 1) (nth 1 ns 0%Z)); auto.
    + apply B. right. apply (cell_far _ _ (cells d 1) (nth 1 ns 0%Z)); auto.
Qed.
Lemma c33_3 Nx Ny Nz p q r a b c : length ns = 3%nat -> radians dp = 0 ->
  (nth 0 ns 0%Z <= Nx)%Z -> (nth 1 ns 0%Z <= Ny)%Z -> (nth 2 ns 0%Z <= Nz)%Z ->
  (Z.abs p < cells d 0)%Z -> (Z.abs q < cells d 1)%Z -> (Z.abs r < cells d 2)%Z -> a <> 0%Z \/ b <> 0%Z \/ c <> 0%Z ->
  1 < nd (IZR (p + a * Nx) * spacing o cl d 0, IZR (q + b * Ny) * spacing o cl d 1, IZR (r + c * Nz) * spacing o cl d 2).
Proof.
  intros Hl C HNx HNy HNz Hp' Hq' Hr' Hab. destruct created_ranges as (Ex & Ey & Ez & Ea). pose proof (or_main_nz main perp Hm Hp) as P1. pose proof (or_main_nz main depth Hm Hd) as P2.
  destruct (Hsp 0) as [S0 _]; [lia|]. destruct (Hsp 1) as [S1 _]; [lia|]. destruct (Hsp 2) as [S2 _]; [lia|].
  destruct Hab as [Ha|[Hb|Hb]].
  - rewrite C. apply nd_flat_far; auto. left. pose proof (sizes_gt 0 ltac:(lia)) as F. rewrite Hl in F. cbn [range_used Nat.eqb] in F. rewrite Ex, Ey in F. apply (cell_far _ _ (cells d 0) (nth 0 ns 0%Z)); auto.
  - pose proof (sizes_gt 1 ltac:(lia)) as F. cbn [range_used] in F. rewrite Ex, Ey, Ea in F. destruct (Req_EM_T (radians azi) 0) as [Z0|Z0].
    + rewrite Z0. apply nd_y_far; auto. apply (cell_far _ _ (cells d 1) (nth 1 ns 0%Z)); auto.
    + rewrite C. apply nd_flat_far; auto. right; left. apply (cell_far _ _ (cells d 1) (nth 1 ns 0%Z)); auto.
  - rewrite C. apply nd_flat_far; auto. right; right. pose proof (sizes_gt 2 ltac:(lia)) as F. cbn [range_used] in F. rewrite Ez in F. apply (cell_far _ _ (cells d 2) (nth 2 ns 0%Z)); auto.
Qed.

(** ** C28: the wrapped correlation *)
Hypothesis Hw : 0 < pw.
Lemma c28 N (i i' : nat) : length ns = 1%nat -> (perp' <= main /\ depth' <= main) \/ (radians azi = 0 /\ radians dp = 0) ->
  (nth 0 ns 0%Z <= Z.of_nat N)%Z -> (Z.of_nat i < d_nx d)%Z -> (Z.of_nat i' < d_nx d)%Z ->
  let k := (Nat.max i i' - Nat.min i i')%nat in
  0 <= @GetCorr1 Rarith v (INR (Nat.min k (N - k)) * d_dx d) - @GetCorr1 Rarith v (INR k * d_dx d) <= corr_fun (vt v) pw 1 /\
  ((2 * k <= N)%nat -> @GetCorr1 Rarith v (INR (Nat.min k (N - k)) * d_dx d) = @GetCorr1 Rarith v (INR k * d_dx d)).
Proof.
  intros Hl Hc HN Hi Hi' k.
  assert (N1 : vt v <> N_TYPES) by (destruct (created_corr _ _ _ _ _ _ _ _ HC Hm Hp Hd Hw); auto).
  pose proof (corr1_lin _ _ _ _ _ _ _ _ HC Hm Hp Hd Hw) as CL.
  destruct (Nat.le_gt_cases (2 * k) N) as [H|H].
  { replace (Nat.min k (N - k)) with k by lia. split; [|auto]. rewrite Rminus_diag_eq by reflexivity. split; [lra|]. apply corr_fun_nonneg. lra. }
  split; [|lia]. replace (Nat.min k (N - k)) with (N - k)%nat by lia.
  destruct (Hsp 0) as [S0 _]; [lia|]. change (spacing o cl d 0) with (d_dx d) in S0. 
  pose proof (sizes_gt 0 ltac:(lia)) as F. pose proof (c33_1 (Z.of_nat N) (Z.of_nat k) (-1) Hl Hc HN ltac:(lia) ltac:(lia)) as Q.
  assert (F2 : (d_nx d <= Z.of_nat N)%Z).
  { apply le_IZR. apply IZR_le in HN. rewrite Hl in F. cbn [range_used Nat.eqb] in F. destruct created_ranges as (Ex & _). rewrite Ex in F.
    assert (0 < main / spacing o cl d 0) by (apply Rdiv_lt_0_compat; auto). change (cells d 0) with (d_nx d) in F. lra. }
  assert (E1 : forall x : R, nd (x, 0, 0) = Rabs x * nd (1, 0, 0)).
  { intros x. pose proof (or_main_nz main perp Hm Hp). pose proof (or_main_nz main depth Hm Hd). rewrite <- ndist_scale by lra. f_equal. cbn [scale]. f_equal; [f_equal|]; ring. }
  assert (Q' : 1 < INR (N - k) * d_dx d * nd (1, 0, 0)).
  { rewrite E1 in Q. rewrite Rabs_mult, (Rabs_right (d_dx d)), <- abs_IZR in Q by lra.
    replace (Z.abs (Z.of_nat k + -1 * Z.of_nat N)) with (Z.of_nat (N - k)) in Q by lia. rewrite <- INR_IZR_INZ in Q. exact Q. }
  assert (K : INR (N - k) <= INR k) by (apply le_INR; lia). pose proof (pos_INR (N - k)). pose proof (ndist_nonneg main perp' depth' (radians azi) (radians dp) (1, 0, 0)) as Hn.
  rewrite !CL. rewrite !(Rabs_right (INR _ * d_dx d)) by (apply Rle_ge, Rmult_le_pos; [apply pos_INR|apply Rlt_le; exact S0]).
  set (A := INR (N - k) * d_dx d * nd (1, 0, 0)) in *. set (B := INR k * d_dx d * nd (1, 0, 0)).
  assert (AB : A <= B) by (unfold A, B; apply Rmult_le_compat_r; auto; apply Rmult_le_compat_r; [apply Rlt_le; exact S0|exact K]).
  exact (sub_bounds _ _ _ (corr_fun_decr (vt v) pw A B ltac:(lra) Hw) (corr_fun_decr (vt v) pw 1 A ltac:(lra) Hw) (corr_fun_nonneg (vt v) pw B ltac:(lra))).
Qed.
End C33.
