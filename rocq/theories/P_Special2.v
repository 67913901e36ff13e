(** Special variograms through the API, and changes of units. *)
From Coq Require Import ZArith Bool List String Lia Reals Lra Psatz Permutation.
From Verif Require Import Base Arith M_Variogram M_Padding M_FftSize M_Grid M_CovGrid M_Dsfmt M_Random M_Field M_Api RealArith S_Api S_CovGrid S_Sizes S_Vario S_Special P_Base P_Bounds P_Sim2 P_Cov P_Vario P_VarioNames P_VarioMore P_VarioKernel P_VarioTables P_Dft P_DftList P_DftField P_DftMain P_Special.
Import ListNotations.
Open Scope R_scope.

Lemma is_ascii_dec s : is_ascii s \/ ~ is_ascii s.
Proof. induction s as [|c s IH]; cbn; [auto|]. destruct (Nat.lt_ge_cases (Ascii.nat_of_ascii c) 128), IH; tauto || (right; lia). Qed.
Lemma created_type s main perp depth a d pw v n t : @CreateVariogram Rarith s main perp depth a d pw = Ok v ->
  In (n, t) documented -> lower s = n -> vt v = t.
Proof.
  intros HC Hin Hl. assert (Ha : is_ascii s).
  { destruct (is_ascii_dec s) as [H|H]; [exact H|]. rewrite (names_bad s main perp depth a d pw H) in HC. discriminate. }
  destruct (names_documented s n t main perp depth a d pw Hin Hl Ha) as (v' & E & Ht). rewrite HC in E. injection E as <-. exact Ht.
Qed.

(** ** tables *)
Section Tab.
Variable v : variogram Rarith.
Hypothesis V1 : var v = 1.

Lemma const_cov1 n dx sx i : vt v = CONSTANT -> 99999 / 100000 <= sx -> @cov1_spec Rarith v n dx sx i = 1.
Proof.
  intros HT Hs. unfold cov1_spec. destruct (FindSmoothingFactors _ _ _ _) as [[? ?] ?]. rewrite kernel_off by auto.
  unfold GetCorr1, Corr1D. rewrite HT, V1. cbn. field.
Qed.
Lemma const_cov2 nx dx ny dy sx sy i j : vt v = CONSTANT -> 99999 / 100000 <= sx -> 99999 / 100000 <= sy -> @cov2_spec Rarith v nx dx ny dy sx sy i j = 1.
Proof.
  intros HT Hs Hs'. unfold cov2_spec. destruct (FindSmoothingFactors _ _ _ _) as [[? ?] ?]. rewrite !kernel_off by auto.
  unfold GetCorr2, Corr1D. rewrite HT, V1. cbn. field.
Qed.
Lemma const_cov3 nx dx ny dy nz dz sx sy sz i j k : vt v = CONSTANT -> 99999 / 100000 <= sx -> 99999 / 100000 <= sy -> 99999 / 100000 <= sz ->
  @cov3_spec Rarith v nx dx ny dy nz dz sx sy sz i j k = 1.
Proof.
  intros HT Hs Hs' Hs''. unfold cov3_spec. destruct (FindSmoothingFactors _ _ _ _) as [[? ?] ?]. rewrite !kernel_off by auto.
  unfold GetCorr3, Corr1D. rewrite HT, V1. cbn. field.
Qed.

Hypothesis C0 : @GetCorr3 Rarith v 0 0 0 = 1.
Variables sx_ sy_ sz_ : R.  (* spacings *)
Hypothesis Far : forall p q r : Z, (p, q, r) <> (0, 0, 0)%Z -> @GetCorr3 Rarith v (IZR p * sx_) (IZR q * sy_) (IZR r * sz_) = 0.

Lemma kernel_zero s b dd : @kernel Rarith s b dd 0 = 0.
Proof. unfold kernel. destruct (flt _ _ _); auto. cbn. ring. Qed.
Lemma wrapped_nz n i : (0 < i < n)%nat -> wrapped n i <> 0%Z.
Proof. intros H. unfold wrapped. destruct (2 * i <? n)%nat; lia. Qed.
Lemma wrapped_z n i : (i < n)%nat -> i <> 0%nat -> wrapped n i <> 0%Z.
Proof. intros. apply wrapped_nz. lia. Qed.
Lemma wrapped_0 n : (0 < n)%nat -> wrapped n 0 = 0%Z.
Proof. intros H. unfold wrapped. rewrite (proj2 (Nat.ltb_lt _ _)) by lia. reflexivity. Qed.
Lemma lag_IZR n i (d : R) : @lag Rarith n i d = IZR (wrapped n i) * d.
Proof. reflexivity. Qed.
Lemma z_0 (x : R) : IZR 0 * x = 0.
Proof. ring. Qed.

Lemma short_cov3 nx ny nz sx sy sz i j k : (i < nx)%nat -> (j < ny)%nat -> (k < nz)%nat ->
  @cov3_spec Rarith v nx sx_ ny sy_ nz sz_ sx sy sz i j k = delta i 0 * delta j 0 * delta k 0.
Proof.
  intros Hi Hj Hk. unfold cov3_spec. destruct (FindSmoothingFactors _ _ _ _) as [[? ?] ?]. unfold delta.
  assert (D : (i = 0 /\ j = 0 /\ k = 0)%nat \/ (wrapped nx i, wrapped ny j, wrapped nz k) <> (0, 0, 0)%Z).
  { destruct (Nat.eq_dec i 0), (Nat.eq_dec j 0), (Nat.eq_dec k 0); auto; right; intros [= ? ? ?];
      try (eapply (wrapped_z nx i); eauto; fail); try (eapply (wrapped_z ny j); eauto; fail); eapply (wrapped_z nz k); eauto. }
  destruct D as [(-> & -> & ->)|D].
  - rewrite !lag_0, !kernel_0, C0, V1 by lia. cbn. ring.
  - rewrite !lag_IZR, Far by exact D. replace (mul Rarith (var v) 0) with 0 by (cbn; ring). rewrite !kernel_zero. match goal with |- ?a = ?b => change (@eq R a b) end.
    destruct (Nat.eqb_spec i 0) as [->|], (Nat.eqb_spec j 0) as [->|], (Nat.eqb_spec k 0) as [->|]; try ring.
    exfalso. apply D. rewrite !wrapped_0 by lia. reflexivity.
Qed.
Lemma short_cov2 nx ny sx sy i j : (i < nx)%nat -> (j < ny)%nat ->
  @cov2_spec Rarith v nx sx_ ny sy_ sx sy i j = delta i 0 * delta j 0.
Proof.
  intros Hi Hj. unfold cov2_spec. destruct (FindSmoothingFactors _ _ _ _) as [[? ?] ?]. unfold delta. rewrite corr2_3.
  assert (D : (i = 0 /\ j = 0)%nat \/ (wrapped nx i, wrapped ny j, 0%Z) <> (0, 0, 0)%Z).
  { destruct (Nat.eq_dec i 0), (Nat.eq_dec j 0); auto; right; intros [= ? ?];
      try (eapply (wrapped_z nx i); eauto; fail); eapply (wrapped_z ny j); eauto. }
  destruct D as [(-> & ->)|D].
  - rewrite !lag_0, !kernel_0, C0, V1 by lia. cbn. ring.
  - rewrite !lag_IZR. pose proof (Far _ _ _ D) as H. rewrite z_0 in H. rewrite H. replace (mul Rarith (var v) 0) with 0 by (cbn; ring). rewrite !kernel_zero. match goal with |- ?a = ?b => change (@eq R a b) end.
    destruct (Nat.eqb_spec i 0) as [->|], (Nat.eqb_spec j 0) as [->|]; try ring.
    exfalso. apply D. rewrite !wrapped_0 by lia. reflexivity.
Qed.
Lemma short_cov1 nx sx i : (i < nx)%nat -> @cov1_spec Rarith v nx sx_ sx i = delta i 0.
Proof.
  intros Hi. unfold cov1_spec. destruct (FindSmoothingFactors _ _ _ _) as [[? ?] ?]. unfold delta. rewrite corr1_2, corr2_3.
  destruct (Nat.eqb_spec i 0) as [->|H].
  - rewrite !lag1_0, !kernel_0, C0, V1 by lia. cbn. ring.
  - assert (E : @lag1 Rarith nx i sx_ = IZR (Z.of_nat (if (2 * i <? nx)%nat then i else nx - i)) * sx_).
    { unfold lag1. destruct (2 * i <? nx)%nat; [reflexivity|]. cbn. rewrite Nat2Z.inj_sub by lia. ring. }
    rewrite E. pose proof (Far (Z.of_nat (if (2 * i <? nx)%nat then i else nx - i)) 0 0) as F. rewrite !z_0 in F. rewrite F.
    + replace (mul Rarith (var v) 0) with 0 by (cbn; ring). apply kernel_zero.
    + intros X. apply (f_equal (fun t => fst (fst t))) in X. cbn [fst] in X. destruct (2 * i <? nx)%nat; lia.
Qed.
End Tab.

(** a spherical variogram with ranges of at most [m] does not correlate points at least [m] apart *)
Lemma norm_axes a d x y z : dot (main_axis a d) (x, y, z) ^ 2 + dot (perp_axis a) (x, y, z) ^ 2 + dot (third_axis a d) (x, y, z) ^ 2 = x ^ 2 + y ^ 2 + z ^ 2.
Proof.
  unfold dot, main_axis, perp_axis, third_axis. pose proof (sc2 a) as A. pose proof (sc2 d) as D.
  set (ca := cos a) in *. set (sa := sin a) in *. set (cd := cos d) in *. set (sd := sin d) in *.
  transitivity ((ca ^ 2 + sa ^ 2) * (cd ^ 2 + sd ^ 2) * x ^ 2 - sa ^ 2 * (cd ^ 2 + sd ^ 2 - 1) * x ^ 2
    + (ca ^ 2 + sa ^ 2) * (cd ^ 2 + sd ^ 2) * y ^ 2 - ca ^ 2 * (cd ^ 2 + sd ^ 2 - 1) * y ^ 2 + 2 * (cd ^ 2 + sd ^ 2 - 1) * ca * sa * x * y + (cd ^ 2 + sd ^ 2) * z ^ 2); [ring|].
  rewrite A, D. ring.
Qed.
Lemma div_bound t r m : 0 < r <= m -> t ^ 2 / m ^ 2 <= (t / r) ^ 2.
Proof.
  intros [H H']. replace ((t / r) ^ 2) with (t ^ 2 / r ^ 2) by (field; lra). unfold Rdiv. apply Rmult_le_compat_l; [apply pow2_ge_0|].
  apply Rinv_le_contravar; nra.
Qed.
Lemma ndist_far m p q a d h x y z r : 0 < m <= r -> 0 < p <= r -> 0 < q <= r -> h = (x, y, z) -> r ^ 2 <= x ^ 2 + y ^ 2 + z ^ 2 -> 1 <= ndist m p q a d h.
Proof.
  intros Hm Hp Hq -> Hr. unfold ndist. rewrite <- sqrt_1. apply sqrt_le_1_alt.
  pose proof (div_bound (dot (main_axis a d) (x, y, z)) m r Hm). pose proof (div_bound (dot (perp_axis a) (x, y, z)) p r Hp).
  pose proof (div_bound (dot (third_axis a d) (x, y, z)) q r Hq). pose proof (norm_axes a d x y z) as E.
  set (u := dot _ _) in *. set (w := dot (perp_axis a) _) in *. set (t := dot (third_axis a d) _) in *.
  assert (1 <= u ^ 2 / r ^ 2 + w ^ 2 / r ^ 2 + t ^ 2 / r ^ 2); [|lra].
  replace (u ^ 2 / r ^ 2 + w ^ 2 / r ^ 2 + t ^ 2 / r ^ 2) with ((x ^ 2 + y ^ 2 + z ^ 2) / r ^ 2) by (rewrite <- E; field; lra).
  apply Rmult_le_reg_r with (r ^ 2); [nra|]. unfold Rdiv. rewrite Rmult_assoc, Rinv_l by nra. lra.
Qed.
Lemma int_sq p : p <> 0%Z -> 1 <= IZR p ^ 2.
Proof.
  intros H. rewrite <- Rsqr_pow2. replace 1 with (Rsqr 1) by (unfold Rsqr; ring). apply Rsqr_le_abs_1. rewrite Rabs_R1, <- abs_IZR. apply IZR_le. lia.
Qed.
Lemma far_sq (p q r : Z) (x y z m : R) : 0 < m -> (p, q, r) <> (0, 0, 0)%Z ->
  (p <> 0%Z -> m <= x) -> (q <> 0%Z -> m <= y) -> (r <> 0%Z -> m <= z) -> m ^ 2 <= (IZR p * x) ^ 2 + (IZR q * y) ^ 2 + (IZR r * z) ^ 2.
Proof.
  intros Hm H Hx Hy Hz. rewrite !Rpow_mult_distr.
  assert (B : forall (n : Z) (w : R), n <> 0%Z -> m <= w -> m ^ 2 <= IZR n ^ 2 * w ^ 2).
  { intros n w Hn Hw. pose proof (int_sq n Hn). assert (m ^ 2 <= w ^ 2) by nra. pose proof (pow2_ge_0 m). nra. }
  assert (P : forall (n : Z) (w : R), 0 <= IZR n ^ 2 * w ^ 2) by (intros; apply Rmult_le_pos; apply pow2_ge_0).
  pose proof (P p x). pose proof (P q y). pose proof (P r z).
  destruct (Z.eq_dec p 0) as [->|Np]; [|specialize (B p x Np (Hx Np)); lra].
  destruct (Z.eq_dec q 0) as [->|Nq]; [|specialize (B q y Nq (Hy Nq)); lra].
  destruct (Z.eq_dec r 0) as [->|Nr]; [congruence|specialize (B r z Nr (Hz Nr)); lra].
Qed.

(** ** through the API *)
Section Api.
Variables (o : Z -> outcome Z) (cl : Z -> Z -> Z).
Notation L := (Rlib o cl).
Variables (s : string) (main perp depth azi dp pw : R) (v : variogram L).
Hypothesis HC : @CreateVariogram Rarith s main perp depth azi dp pw = Ok v.
Variables (rec : recursion) (fuel : nat) (t : Z) (d : dims L) (a : adv L) (ns : list Z) (st : rstate) (l : list R) (st' : rstate).
Hypothesis HS : fst (step rec fuel t (CSize v d) st) = Ok (VSizes ns).
Hypothesis HL : List.length ns = dim_asked d.
Hypothesis HA : asks d a ns.
Hypothesis HF : grid_fits d a ns.
Hypothesis HR : step rec fuel t (CAdvanced v d a) st = (Ok (@VArray L l), st').

Lemma uns (s' : option R) : unsmoothed a -> In s' [a_sx a; a_sy a; a_sz a] -> 99999 / 100000 <= opt s' (lit L 1 0).
Proof. intros H Hi. destruct s' as [x|]; cbn [opt]; [apply (H x Hi)|cbn; lra]. Qed.
Lemma dim_cases : (dim_asked d = 1 \/ dim_asked d = 2 \/ dim_asked d = 3)%nat.
Proof. unfold dim_asked. destruct (negb _); auto. destruct (negb _); auto. Qed.
Lemma fits_at i z : (i < dim_asked d)%nat -> grid_used d a ns i = Ok z -> (0 < z)%Z /\ (cells d i <= z)%Z /\ padded d a ns i = Z.to_nat z.
Proof.
  intros Hi Hz. destruct (HF i Hi) as (n & E & H1 & H2). rewrite Hz in E. injection E as <-. do 2 (split; auto).
  unfold padded. rewrite (proj2 (Nat.ltb_lt _ _) Hi), Hz. reflexivity.
Qed.
Lemma padded_off i : (dim_asked d <= i)%nat -> padded d a ns i = 1%nat.
Proof. intros H. unfold padded. rewrite (proj2 (Nat.ltb_ge _ _) H). reflexivity. Qed.
Lemma nth_repeat_lt {T} (x y : T) n q : (q < n)%nat -> nth q (repeat x n) y = x.
Proof. revert q. induction n; intros [|q] H; cbn; try lia; auto. apply IHn. lia. Qed.
Lemma repeat_of (x : R) n : List.length l = n -> (forall q, (q < n)%nat -> nth q l 0 = x) -> l = repeat x (List.length l).
Proof.
  intros E H. apply (nth_ext _ _ 0 0); [rewrite repeat_length; reflexivity|]. intros q Hq. rewrite H by lia.
  symmetry. apply nth_repeat_lt. exact Hq.
Qed.

Lemma api_const : lower s = "constant"%string -> unsmoothed a ->
  exists xs e, draws (Unif01 (A := L) rec) fuel (padded_cells d a ns) (source rec d (gen (ensure_init rec t st))) = Ok (xs, e) /\
    l = repeat (total xs / sqrt (INR (padded_cells d a ns))) (List.length l).
Proof.
  intros Hs Hu. pose proof (var_1 _ _ _ _ _ _ _ _ HC) as V1.
  assert (HT : vt v = CONSTANT) by (eapply (created_type _ _ _ _ _ _ _ _ _ _ HC); [|exact Hs]; cbn; tauto).
  pose proof (uns (a_sx a) Hu ltac:(cbn; auto)) as Sx. pose proof (uns (a_sy a) Hu ltac:(cbn; auto)) as Sy. pose proof (uns (a_sz a) Hu ltac:(cbn; auto)) as Sz.
  unfold source, padded_cells. destruct dim_cases as [D|[D|D]]; rewrite D; cbn [Nat.eqb].
  - destruct (c14_1d rec fuel t v d a ns st l st' D HS HL HA HR) as (_ & zx & Gx & noise & e & Hdr & Hln & Hf).
    destruct (fits_at 0 zx ltac:(lia) Gx) as (P1 & P2 & ->). rewrite !padded_off by lia. rewrite !Nat.mul_1_r. exists noise, e. split; [exact Hdr|].
    cbn [cells nth] in P2. destruct (const1 o cl v (Z.to_nat (d_nx d)) (Z.to_nat zx) (d_dx d) (opt (a_sx a) (lit L 1 0)) noise l ltac:(lia) ltac:(lia) Hln) as [E1 E2]; auto.
    + intros. apply const_cov1; auto.
    + exact (repeat_of _ _ E1 E2).
  - destruct (c14_2d rec fuel t v d a ns st l st' D HS HL HA HR) as (_ & zx & zy & Gx & Gy & xs & noise & e & Hdr & _ & Hln & Hp & _ & Hf).
    destruct (fits_at 0 zx ltac:(lia) Gx) as (P1 & P2 & ->). destruct (fits_at 1 zy ltac:(lia) Gy) as (P3 & P4 & ->). rewrite !padded_off by lia. rewrite !Nat.mul_1_r.
    exists xs, e. split; [exact Hdr|]. cbn [cells nth] in P2, P4. rewrite <- (total_perm _ _ Hp).
    destruct (const2 o cl v (Z.to_nat (d_nx d)) (Z.to_nat (opt (d_ny d) 1%Z)) (Z.to_nat zx) (Z.to_nat zy) (d_dx d) (opt (d_dy d) (lit L (-1) 0)) (opt (a_sx a) (lit L 1 0)) (opt (a_sy a) (lit L 1 0)) noise l ltac:(lia) ltac:(lia) Hln) as [E1 E2]; auto.
    + intros. apply const_cov2; auto.
    + exact (repeat_of _ _ E1 E2).
  - destruct (c14_3d rec fuel t v d a ns st l st' D HS HL HA HR) as (zx & zy & zz & Gx & Gy & Gz & xs & noise & Hdr & _ & Hln & Hp & _ & Hf).
    destruct (fits_at 0 zx ltac:(lia) Gx) as (P1 & P2 & ->). destruct (fits_at 1 zy ltac:(lia) Gy) as (P3 & P4 & ->). destruct (fits_at 2 zz ltac:(lia) Gz) as (P5 & P6 & ->).
    exists xs, (gen st'). split; [exact Hdr|]. cbn [cells nth] in P2, P4, P6. rewrite <- (total_perm _ _ Hp).
    destruct (const3 o cl v (Z.to_nat (d_nx d)) (Z.to_nat (opt (d_ny d) 1%Z)) (Z.to_nat (opt (d_nz d) 1%Z)) (Z.to_nat zx) (Z.to_nat zy) (Z.to_nat zz) (d_dx d) (opt (d_dy d) (lit L (-1) 0)) (opt (d_dz d) (lit L (-1) 0))
      (opt (a_sx a) (lit L 1 0)) (opt (a_sy a) (lit L 1 0)) (opt (a_sz a) (lit L 1 0)) noise l ltac:(lia) ltac:(lia) ltac:(lia) Hln) as [E1 E2]; auto.
    + intros. apply const_cov3; auto.
    + exact (repeat_of _ _ E1 E2).
Qed.

(** no range is larger than the spacing of a direction simulated *)
Lemma far_corr m (x y z : R) : lower s = "spherical"%string -> 0 < main <= m -> 0 < or_main main perp <= m -> 0 < or_main main depth <= m ->
  m <= x -> m <= y -> m <= z -> forall p q r : Z, (p, q, r) <> (0, 0, 0)%Z -> @GetCorr3 Rarith v (IZR p * x) (IZR q * y) (IZR r * z) = 0.
Proof.
  intros Hs Hm Hp Hd Hx Hy Hz p q r Hn.
  assert (HT : @vt Rarith v = SPHERICAL) by (eapply (created_type _ _ _ _ _ _ _ _ _ _ HC); [|exact Hs]; cbn; tauto).
  destruct (created_new _ _ _ _ _ _ _ _ HC) as (t' & pw' & Ev & _). unfold GetCorr3. rewrite Corr1D_fun by apply sqrt_pos. rewrite HT. cbn [corr_fun].
  rewrite Ev, Distance3_ndist by lra.
  pose proof (ndist_far main (or_main main perp) (or_main main depth) (radians azi) (radians dp) _ _ _ _ m Hm Hp Hd eq_refl
    (far_sq p q r x y z m ltac:(lra) Hn (fun _ => Hx) (fun _ => Hy) (fun _ => Hz))). destruct (Rlt_dec _ _) as [X|X]; [exfalso; apply (Rlt_not_le _ _ X); assumption|reflexivity].
Qed.
Lemma corr_origin m : lower s = "spherical"%string -> 0 < main <= m -> 0 < or_main main perp <= m -> 0 < or_main main depth <= m -> @GetCorr3 Rarith v 0 0 0 = 1.
Proof.
  intros Hs Hm Hp Hd.
  assert (HT : @vt Rarith v = SPHERICAL) by (eapply (created_type _ _ _ _ _ _ _ _ _ _ HC); [|exact Hs]; cbn; tauto).
  unfold GetCorr3. rewrite Corr1D_fun by apply sqrt_pos. rewrite HT. cbn [corr_fun].
  assert (E : @Distance3 Rarith v 0 0 0 = 0).
  { unfold Distance3. cbn. match goal with |- sqrt ?e = 0 => replace e with 0 by ring end. apply sqrt_0. }
  rewrite E. match goal with |- ?a = ?b => change (@eq R a b) end. destruct (Rlt_dec 0 1); lra.
Qed.

Lemma api_raw : lower s = "spherical"%string -> 0 < main -> 0 < or_main main perp -> 0 < or_main main depth ->
  (forall i, (i < dim_asked d)%nat -> main <= step_of d i /\ or_main main perp <= step_of d i /\ or_main main depth <= step_of d i) ->
  exists xs e, draws (Unif01 (A := L) rec) fuel (padded_cells d a ns) (source rec d (gen (ensure_init rec t st))) = Ok (xs, e) /\
    forall i j k, (i < Z.to_nat (cells d 0))%nat -> (j < if (1 <? dim_asked d)%nat then Z.to_nat (cells d 1) else 1)%nat -> (k < if (2 <? dim_asked d)%nat then Z.to_nat (cells d 2) else 1)%nat ->
      nth (i + j * Z.to_nat (cells d 0) + k * Z.to_nat (cells d 0) * Z.to_nat (cells d 1)) l 0 = nth ((i * padded d a ns 1 + j) * padded d a ns 2 + k) xs 0.
Proof.
  intros Hs Hm Hp Hd Hsp. pose proof (var_1 _ _ _ _ _ _ _ _ HC) as V1.
  set (m := Rmax main (Rmax (or_main main perp) (or_main main depth))).
  assert (Mm : 0 < main <= m) by (split; [auto|apply Rmax_l]).
  assert (Mp : 0 < or_main main perp <= m) by (split; [auto|eapply Rle_trans; [apply Rmax_l|apply Rmax_r]]).
  assert (Md : 0 < or_main main depth <= m) by (split; [auto|eapply Rle_trans; [apply Rmax_r|apply Rmax_r]]).
  assert (Sp : forall i, (i < dim_asked d)%nat -> m <= step_of d i) by (intros i Hi; destruct (Hsp i Hi) as (? & ? & ?); repeat apply Rmax_lub; auto).
  pose proof (corr_origin m Hs Mm Mp Md) as C0. pose proof (fun x y z => far_corr m x y z Hs Mm Mp Md) as FC. clearbody m.
  assert (E1 : forall x : option R, opt x (lit L (-1) 0) = opt x (-1)) by (intros [x|]; cbn; [reflexivity|lra]).
  unfold source, padded_cells. cbn [cells nth]. destruct dim_cases as [D|[D|D]]; rewrite D; cbn [Nat.eqb Nat.ltb Nat.leb].
  - destruct (c14_1d rec fuel t v d a ns st l st' D HS HL HA HR) as (_ & zx & Gx & noise & e & Hdr & Hln & Hf).
    destruct (fits_at 0 zx ltac:(lia) Gx) as (P1 & P2 & ->). rewrite !padded_off by lia. rewrite !Nat.mul_1_r. exists noise, e. split; [exact Hdr|].
    pose proof (Sp 0%nat ltac:(lia)) as S0. cbn [step_of nth] in S0. specialize (FC _ _ _ S0 S0 S0).
    cbn [cells nth] in P2. destruct (raw1 o cl v (Z.to_nat (d_nx d)) (Z.to_nat zx) (d_dx d) (opt (a_sx a) (lit L 1 0)) noise l ltac:(lia) ltac:(lia) Hln) as [_ E2]; auto.
    + intros. eapply short_cov1; eauto.
    + intros i j k Hi Hj Hk. replace j with 0%nat by lia. replace k with 0%nat by lia. rewrite !Nat.mul_0_l, !Nat.add_0_r, !Nat.mul_1_r. apply E2. exact Hi.
  - destruct (c14_2d rec fuel t v d a ns st l st' D HS HL HA HR) as (_ & zx & zy & Gx & Gy & xs & noise & e & Hdr & _ & Hln & Hpm & Hno & Hf).
    destruct (fits_at 0 zx ltac:(lia) Gx) as (P1 & P2 & ->). destruct (fits_at 1 zy ltac:(lia) Gy) as (P3 & P4 & ->). rewrite !padded_off by lia. rewrite !Nat.mul_1_r.
    exists xs, e. split; [exact Hdr|]. cbn [cells nth] in P2, P4.
    pose proof (Sp 0%nat ltac:(lia)) as S0. pose proof (Sp 1%nat ltac:(lia)) as S1. cbn [step_of nth] in S0, S1. specialize (FC _ _ _ S0 S1 S0).
    destruct (raw2 o cl v (Z.to_nat (d_nx d)) (Z.to_nat (opt (d_ny d) 1%Z)) (Z.to_nat zx) (Z.to_nat zy) (d_dx d) (opt (d_dy d) (lit L (-1) 0)) (opt (a_sx a) (lit L 1 0)) (opt (a_sy a) (lit L 1 0)) noise l ltac:(lia) ltac:(lia) Hln) as [_ E2]; auto.
    + intros. rewrite E1. eapply short_cov2; eauto.
    + intros i j k Hi Hj Hk. replace k with 0%nat by lia. rewrite !Nat.mul_0_l, !Nat.add_0_r, ?Nat.mul_1_r. rewrite E2 by auto. apply Hno; lia.
  - destruct (c14_3d rec fuel t v d a ns st l st' D HS HL HA HR) as (zx & zy & zz & Gx & Gy & Gz & xs & noise & Hdr & _ & Hln & Hpm & Hno & Hf).
    destruct (fits_at 0 zx ltac:(lia) Gx) as (P1 & P2 & ->). destruct (fits_at 1 zy ltac:(lia) Gy) as (P3 & P4 & ->). destruct (fits_at 2 zz ltac:(lia) Gz) as (P5 & P6 & ->).
    exists xs, (gen st'). split; [exact Hdr|]. cbn [cells nth] in P2, P4, P6.
    pose proof (Sp 0%nat ltac:(lia)) as S0. pose proof (Sp 1%nat ltac:(lia)) as S1. pose proof (Sp 2%nat ltac:(lia)) as S2. cbn [step_of nth] in S0, S1, S2. specialize (FC _ _ _ S0 S1 S2).
    destruct (raw3 o cl v (Z.to_nat (d_nx d)) (Z.to_nat (opt (d_ny d) 1%Z)) (Z.to_nat (opt (d_nz d) 1%Z)) (Z.to_nat zx) (Z.to_nat zy) (Z.to_nat zz) (d_dx d) (opt (d_dy d) (lit L (-1) 0)) (opt (d_dz d) (lit L (-1) 0))
      (opt (a_sx a) (lit L 1 0)) (opt (a_sy a) (lit L 1 0)) (opt (a_sz a) (lit L 1 0)) noise l ltac:(lia) ltac:(lia) ltac:(lia) Hln) as [_ E2]; auto.
    + intros. rewrite !E1. eapply short_cov3; eauto.
    + intros i j k Hi Hj Hk. rewrite E2 by auto. apply Hno; lia.
Qed.
End Api.
