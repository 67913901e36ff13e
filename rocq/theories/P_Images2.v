(** Fields with the default padding; images that are too near. *)
From Coq Require Import ZArith Bool String Lia Reals Lra Psatz List.
From Flocq Require Import Core.Raux.
From Verif Require Import Base Arith RealArith M_Variogram M_Padding M_FftSize M_Grid M_CovGrid M_Dsfmt M_Random M_Field M_Api S_Api S_CovGrid S_Sizes S_Room S_Vario S_Spectrum P_Base P_Grid P_Api P_Field P_Bounds P_Padding P_Cov P_Vario P_VarioNames P_VarioMore P_VarioKernel
  P_Dft P_DftList P_DftField P_DftCov P_DftMain P_DftRound P_Convex P_Images.
Import ListNotations.
Open Scope R_scope.

Lemma sub_zero (a b : R) : 0 <= a - b <= 0 -> a = b.
Proof. lra. Qed.
Section F.
Variables (o : Z -> outcome Z) (cl : Z -> Z -> Z).
Notation L := (Rlib o cl).
Variables (s : string) (main perp depth azi dp pw : R) (v : variogram L).
Hypothesis HC : @CreateVariogram Rarith s main perp depth azi dp pw = Ok v.
Hypotheses (Hm : 0 < main) (Hp : perp <> 0) (Hd : depth <> 0) (Hw : 0 < pw).
Hypothesis HT : convex_type (vt v) pw.
Lemma var_mul (x y : R) : y = x -> @var Rarith v * y = x.
Proof. intros ->. pose proof (var_1 _ _ _ _ _ _ _ _ HC) as E. exact (eq_trans (f_equal (fun z => z * x) E) (Rmult_1_l x)). Qed.
(** C27: exactly the periodised correlation *)
Lemma c27_field nx n (dx sx : R) : (0 < n)%nat -> (nx <= n)%nat -> 99999 / 100000 <= sx ->
  forall (W : Type) (E : (W -> R) -> R) (noise : W -> list R), expectation E -> white E n noise ->
  exists field : W -> list R, (forall w, @field1d L v nx n dx sx (noise w) = Ok (field w) /\ length (field w) = nx) /\
    forall i i', (i < nx)%nat -> (i' < nx)%nat ->
      let k := (Nat.max i i' - Nat.min i i')%nat in
      E (fun w => nth i (field w) 0 * nth i' (field w) 0) = @GetCorr1 Rarith v (INR (Nat.min k (n - k)) * dx).
Proof.
  intros Hn Hx Hs W E noise HE HW. destruct (c24 o cl v nx n dx sx Hn Hx W E noise HE HW) as (field & F & HF). exists field. split; auto.
  intros i i' Hi Hi' k. rewrite HF by auto. 
  rewrite no_clip1 by (try lia; apply (c27 _ _ _ _ _ _ _ _ HC); auto). 
  refine (eq_trans (exact1 v n dx sx i i' ltac:(lia) ltac:(lia) Hs) _). apply var_mul. reflexivity.
Qed.

Variables (rec : recursion) (fuel : nat) (t : Z) (d : dims L) (st : rstate) (ns : list Z).
Hypothesis HS : fst (step rec fuel t (CSize v d) st) = Ok (VSizes ns).
Hypothesis Hl : length ns = 1%nat.
Hypothesis Hsp : 0 < d_dx d /\ (0 <= d_nx d < 2 ^ 63)%Z.
Hypothesis Hdir : (or_main main perp <= main /\ or_main main depth <= main) \/ (radians azi = 0 /\ radians dp = 0).
Lemma c28_field n (sx : R) : (nth 0 ns 0 <= Z.of_nat n)%Z -> 99999 / 100000 <= sx ->
  let nx := Z.to_nat (d_nx d) in let dx := d_dx d in
  forall (W : Type) (E : (W -> R) -> R) (noise : W -> list R), expectation E -> white E n noise ->
  exists field : W -> list R, (forall w, @field1d L v nx n dx sx (noise w) = Ok (field w) /\ length (field w) = nx) /\
    forall i i', (i < nx)%nat -> (i' < nx)%nat ->
      let k := (Nat.max i i' - Nat.min i i')%nat in
      let c := E (fun w => nth i (field w) 0 * nth i' (field w) 0) in
      0 <= c - @GetCorr1 Rarith v (INR k * dx) <= corr_fun (vt v) pw 1 /\
      ((2 * k <= n)%nat \/ vt v = SPHERICAL -> c = @GetCorr1 Rarith v (INR k * dx)).
Proof.
  intros HN Hs nx dx W E noise HE HW.
  assert (Hsp' : forall i, (i < length ns)%nat -> 0 < spacing o cl d i /\ (cells d i < 2 ^ 63)%Z).
  { intros [|i] Hi; [split; [apply Hsp|apply Hsp]|lia]. }
  assert (B : (nx <= n)%nat /\ (0 < n)%nat).
  { pose proof (sizes_gt _ _ _ _ _ _ _ _ _ _ HC Hm Hp Hd _ _ _ _ _ _ HS Hsp' 0 ltac:(lia)) as F. rewrite Hl in F. cbn [range_used Nat.eqb] in F.
    destruct (created_ranges _ _ _ _ _ _ _ _ _ _ HC) as (Ex & _). rewrite Ex in F.
    assert (0 < main / spacing o cl d 0) by (apply Rdiv_lt_0_compat; [auto|apply Hsp]). change (cells d 0) with (d_nx d) in F.
    assert ((d_nx d < nth 0 ns 0)%Z) by (apply lt_IZR; lra). unfold nx. lia. }
  destruct B as [Hx Hn].
  destruct (c27_field nx n dx sx Hn Hx Hs W E noise HE HW) as (field & F & HF). exists field. split; auto.
  intros i i' Hi Hi' k c. assert (Ec : c = @GetCorr1 Rarith v (INR (Nat.min k (n - k)) * dx)) by (apply HF; auto).
  destruct (c28 _ _ _ _ _ _ _ _ _ _ HC Hm Hp Hd _ _ _ _ _ _ HS Hsp' Hw n i i' Hl Hdir HN ltac:(unfold nx in *; lia) ltac:(unfold nx in *; lia)) as [C1 C2]. fold k in C1, C2.
  change (d_dx d) with dx in C1, C2. rewrite <- Ec in C1. split; [exact C1|]. intros [H|H].
  - rewrite Ec. apply C2. auto.
  - rewrite H in C1. assert (Z0 : corr_fun SPHERICAL pw 1 = 0) by (cbn; destruct (Rlt_dec 1 1); [lra|reflexivity]). rewrite Z0 in C1.
    clear - C1. clearbody c. exact (sub_zero _ _ C1).
Qed.
End F.

(** ** counterexamples *)
Lemma cos90 : Rabs (cos (radians 90)) <= 1 / 2.
Proof.
  pose proof PI_gt as P1. pose proof PI_4 as P2. pose proof Degree_bounds as D.
  assert (B : PI / 3 <= radians 90 <= 2 * (PI / 3)) by (unfold radians; generalize dependent (@Degree Rarith); intros; cbn in *; lra).
  assert (H1 : cos (radians 90) <= cos (PI / 3)) by (apply cos_decr_1; lra).
  assert (H2 : cos (2 * (PI / 3)) <= cos (radians 90)) by (apply cos_decr_1; lra).
  rewrite cos_PI3 in H1. rewrite cos_2PI3 in H2. apply Rabs_le. lra.
Qed.

Lemma best_112 even : best_size even 112 112.
Proof.
  split.
  - split; [|split; [lia|intros _; exists 56%Z; reflexivity]]. exists 4%Z, 0%Z, 0%Z, 1%Z. repeat split; lia.
  - intros n' (_ & H & _). exact H.
Qed.

Section Bad.
Variables (o : Z -> outcome Z) (cl : Z -> Z -> Z).
Notation L := (Rlib o cl).
Variables (rec : recursion) (fuel : nat) (t : Z) (st : rstate).
Definition sph (main perp depth azi dp : R) : variogram L := @new_variogram Rarith SPHERICAL (lit Rarith 0 0) main perp depth (radians azi) (radians dp) (lit Rarith 1 0).
Lemma sph_created main perp depth azi dp pw : 0 <= perp -> 0 <= depth -> @CreateVariogram Rarith "spherical" main perp depth azi dp pw = Ok (sph main perp depth azi dp).
Proof.
  intros Hp Hd. unfold CreateVariogram, sph. change (Uppercase "spherical") with (Ok "SPHERICAL"%string). cbn [bind].
  assert (E : forall r : R, 0 <= r -> flt Rarith r (lit Rarith 0 0) = false).
  { intros r Hr. cbn. unfold Rltb. destruct (Rlt_dec r (0 / 1)); auto; lra. }
  rewrite !E by auto. reflexivity.
Qed.
Definition dims3 (nx ny nz : Z) : dims L := @mkDims L nx 1 (Some ny) (Some 1) (Some nz) (Some 1).

Lemma args_dims3 nx ny nz : (0 <= nx < 2 ^ 64)%Z -> (0 <= ny < 2 ^ 64)%Z -> (0 <= nz < 2 ^ 64)%Z -> exists dx dy dz, args (dims3 nx ny nz) = Ok (nx, dx, ny, dy, nz, dz) /\ dx = 1 /\ dy = 1 /\ dz = 1.
Proof.
  intros Hx Hy Hz. unfold args. cbn [d_nx d_ny d_nz d_dx d_dy d_dz dims3 opt]. rewrite !as_size_ok by (unfold size_ok; assumption). cbn [bind]. eauto 10.
Qed.
Lemma size_bad main perp depth azi dp nx ny nz : 0 < main < 100000 -> 0 < perp < 100000 -> 0 < depth < 100000 ->
  (0 <= nx <= 2 ^ 31)%Z -> (0 <= ny <= 2 ^ 31)%Z -> (0 <= nz <= 2 ^ 31)%Z ->
  exists ns, fst (step rec fuel t (CSize (sph main perp depth azi dp) (dims3 nx ny nz)) st) = Ok (VSizes ns) /\
    length ns = (if (ny <=? 1)%Z then 1 else if (nz <=? 1)%Z then 2 else 3)%nat.
Proof.
  intros Hm Hp Hd Hx Hy Hz. cbn [step fst]. destruct (args_dims3 nx ny nz) as (dx & dy & dz & E & -> & -> & ->); try lia. rewrite E. cbn [bind].
  set (v := sph main perp depth azi dp).
  assert (FG : forall n r, (0 <= n <= 2 ^ 31)%Z -> 0 < r < 100000 -> exists p, @FindGaussianFieldPadding L v n r 1 = Ok p).
  { intros n r Hn Hr. apply (FGP_total v n r 1); auto; try lra; unfold v; cbn; try lra. }
  unfold FindGridSizeAfterPadding, FindNDimPadding.
  assert (MX : 0 < Rmax main perp < 100000) by (unfold Rmax; destruct (Rle_dec main perp); lra).
  destruct (Z.leb_spec ny 1).
  - destruct (FG nx main Hx Hm) as [p Ep]. change (range_x v) with main. rewrite Ep. cbn [bind omap]. eauto.
  - assert (EM : @fmax L (range_x v) (range_y v) = Rmax main perp) by apply fmax_Rmax. rewrite EM.
    destruct (FG nx _ Hx MX) as [p Ep].
    assert (RY : exists q, @FindGaussianFieldPadding L v ny (if (azimuth v =? lit L 0 0)%num then range_y v else Rmax main perp) 1 = Ok q).
    { destruct (azimuth v =? lit L 0 0)%num; apply FG; auto. }
    destruct RY as [q Eq]. 
    destruct (Z.leb_spec nz 1).
    + rewrite Ep. cbn [bind]. rewrite Eq. cbn [bind omap]. eauto.
    + destruct (FG nz depth Hz Hd) as [r Er]. change (range_z v) with depth. rewrite Ep. cbn [bind]. rewrite Eq. cbn [bind]. rewrite Er. cbn [bind omap]. eauto.
Qed.

Lemma size_bad' main perp depth azi dp nx ny nz : 0 < main < 100000 -> 0 < perp < 100000 -> 0 < depth < 100000 ->
  (0 <= nx <= 2 ^ 31)%Z -> (0 <= ny <= 2 ^ 31)%Z -> (0 <= nz <= 2 ^ 31)%Z ->
  exists ns, fst (step rec fuel t (CSize (sph main perp depth azi dp) (dims3 nx ny nz)) st) = Ok (VSizes ns) /\
    length ns = (if (ny <=? 1)%Z then 1 else if (nz <=? 1)%Z then 2 else 3)%nat /\
    forall i, (i < length ns)%nat -> size_rule (192 / 100) (range_used o cl (sph main perp depth azi dp) (length ns) i) 1 (nth i [nx; ny; nz] 0%Z) (nth i ns 0%Z).
Proof.
  intros Hm Hp Hd Hx Hy Hz. destruct (size_bad main perp depth azi dp nx ny nz) as (ns & E & Hl); auto. exists ns. split; [auto|split; [auto|]].
  assert (L3 : (length ns <= 3)%nat) by (rewrite Hl; destruct (ny <=? 1)%Z, (nz <=? 1)%Z; lia).
  assert (P : forall i, (i < length ns)%nat -> spacing o cl (dims3 nx ny nz) i = 1 /\ cells (dims3 nx ny nz) i = nth i [nx; ny; nz] 0%Z).
  { intros [|[|[|i]]] Hi; [split; reflexivity..|lia]. }
  intros i Hi. destruct (P i Hi) as [P1 P2]. rewrite <- P1, <- P2.
  replace (192 / 100) with (GetMinimumRangeToGridRatio (sph main perp depth azi dp)) by (cbn; lra).
  refine (size_exact o cl rec fuel t (sph main perp depth azi dp) (dims3 nx ny nz) st ns _ _ _ _ E i Hi); try (cbn; lra).
  intros j Hj. destruct (P j Hj) as [Q1 Q2]. rewrite Q1, Q2. split; [lra|]. destruct j as [|[|[|j]]]; cbn [nth]; lia.
Qed.
(** 101 cells along a range of 10 are padded to 112 *)
Lemma rule_112 (N : Z) : size_rule (192 / 100) 10 1 101 N -> N = 112%Z.
Proof.
  intros [-> _]. replace (10 / 1) with (IZR 10) by (cbn; lra). rewrite Zfloor_IZR.
  assert (Ztrunc (192 / 100 * 10 / 1 - 101) <= 0)%Z; [|lia]. rewrite Ztrunc_ceil by lra. apply Zceil_glb. cbn. lra.
Qed.
Lemma lt1_sqrt x : 0 <= x -> x < 1 -> sqrt x < 1.
Proof. intros. rewrite <- sqrt_1. apply sqrt_lt_1_alt. lra. Qed.

(** 1D, variogram('spherical', 10, 1000, 10, azimuth 90): cells 0 and 100 *)
Lemma near_1d : let v := sph 10 1000 10 90 0 in
  exists ns, fst (step rec fuel t (CSize v (dims3 101 1 1)) st) = Ok (VSizes ns) /\ ns = [112%Z] /\
    ndist 10 1000 10 (radians 90) (radians 0) (IZR (100 + -1 * 112) * 1, 0, 0) < 1.
Proof.
  cbv zeta. destruct (size_bad' 10 1000 10 90 0 101 1 1) as (ns & E & Hl & R); try lra; try lia. exists ns. split; auto. split.
  - cbn in Hl. rewrite Hl in R. destruct ns as [|N [|]]; try discriminate. f_equal. apply rule_112. exact (R 0%nat ltac:(lia)).
  - rewrite radians_0. apply lt1_sqrt; [apply sq3|]. unfold dot, main_axis, perp_axis, third_axis. rewrite cos_0, sin_0.
    pose proof cos90 as C. apply Rabs_le_inv in C. pose proof (sc2 (radians 90)) as S. revert C S. generalize (cos (radians 90)) (sin (radians 90)). intros c s C S.
    replace (IZR (100 + -1 * 112) * 1) with (-12) by (cbn; lra).
    replace ((1 * c * -12 + 1 * s * 0 + 0 * 0) / 10) with (- 12 / 10 * c) by field. replace ((- s * -12 + c * 0 + 0 * 0) / 1000) with (12 / 1000 * s) by field.
    replace ((- (0 * c) * -12 + - (0 * s) * 0 + 1 * 0) / 10) with 0 by field. nra.
Qed.
(** 2D, dip 90, depth range 1000 *)
Lemma near_2d : let v := sph 10 10 1000 0 90 in
  exists ns, fst (step rec fuel t (CSize v (dims3 101 101 1)) st) = Ok (VSizes ns) /\ ns = [112; 112]%Z /\
    ndist 10 10 1000 (radians 0) (radians 90) (IZR (100 + -1 * 112) * 1, IZR (0 + 0 * 112) * 1, 0) < 1.
Proof.
  cbv zeta. destruct (size_bad' 10 10 1000 0 90 101 101 1) as (ns & E & Hl & R); try lra; try lia. exists ns. split; auto. split.
  - cbn in Hl. destruct ns as [|N [|M [|]]]; try discriminate.
    assert (H : forall i, (i < 2)%nat -> nth i [N; M] 0%Z = 112%Z).
    { intros i Hi. apply rule_112. pose proof (R i Hi) as H. assert (EM : Rmax 10 10 = 10) by (apply Rmax_left; lra).
      destruct i as [|[|i]]; [..|lia]; cbn [range_used length Nat.eqb] in H.
      - change (range_x _) with 10 in H. change (range_y _) with 10 in H. rewrite EM in H. exact H.
      - change (range_x _) with 10 in H. change (range_y _) with 10 in H. rewrite EM in H. destruct (Req_EM_T _ _); exact H. }
    pose proof (H 0%nat ltac:(lia)). pose proof (H 1%nat ltac:(lia)). cbn in *. congruence.
  - rewrite radians_0. apply lt1_sqrt; [apply sq3|]. unfold dot, main_axis, perp_axis, third_axis. rewrite cos_0, sin_0.
    pose proof cos90 as C. apply Rabs_le_inv in C. pose proof (sc2 (radians 90)) as S. revert C S. generalize (cos (radians 90)) (sin (radians 90)). intros c s C S.
    replace (IZR (100 + -1 * 112) * 1) with (-12) by (cbn; lra). replace (IZR (0 + 0 * 112) * 1) with 0 by (cbn; lra).
    replace ((c * 1 * -12 + c * 0 * 0 + s * 0) / 10) with (- 12 / 10 * c) by field. replace ((- 0 * -12 + 1 * 0 + 0 * 0) / 10) with 0 by field.
    replace ((- (s * 1) * -12 + - (s * 0) * 0 + c * 0) / 1000) with (12 / 1000 * s) by field. nra.
Qed.
(** 3D, dip 90, vertical range 10 *)
Lemma near_3d : let v := sph 1000 1000 10 0 90 in
  exists ns, fst (step rec fuel t (CSize v (dims3 2 2 101)) st) = Ok (VSizes ns) /\ length ns = 3%nat /\ nth 2 ns 0%Z = 112%Z /\
    ndist 1000 1000 10 (radians 0) (radians 90) (0, 0, IZR (100 + -1 * 112) * 1) < 1.
Proof.
  cbv zeta. destruct (size_bad' 1000 1000 10 0 90 2 2 101) as (ns & E & Hl & R); try lra; try lia. exists ns. split; auto. split; [auto|split].
  - cbn in Hl. rewrite Hl in R. apply rule_112. exact (R 2%nat ltac:(lia)).
  - rewrite radians_0. apply lt1_sqrt; [apply sq3|]. unfold dot, main_axis, perp_axis, third_axis. rewrite cos_0, sin_0.
    pose proof cos90 as C. apply Rabs_le_inv in C. pose proof (sc2 (radians 90)) as S. revert C S. generalize (cos (radians 90)) (sin (radians 90)). intros c s C S.
    replace (IZR (100 + -1 * 112) * 1) with (-12) by (cbn; lra).
    replace ((c * 1 * 0 + c * 0 * 0 + s * -12) / 1000) with (- 12 / 1000 * s) by field. replace ((- 0 * 0 + 1 * 0 + 0 * -12) / 1000) with 0 by field.
    replace ((- (s * 1) * 0 + - (s * 0) * 0 + c * -12) / 10) with (- 12 / 10 * c) by field. nra.
Qed.
End Bad.
