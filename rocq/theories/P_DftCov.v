(** Covariances of the fields. *)
From Coq Require Import ZArith List Bool Lia Reals Lra Psatz.
From Verif Require Import Base Arith RealArith M_Variogram M_Grid M_CovGrid M_Fft M_Field S_CovGrid S_Vario S_Spectrum P_Base P_Grid P_Bounds P_Overrun P_Cov P_VarioKernel P_Dft P_DftList P_DftField.
Import ListNotations.
Open Scope R_scope.

(** ** expectations *)
Section Exp.
Context {W : Type}.
Variable E : (W -> R) -> R.
Hypothesis HE : expectation E.
Lemma E_sum n (f : nat -> W -> R) : E (fun w => rsum n (fun j => f j w)) = rsum n (fun j => E (f j)).
Proof.
  destruct HE as (He & Ha & Hs). induction n; cbn [rsum].
  - rewrite (He _ (fun w => 0 * 0)) by (intros; ring). rewrite Hs. ring.
  - rewrite Ha, IHn. reflexivity.
Qed.
Lemma E_lin n (h : nat -> R) (x : nat -> W -> R) : E (fun w => rsum n (fun j => h j * x j w)) = rsum n (fun j => h j * E (x j)).
Proof. rewrite E_sum. apply rsum_ext. intros. apply HE. Qed.
Lemma E_white n (h g : nat -> R) noise : white E n noise ->
  E (fun w => rsum n (fun j => h j * nth j (noise w) 0) * rsum n (fun j => g j * nth j (noise w) 0)) = rsum n (fun j => h j * g j).
Proof.
  intros [_ Hw]. pose proof HE as (He & Ha & Hs).
  rewrite (He _ (fun w => rsum n (fun i => rsum n (fun j => h i * g j * (nth i (noise w) 0 * nth j (noise w) 0))))).
  - rewrite E_sum. apply rsum_ext. intros i Hi. rewrite (E_lin n (fun j => h i * g j) (fun j w => nth i (noise w) 0 * nth j (noise w) 0)).
    rewrite (rsum_ext _ _ (fun j => if (j =? i)%nat then h i * g j else 0)).
    + apply rsum_pick. auto.
    + intros j Hj. rewrite Hw, Nat.eqb_sym by auto. destruct (j =? i)%nat; ring.
  - intros w. rewrite rsum_mult. apply rsum_ext. intros i Hi. apply rsum_ext. intros j Hj. ring.
Qed.
Lemma E_centred n (h : nat -> R) noise : centred E n noise -> E (fun w => rsum n (fun j => h j * nth j (noise w) 0)) = 0.
Proof. intros H. rewrite E_lin. apply rsum_zero. intros i Hi. rewrite H by auto. ring. Qed.
End Exp.

(** ** clipped spectra over a system *)
Section Clip.
Variable S : dsys.
Hypothesis G : good S.
Notation N := (dN S).
Definition gclip (c : nat -> R) (i i' : nat) : R := / INR N * rsum N (fun k => Rmax (fre S c k) 0 * cos (dth S k i - dth S k i')).
Definition gmass (c : nat -> R) : R := rsum N (fun k => Rmax (- fre S c k) 0).
Definition req (c : nat -> R) (i i' : nat) : R := (c (dsb S i i') + c (dng S (dsb S i i'))) / 2.

Lemma ker_clip c i i' : (i < N)%nat -> (i' < N)%nat -> rsum N (fun l => ker S (amp S c) i l * ker S (amp S c) i' l) = gclip c i i'.
Proof.
  intros. rewrite (ker_auto S G) by (auto; intros; apply amp_ng; auto). unfold gclip. f_equal. apply rsum_ext. intros. rewrite amp_sq. reflexivity.
Qed.
Lemma Rmax_split a : Rmax a 0 = a + Rmax (- a) 0.
Proof. unfold Rmax. destruct (Rle_dec a 0), (Rle_dec (- a) 0); lra. Qed.
Lemma clip_split c i i' : (i < N)%nat -> (i' < N)%nat ->
  gclip c i i' = req c i i' + / INR N * rsum N (fun k => Rmax (- fre S c k) 0 * cos (dth S k i - dth S k i')).
Proof.
  intros. unfold gclip, req. rewrite <- (synth S G) by auto. rewrite <- Rmult_plus_distr_l, <- rsum_plus. f_equal. apply rsum_ext. intros.
  rewrite (Rmax_split (fre S c i0)). ring.
Qed.
Lemma clip_nonneg c i i' : (forall k, (k < N)%nat -> 0 <= fre S c k) -> (i < N)%nat -> (i' < N)%nat -> gclip c i i' = req c i i'.
Proof.
  intros H Hi Hi'. rewrite clip_split by auto. rewrite rsum_zero; [ring|]. intros k Hk. specialize (H k Hk). rewrite Rmax_right by lra. ring.
Qed.
Lemma mass_nonneg c : 0 <= gmass c.
Proof. apply rsum_nonneg. intros. apply Rmax_r. Qed.
Lemma mass_0 c : gmass c = 0 <-> forall k, (k < N)%nat -> 0 <= fre S c k.
Proof.
  split.
  - intros H k Hk. pose proof (rsum_nonneg_0 _ _ (fun i _ => Rmax_r (- fre S c i) 0) H k Hk) as X. cbv beta in X. pose proof (Rmax_l (- fre S c k) 0). lra.
  - intros H. apply rsum_zero. intros k Hk. apply Rmax_right. specialize (H k Hk). lra.
Qed.
Lemma clip_diff c i i' : (i < N)%nat -> (i' < N)%nat -> Rabs (gclip c i i' - req c i i') <= gmass c / INR N.
Proof.
  intros. rewrite clip_split by auto. pose proof (N_pos S G) as HN. 
  replace (req c i i' + _ - _) with (/ INR N * rsum N (fun k => Rmax (- fre S c k) 0 * cos (dth S k i - dth S k i'))) by ring.
  rewrite Rabs_mult, Rabs_right by (apply Rle_ge, Rlt_le, Rinv_0_lt_compat; auto). unfold Rdiv. rewrite Rmult_comm.
  apply Rmult_le_compat_r; [apply Rlt_le, Rinv_0_lt_compat; auto|].
  eapply Rle_trans; [apply rsum_abs|]. apply rsum_le. intros k Hk. rewrite Rabs_mult. pose proof (Rmax_r (- fre S c k) 0).
  rewrite Rabs_right by lra. rewrite <- (Rmult_1_r (Rmax _ _)) at 2. apply Rmult_le_compat_l; auto. apply Rabs_le. apply COS_bound.
Qed.
Lemma clip_same c i : (i < N)%nat -> gclip c i i = req c i i + gmass c / INR N.
Proof.
  intros. rewrite clip_split by auto. f_equal. unfold gmass, Rdiv. rewrite Rmult_comm. f_equal. apply rsum_ext. intros. rewrite Rminus_eq_0, cos_0. ring.
Qed.
End Clip.

(** ** the specification's sums *)
Lemma wave1_ang n k i i' : (0 < n)%nat -> wave1 n k (INR i - INR i') = cos (ang n k i - ang n k i').
Proof. intros H. pose proof (lt_0_INR n H). unfold wave1, ang. f_equal. field. lra. Qed.
Lemma wave1_ang0 n k i : (0 < n)%nat -> wave1 n k (INR i) = cos (ang n k i).
Proof. intros H. pose proof (lt_0_INR n H). unfold wave1, ang. f_equal. field. lra. Qed.
Lemma spectral1_fre n c k : (k < n)%nat -> spectral1 n c k = fre (sys1 n) c k.
Proof. intros H. unfold spectral1, fre. rewrite dN1. apply rsum_ext. intros j Hj. rewrite th1, wave1_ang0 by (auto; lia). reflexivity. Qed.
Lemma clipped1_g n c i i' : (i < n)%nat -> (i' < n)%nat -> clipped1 n c (INR i - INR i') = gclip (sys1 n) c i i'.
Proof.
  intros. unfold clipped1, gclip. rewrite dN1. f_equal. apply rsum_ext. intros k Hk. rewrite spectral1_fre, wave1_ang, !th1 by (auto; lia). reflexivity.
Qed.
Lemma mass1_g n c : mass1 n c = gmass (sys1 n) c.
Proof. unfold mass1, gmass. rewrite dN1. apply rsum_ext. intros. rewrite spectral1_fre by auto. reflexivity. Qed.
Lemma nonneg1_g n c : nonneg1 n c <-> forall k, (k < dN (sys1 n))%nat -> 0 <= fre (sys1 n) c k.
Proof. rewrite dN1. split; intros H k Hk; specialize (H k Hk); rewrite spectral1_fre in *; auto. Qed.

Lemma spectral2_fre nx ny c kx ky : (kx < nx)%nat -> (ky < ny)%nat -> spectral2 nx ny c kx ky = fre (sys2 ny nx) (flat2 nx ny c) (ky * nx + kx).
Proof.
  intros Hx Hy. unfold spectral2, sum2, fre. rewrite sumf2, rsum_swap. apply rsum_ext. intros j Hj. apply rsum_ext. intros i Hi.
  rewrite th2 by auto. unfold flat2. destruct (flat_div nx j i Hi) as [-> ->]. f_equal. unfold wave2, ang. f_equal.
  pose proof (lt_0_INR nx ltac:(lia)). pose proof (lt_0_INR ny ltac:(lia)). field. lra.
Qed.
Lemma clipped2_g nx ny c i j i' j' : (i < nx)%nat -> (j < ny)%nat -> (i' < nx)%nat -> (j' < ny)%nat ->
  clipped2 nx ny c (INR i - INR i') (INR j - INR j') = gclip (sys2 ny nx) (flat2 nx ny c) (j * nx + i) (j' * nx + i').
Proof.
  intros. pose proof (lt_0_INR nx ltac:(lia)). pose proof (lt_0_INR ny ltac:(lia)).
  unfold clipped2, gclip, sum2. rewrite sumf2, rsum_swap, dN2, mult_INR. rewrite (Rmult_comm (INR nx)). f_equal. apply rsum_ext. intros ky Hky. apply rsum_ext. intros kx Hkx.
  rewrite spectral2_fre, !th2 by auto. f_equal. unfold wave2, ang. f_equal. field. lra.
Qed.
Lemma mass2_g nx ny c : mass2 nx ny c = gmass (sys2 ny nx) (flat2 nx ny c).
Proof. unfold mass2, gmass, sum2. rewrite sumf2, rsum_swap. apply rsum_ext. intros. apply rsum_ext. intros. rewrite spectral2_fre by auto. reflexivity. Qed.
Lemma nonneg2_g nx ny c : nonneg2 nx ny c <-> forall k, (k < dN (sys2 ny nx))%nat -> 0 <= fre (sys2 ny nx) (flat2 nx ny c) k.
Proof.
  split.
  - intros H k Hk. rewrite dN2 in Hk. destruct (div_lt_flat _ _ _ Hk) as [Ha Hb]. specialize (H _ _ Hb Ha). rewrite spectral2_fre in H by auto.
    replace k with (k / nx * nx + k mod nx)%nat by (rewrite (Nat.div_mod k nx) at 3 by lia; lia). exact H.
  - intros H kx ky Hx Hy. rewrite spectral2_fre by auto. apply H. apply flat_lt; auto.
Qed.

Lemma rsum_swap3 a b c f : rsum a (fun i => rsum b (fun j => rsum c (fun k => f i j k))) = rsum c (fun k => rsum b (fun j => rsum a (fun i => f i j k))).
Proof.
  rewrite (rsum_ext a _ (fun i => rsum c (fun k => rsum b (fun j => f i j k)))) by (intros; apply rsum_swap).
  rewrite rsum_swap. apply rsum_ext. intros. apply rsum_swap.
Qed.
Lemma spectral3_fre nx ny nz c kx ky kz : (kx < nx)%nat -> (ky < ny)%nat -> (kz < nz)%nat ->
  spectral3 nx ny nz c kx ky kz = fre (sys3 nz ny nx) (flat3 nx ny c) ((kz * ny + ky) * nx + kx).
Proof.
  intros Hx Hy Hz. unfold spectral3, sum3, fre. rewrite sumf3, rsum_swap3. apply rsum_ext. intros k Hk. apply rsum_ext. intros j Hj. apply rsum_ext. intros i Hi.
  rewrite th3 by auto. unfold flat3. destruct (flat_div nx (k * ny + j) i Hi) as [-> ->]. destruct (flat_div ny k j Hj) as [-> ->]. f_equal. unfold wave3, ang. f_equal.
  pose proof (lt_0_INR nx ltac:(lia)). pose proof (lt_0_INR ny ltac:(lia)). pose proof (lt_0_INR nz ltac:(lia)). field. lra.
Qed.
Lemma clipped3_g nx ny nz c i j k i' j' k' : (i < nx)%nat -> (j < ny)%nat -> (k < nz)%nat -> (i' < nx)%nat -> (j' < ny)%nat -> (k' < nz)%nat ->
  clipped3 nx ny nz c (INR i - INR i') (INR j - INR j') (INR k - INR k') = gclip (sys3 nz ny nx) (flat3 nx ny c) ((k * ny + j) * nx + i) ((k' * ny + j') * nx + i').
Proof.
  intros. pose proof (lt_0_INR nx ltac:(lia)). pose proof (lt_0_INR ny ltac:(lia)). pose proof (lt_0_INR nz ltac:(lia)).
  unfold clipped3, gclip, sum3. rewrite sumf3, rsum_swap3, dN3, !mult_INR. replace (INR nz * INR ny * INR nx) with (INR nx * INR ny * INR nz) by ring.
  f_equal. apply rsum_ext. intros kz Hkz. apply rsum_ext. intros ky Hky. apply rsum_ext. intros kx Hkx.
  rewrite spectral3_fre, !th3 by auto. f_equal. unfold wave3, ang. f_equal. field. lra.
Qed.
Lemma mass3_g nx ny nz c : mass3 nx ny nz c = gmass (sys3 nz ny nx) (flat3 nx ny c).
Proof. unfold mass3, gmass, sum3. rewrite sumf3, rsum_swap3. apply rsum_ext. intros. apply rsum_ext. intros. apply rsum_ext. intros. rewrite spectral3_fre by auto. reflexivity. Qed.
Lemma nonneg3_g nx ny nz c : nonneg3 nx ny nz c <-> forall k, (k < dN (sys3 nz ny nx))%nat -> 0 <= fre (sys3 nz ny nx) (flat3 nx ny c) k.
Proof.
  split.
  - intros H k Hk. rewrite dN3 in Hk. destruct (div_lt_flat _ _ _ Hk) as [Ha Hb]. destruct (div_lt_flat _ _ _ Ha) as [Hc Hd]. specialize (H _ _ _ Hb Hd Hc). rewrite spectral3_fre in H by auto.
    replace k with ((k / nx / ny * ny + (k / nx) mod ny) * nx + k mod nx)%nat; [exact H|].
    assert (nx <> 0 /\ ny <> 0)%nat as [? ?] by lia.
    replace (k / nx / ny * ny + (k / nx) mod ny)%nat with (k / nx)%nat by (rewrite (Nat.div_mod (k / nx) ny) at 1 by auto; lia).
    rewrite (Nat.div_mod k nx) at 3 by auto. lia.
  - intros H kx ky kz Hx Hy Hz. rewrite spectral3_fre by auto. apply H. apply flat_lt; auto. apply flat_lt; auto.
Qed.

(** ** kernels *)
Lemma ker1_clip n c i i' : (i < n)%nat -> (i' < n)%nat -> rsum n (fun l => ker1 n c i l * ker1 n c i' l) = clipped1 n c (INR i - INR i').
Proof. intros. rewrite clipped1_g, <- (ker_clip _ (sys1_good n ltac:(lia))) by (rewrite ?dN1; auto). rewrite dN1. reflexivity. Qed.
Lemma ker2_clip nx ny c i j i' j' : (i < nx)%nat -> (j < ny)%nat -> (i' < nx)%nat -> (j' < ny)%nat ->
  rsum (nx * ny) (fun l => ker2 nx ny c i j l * ker2 nx ny c i' j' l) = clipped2 nx ny c (INR i - INR i') (INR j - INR j').
Proof.
  intros. rewrite clipped2_g, <- (ker_clip _ (sys2_good ny nx ltac:(lia) ltac:(lia))) by (auto; apply flat_lt; auto). rewrite dN2, Nat.mul_comm. reflexivity.
Qed.
Lemma ker3_clip nx ny nz c i j k i' j' k' : (i < nx)%nat -> (j < ny)%nat -> (k < nz)%nat -> (i' < nx)%nat -> (j' < ny)%nat -> (k' < nz)%nat ->
  rsum (nx * ny * nz) (fun l => ker3 nx ny nz c i j k l * ker3 nx ny nz c i' j' k' l) = clipped3 nx ny nz c (INR i - INR i') (INR j - INR j') (INR k - INR k').
Proof.
  intros. rewrite clipped3_g, <- (ker_clip _ (sys3_good nz ny nx ltac:(lia) ltac:(lia) ltac:(lia))) by (auto; apply flat_lt; auto; apply flat_lt; auto).
  rewrite dN3. replace (nz * ny * nx)%nat with (nx * ny * nz)%nat by ring. reflexivity.
Qed.

(** ** lags *)
Lemma mirror_sub n i i' : (i < n)%nat -> (i' < n)%nat -> mirror n ((i + (n - i')) mod n) = ((i' + (n - i)) mod n)%nat.
Proof.
  intros Hi Hi'. unfold mirror. destruct (Nat.lt_trichotomy i i') as [H|[H|H]].
  - rewrite (Nat.mod_small (i + (n - i'))) by lia. rewrite Nat.mod_small by lia.
    replace (i' + (n - i))%nat with (i' - i + 1 * n)%nat by lia. rewrite Nat.mod_add, Nat.mod_small by lia. lia.
  - subst. replace (i' + (n - i'))%nat with n by lia. rewrite Nat.mod_same, Nat.sub_0_r, Nat.mod_same by lia. reflexivity.
  - rewrite (Nat.mod_small (i' + (n - i))) by lia. replace (i + (n - i'))%nat with (i - i' + 1 * n)%nat by lia. rewrite Nat.mod_add, (Nat.mod_small (i - i')) by lia.
    rewrite Nat.mod_small by lia. lia.
Qed.
Lemma wrapped_sub n i i' a q : (i < n)%nat -> (i' < n)%nat -> (Z.of_nat i - Z.of_nat i' = a + q * Z.of_nat n)%Z -> (2 * Z.abs a < Z.of_nat n)%Z ->
  wrapped n ((i + (n - i')) mod n) = a /\ (2 * ((i + (n - i')) mod n) <> n)%nat.
Proof.
  intros Hi Hi' E Ha.
  assert (Q : (q = -1 \/ q = 0 \/ q = 1)%Z) by nia.
  destruct (Nat.lt_ge_cases i i').
  - rewrite Nat.mod_small by lia. unfold wrapped. destruct (Nat.ltb_spec (2 * (i + (n - i'))) n), Q as [-> | [-> | ->]]; lia.
  - replace (i + (n - i'))%nat with (i - i' + 1 * n)%nat by lia. rewrite Nat.mod_add, Nat.mod_small by lia. unfold wrapped.
    destruct (Nat.ltb_spec (2 * (i - i')) n), Q as [-> | [-> | ->]]; lia.
Qed.
Lemma sub_lt n i i' : (0 < n)%nat -> ((i + (n - i')) mod n < n)%nat.
Proof. intros. apply Nat.mod_upper_bound. lia. Qed.

(** the table entries that a pair of cells refers to *)
Definition sbm (n i i' : nat) : nat := ((i + (n - i')) mod n)%nat.
Lemma req1 n c i i' : (i < n)%nat -> (i' < n)%nat -> req (sys1 n) c i i' = (c (sbm n i i') + c (mirror n (sbm n i i'))) / 2.
Proof. intros. unfold req. rewrite sb1, ng1 by (auto; apply sub_lt; lia). reflexivity. Qed.
Lemma req2 nx ny c i j i' j' : (i < nx)%nat -> (j < ny)%nat -> (i' < nx)%nat -> (j' < ny)%nat ->
  req (sys2 ny nx) (flat2 nx ny c) (j * nx + i) (j' * nx + i')
  = (c (sbm nx i i') (sbm ny j j') + c (mirror nx (sbm nx i i')) (mirror ny (sbm ny j j'))) / 2.
Proof.
  intros. assert (X : (sbm nx i i' < nx)%nat) by (apply sub_lt; lia). pose proof (mirror_lt _ _ X).
  unfold req. rewrite sb2 by auto. fold (sbm nx i i') (sbm ny j j'). rewrite ng2 by auto. fold (mirror nx (sbm nx i i')) (mirror ny (sbm ny j j')). unfold flat2.
  destruct (flat_div nx (sbm ny j j') (sbm nx i i')) as [-> ->]; auto. destruct (flat_div nx (mirror ny (sbm ny j j')) (mirror nx (sbm nx i i'))) as [-> ->]; auto.
Qed.
Lemma req3 nx ny nz c i j k i' j' k' : (i < nx)%nat -> (j < ny)%nat -> (k < nz)%nat -> (i' < nx)%nat -> (j' < ny)%nat -> (k' < nz)%nat ->
  req (sys3 nz ny nx) (flat3 nx ny c) ((k * ny + j) * nx + i) ((k' * ny + j') * nx + i')
  = (c (sbm nx i i') (sbm ny j j') (sbm nz k k') + c (mirror nx (sbm nx i i')) (mirror ny (sbm ny j j')) (mirror nz (sbm nz k k'))) / 2.
Proof.
  intros. assert (X : (sbm nx i i' < nx)%nat) by (apply sub_lt; lia). pose proof (mirror_lt _ _ X).
  assert (Y : (sbm ny j j' < ny)%nat) by (apply sub_lt; lia). pose proof (mirror_lt _ _ Y).
  unfold req. rewrite sb3 by auto. fold (sbm nx i i') (sbm ny j j') (sbm nz k k'). rewrite ng3 by auto.
  fold (mirror nx (sbm nx i i')) (mirror ny (sbm ny j j')) (mirror nz (sbm nz k k')). unfold flat3.
  set (a := sbm nx i i') in *. set (b := sbm ny j j') in *. set (d := sbm nz k k') in *.
  destruct (flat_div nx (d * ny + b) a) as [-> ->]; auto. destruct (flat_div nx (mirror nz d * ny + mirror ny b) (mirror nx a)) as [-> ->]; auto.
  destruct (flat_div ny d b) as [-> ->]; auto. destruct (flat_div ny (mirror nz d) (mirror ny b)) as [-> ->]; auto.
Qed.

(** ** exact covariances when nothing is clipped *)
Lemma lag1_wrap n i i' (dx : R) : (i < n)%nat -> (i' < n)%nat ->
  let d := (Nat.max i i' - Nat.min i i')%nat in
  @lag1 Rarith n (sbm n i i') dx = INR (Nat.min d (n - d)) * dx /\ @lag1 Rarith n (mirror n (sbm n i i')) dx = INR (Nat.min d (n - d)) * dx.
Proof.
  intros Hi Hi' d. assert (Hd : (d < n)%nat) by (unfold d; lia). assert (X : forall e, (e = d \/ e = n - d)%nat -> (e < n)%nat -> @lag1 Rarith n e dx = INR (Nat.min d (n - d)) * dx).
  { intros e He Hl. rewrite INR_IZR_INZ. unfold lag1. destruct (Nat.ltb_spec (2 * e) n) as [H|H]; cycle 1; cbn [mul ofZ Rarith].
    - replace (Z.of_nat n - Z.of_nat e)%Z with (Z.of_nat (Nat.min d (n - d))) by lia. apply Rmult_comm.
    - replace (Nat.min d (n - d))%nat with e by lia. reflexivity. }
  unfold sbm. destruct (Nat.lt_trichotomy i i') as [H|[H|H]].
  - split; apply X; unfold mirror; rewrite ?(Nat.mod_small (i + (n - i'))) by lia; try lia; try (rewrite Nat.mod_small by lia; lia).
  - subst. replace (i' + (n - i'))%nat with n by lia. unfold mirror. rewrite Nat.mod_same, Nat.sub_0_r, Nat.mod_same by lia. split; apply X; lia.
  - replace (i + (n - i'))%nat with (i - i' + 1 * n)%nat by lia. rewrite Nat.mod_add, (Nat.mod_small (i - i')) by lia. unfold mirror.
    rewrite (Nat.mod_small (n - _)) by lia. split; apply X; lia.
Qed.
Lemma exact1 (v : variogram Rarith) n dx sx i i' : (i < n)%nat -> (i' < n)%nat -> 99999 / 100000 <= sx ->
  let d := (Nat.max i i' - Nat.min i i')%nat in
  req (sys1 n) (@cov1_spec Rarith v n dx sx) i i' = var v * @GetCorr1 Rarith v (INR (Nat.min d (n - d)) * dx).
Proof.
  intros Hi Hi' Hs d. rewrite req1 by auto. destruct (lag1_wrap n i i' dx Hi Hi') as [E1 E2]. fold d in E1, E2.
  unfold cov1_spec. destruct (FindSmoothingFactors _ _ _ _) as [[? ?] ?]. rewrite !kernel_off by auto. rewrite E1, E2. cbn. field.
Qed.
Lemma exact2 (v : variogram Rarith) nx dx ny dy sx sy i j i' j' a b q r :
  (i < nx)%nat -> (j < ny)%nat -> (i' < nx)%nat -> (j' < ny)%nat -> 99999 / 100000 <= sx -> 99999 / 100000 <= sy ->
  (Z.of_nat i - Z.of_nat i' = a + q * Z.of_nat nx)%Z -> (2 * Z.abs a < Z.of_nat nx)%Z ->
  (Z.of_nat j - Z.of_nat j' = b + r * Z.of_nat ny)%Z -> (2 * Z.abs b < Z.of_nat ny)%Z ->
  req (sys2 ny nx) (flat2 nx ny (@cov2_spec Rarith v nx dx ny dy sx sy)) (j * nx + i) (j' * nx + i')
  = var v * @GetCorr2 Rarith v (IZR a * dx) (IZR b * dy).
Proof.
  intros Hi Hj Hi' Hj' Hs Ht Ea Ha Eb Hb. rewrite req2 by auto.
  destruct (wrapped_sub _ _ _ _ _ Hi Hi' Ea Ha) as [Wa Na]. destruct (wrapped_sub _ _ _ _ _ Hj Hj' Eb Hb) as [Wb Nb].
  fold (sbm nx i i') in Wa, Na. fold (sbm ny j j') in Wb, Nb.
  rewrite cov2_mirror by (auto; apply sub_lt; lia).
  unfold cov2_spec. destruct (FindSmoothingFactors _ _ _ _) as [[? ?] ?]. rewrite !kernel_off by auto. unfold lag. rewrite Wa, Wb. cbn. field.
Qed.
Lemma exact3 (v : variogram Rarith) nx dx ny dy nz dz sx sy sz i j k i' j' k' a b c q r s :
  (i < nx)%nat -> (j < ny)%nat -> (k < nz)%nat -> (i' < nx)%nat -> (j' < ny)%nat -> (k' < nz)%nat ->
  99999 / 100000 <= sx -> 99999 / 100000 <= sy -> 99999 / 100000 <= sz ->
  (Z.of_nat i - Z.of_nat i' = a + q * Z.of_nat nx)%Z -> (2 * Z.abs a < Z.of_nat nx)%Z ->
  (Z.of_nat j - Z.of_nat j' = b + r * Z.of_nat ny)%Z -> (2 * Z.abs b < Z.of_nat ny)%Z ->
  (Z.of_nat k - Z.of_nat k' = c + s * Z.of_nat nz)%Z -> (2 * Z.abs c < Z.of_nat nz)%Z ->
  req (sys3 nz ny nx) (flat3 nx ny (@cov3_spec Rarith v nx dx ny dy nz dz sx sy sz)) ((k * ny + j) * nx + i) ((k' * ny + j') * nx + i')
  = var v * @GetCorr3 Rarith v (IZR a * dx) (IZR b * dy) (IZR c * dz).
Proof.
  intros Hi Hj Hk Hi' Hj' Hk' Hs Ht Hu Ea Ha Eb Hb Ec Hc. rewrite req3 by auto.
  destruct (wrapped_sub _ _ _ _ _ Hi Hi' Ea Ha) as [Wa Na]. destruct (wrapped_sub _ _ _ _ _ Hj Hj' Eb Hb) as [Wb Nb]. destruct (wrapped_sub _ _ _ _ _ Hk Hk' Ec Hc) as [Wc Nc].
  fold (sbm nx i i') in Wa, Na. fold (sbm ny j j') in Wb, Nb. fold (sbm nz k k') in Wc, Nc.
  rewrite cov3_mirror by (auto; apply sub_lt; lia).
  unfold cov3_spec. destruct (FindSmoothingFactors _ _ _ _) as [[? ?] ?]. rewrite !kernel_off by auto. unfold lag. rewrite Wa, Wb, Wc. cbn. field.
Qed.

Lemma no_clip1 n c i i' : nonneg1 n c -> (i < n)%nat -> (i' < n)%nat -> clipped1 n c (INR i - INR i') = req (sys1 n) c i i'.
Proof. intros H Hi Hi'. rewrite clipped1_g by auto. apply clip_nonneg; [apply sys1_good; lia|apply nonneg1_g; auto|rewrite dN1; auto|rewrite dN1; auto]. Qed.
Lemma no_clip2 nx ny c i j i' j' : nonneg2 nx ny c -> (i < nx)%nat -> (j < ny)%nat -> (i' < nx)%nat -> (j' < ny)%nat ->
  clipped2 nx ny c (INR i - INR i') (INR j - INR j') = req (sys2 ny nx) (flat2 nx ny c) (j * nx + i) (j' * nx + i').
Proof.
  intros H Hi Hj Hi' Hj'. rewrite clipped2_g by auto. apply clip_nonneg; [apply sys2_good; lia|apply nonneg2_g; auto|apply flat_lt; auto|apply flat_lt; auto].
Qed.
Lemma no_clip3 nx ny nz c i j k i' j' k' : nonneg3 nx ny nz c -> (i < nx)%nat -> (j < ny)%nat -> (k < nz)%nat -> (i' < nx)%nat -> (j' < ny)%nat -> (k' < nz)%nat ->
  clipped3 nx ny nz c (INR i - INR i') (INR j - INR j') (INR k - INR k') = req (sys3 nz ny nx) (flat3 nx ny c) ((k * ny + j) * nx + i) ((k' * ny + j') * nx + i').
Proof.
  intros H Hi Hj Hk Hi' Hj' Hk'. rewrite clipped3_g by auto. apply clip_nonneg; [apply sys3_good; lia|apply nonneg3_g; auto| |]; apply flat_lt; auto; apply flat_lt; auto.
Qed.
