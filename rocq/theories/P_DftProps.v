(** Combinations used by the covariance theorems, and examples. *)
From Coq Require Import ZArith Bool String Lia Reals Lra Psatz List.
From Flocq Require Import Core.Raux.
From Verif Require Import Base Arith RealArith M_Variogram M_CovGrid M_Fft M_Dsfmt M_Random M_Field M_Api S_Api S_Sizes S_CovGrid S_Vario S_Spectrum P_Base P_Cov P_Vario P_VarioNames P_VarioMore P_VarioKernel
  P_Bounds P_Overrun P_Dft P_DftList P_DftField P_DftCov P_DftMain P_DftRound P_Convex P_Images P_Images2.
Import ListNotations.
Open Scope R_scope.

Lemma diff_mirror n i i' : (i < n)%nat -> (i' < n)%nat -> mirror n (sbm n i i') = diff n i' i.
Proof.
  intros Hi Hi'. unfold mirror, sbm, diff. destruct (Nat.le_gt_cases i' i) as [H|H].
  - replace (i + (n - i'))%nat with ((i - i') + 1 * n)%nat by lia. rewrite Nat.mod_add, (Nat.mod_small (i - i')) by lia. f_equal. lia.
  - rewrite (Nat.mod_small (i + (n - i'))) by lia. replace (n - (i + (n - i')))%nat with (i' - i)%nat by lia.
    replace (i' + (n - i))%nat with ((i' - i) + 1 * n)%nat by lia. rewrite Nat.mod_add by lia. reflexivity.
Qed.
Lemma asked_same1 n c i : (i < n)%nat -> asked1 n c i i = c 0%nat.
Proof. intros H. unfold asked1. fold (sbm n i i). rewrite sbm_same by auto. lra. Qed.

Section F.
Variables (o : Z -> outcome Z) (cl : Z -> Z -> Z).
Notation L := (Rlib o cl).
Variable v : variogram L.

(** C24-C26, exact form *)
Lemma c24_exact nx n dx sx : (0 < n)%nat -> (nx <= n)%nat -> 99999 / 100000 <= sx -> nonneg1 n (@cov1_spec Rarith v n dx sx) ->
  forall i i', (i < nx)%nat -> (i' < nx)%nat ->
    let d := (Nat.max i i' - Nat.min i i')%nat in
    clipped1 n (@cov1_spec Rarith v n dx sx) (INR i - INR i') = @var Rarith v * @GetCorr1 Rarith v (INR (Nat.min d (n - d)) * dx).
Proof.
  intros Hn Hx Hs HN i i' Hi Hi' d. rewrite no_clip1 by (auto; lia). exact (exact1 v n dx sx i i' ltac:(lia) ltac:(lia) Hs).
Qed.
Lemma c25_exact nx ny nxt nyt dx dy sx sy : (nx <= nxt)%nat -> (ny <= nyt)%nat -> 99999 / 100000 <= sx -> 99999 / 100000 <= sy ->
  nonneg2 nxt nyt (@cov2_spec Rarith v nxt dx nyt dy sx sy) ->
  forall i j i' j' a b q r, (i < nx)%nat -> (j < ny)%nat -> (i' < nx)%nat -> (j' < ny)%nat ->
    (Z.of_nat i - Z.of_nat i' = a + q * Z.of_nat nxt)%Z -> (2 * Z.abs a < Z.of_nat nxt)%Z ->
    (Z.of_nat j - Z.of_nat j' = b + r * Z.of_nat nyt)%Z -> (2 * Z.abs b < Z.of_nat nyt)%Z ->
    clipped2 nxt nyt (@cov2_spec Rarith v nxt dx nyt dy sx sy) (INR i - INR i') (INR j - INR j') = @var Rarith v * @GetCorr2 Rarith v (IZR a * dx) (IZR b * dy).
Proof.
  intros Hx Hy Hs Ht HN i j i' j' a b q r Hi Hj Hi' Hj' Ea Ha Eb Hb. rewrite no_clip2 by (auto; lia).
  apply (exact2 v nxt dx nyt dy sx sy i j i' j' a b q r); auto; lia.
Qed.
Lemma c26_exact nx ny nz nxt nyt nzt dx dy dz sx sy sz : (nx <= nxt)%nat -> (ny <= nyt)%nat -> (nz <= nzt)%nat ->
  99999 / 100000 <= sx -> 99999 / 100000 <= sy -> 99999 / 100000 <= sz ->
  nonneg3 nxt nyt nzt (@cov3_spec Rarith v nxt dx nyt dy nzt dz sx sy sz) ->
  forall i j k i' j' k' a b c q r s, (i < nx)%nat -> (j < ny)%nat -> (k < nz)%nat -> (i' < nx)%nat -> (j' < ny)%nat -> (k' < nz)%nat ->
    (Z.of_nat i - Z.of_nat i' = a + q * Z.of_nat nxt)%Z -> (2 * Z.abs a < Z.of_nat nxt)%Z ->
    (Z.of_nat j - Z.of_nat j' = b + r * Z.of_nat nyt)%Z -> (2 * Z.abs b < Z.of_nat nyt)%Z ->
    (Z.of_nat k - Z.of_nat k' = c + s * Z.of_nat nzt)%Z -> (2 * Z.abs c < Z.of_nat nzt)%Z ->
    clipped3 nxt nyt nzt (@cov3_spec Rarith v nxt dx nyt dy nzt dz sx sy sz) (INR i - INR i') (INR j - INR j') (INR k - INR k')
    = @var Rarith v * @GetCorr3 Rarith v (IZR a * dx) (IZR b * dy) (IZR c * dz).
Proof.
  intros Hx Hy Hz Hs Ht Hu HN i j k i' j' k' a b c q r s Hi Hj Hk Hi' Hj' Hk' Ea Ha Eb Hb Ec Hc. rewrite no_clip3 by (auto; lia).
  apply (exact3 v nxt dx nyt dy nzt dz sx sy sz i j k i' j' k' a b c q r s); auto; lia.
Qed.

Variables (s : string) (main perp depth azi dp pw : R).
Hypothesis HC : @CreateVariogram Rarith s main perp depth azi dp pw = Ok v.
Hypotheses (Hm : 0 < main) (Hp : perp <> 0) (Hd : depth <> 0) (Hw : 0 < pw).
Lemma var_facts (N m V : R) (P : Prop) : 0 < N -> V = 1 + m / N -> 0 <= m -> (m = 0 <-> P) -> 1 <= V /\ (V = 1 <-> P).
Proof.
  intros HN -> Hm0 HP. assert (0 <= m / N) by (apply Rmult_le_pos; [auto|left; apply Rinv_0_lt_compat; auto]). split; [lra|]. rewrite <- HP. split.
  - intros H1. assert (E : m / N * N = m) by (field; lra). rewrite <- E. replace (m / N) with 0 by lra. ring.
  - intros ->. unfold Rdiv. lra.
Qed.
Lemma c29f_1 nx n (dx sx : R) : (0 < n)%nat -> (nx <= n)%nat ->
  forall (W : Type) (E : (W -> R) -> R) (noise : W -> list R), expectation E -> white E n noise ->
  exists field : W -> list R, (forall w, @field1d L v nx n dx sx (noise w) = Ok (field w) /\ length (field w) = nx) /\
    let c := @cov1_spec Rarith v n dx sx in
    (forall i, (i < nx)%nat -> let V := E (fun w => nth i (field w) 0 * nth i (field w) 0) in
       V = 1 + mass1 n c / INR n /\ 1 <= V /\ (V = 1 <-> nonneg1 n c)) /\
    (forall i i', (i < nx)%nat -> (i' < nx)%nat ->
       Rabs (E (fun w => nth i (field w) 0 * nth i' (field w) 0) - asked1 n c i i') <= mass1 n c / INR n).
Proof.
  intros Hn Hx W E noise HE HW. destruct (c24 o cl v nx n dx sx Hn Hx W E noise HE HW) as (field & F & HF). exists field. split; auto. intros c.
  destruct (c29_1 n c Hn) as (V0 & M0 & M1 & D). split.
  - intros i Hi V. assert (EV : V = 1 + mass1 n c / INR n).
    { unfold V. rewrite HF by auto. fold c. replace (INR i - INR i) with 0 by ring. rewrite V0. f_equal. apply (cov1_at0 _ _ _ _ _ _ _ _ HC); auto. }
    split; auto. apply (var_facts (INR n) (mass1 n c)); auto. apply lt_0_INR; auto.
  - intros i i' Hi Hi'. rewrite HF by auto. fold c. unfold asked1. rewrite <- (diff_mirror n i i') by lia. apply D; lia.
Qed.
Lemma c29f_2 nx ny nxt nyt (dx dy sx sy : R) : (0 < nxt)%nat -> (0 < nyt)%nat -> (nx <= nxt)%nat -> (ny <= nyt)%nat ->
  forall (W : Type) (E : (W -> R) -> R) (noise : W -> list R), expectation E -> white E (nxt * nyt) noise ->
  exists field : W -> list R, (forall w, @field2d L v nx ny nxt nyt dx dy sx sy (noise w) = Ok (field w) /\ length (field w) = (nx * ny)%nat) /\
    let c := @cov2_spec Rarith v nxt dx nyt dy sx sy in
    (forall i j, (i < nx)%nat -> (j < ny)%nat -> let V := E (fun w => nth (i + j * nx) (field w) 0 * nth (i + j * nx) (field w) 0) in
       V = 1 + mass2 nxt nyt c / (INR nxt * INR nyt) /\ 1 <= V /\ (V = 1 <-> nonneg2 nxt nyt c)) /\
    (forall i j i' j', (i < nx)%nat -> (j < ny)%nat -> (i' < nx)%nat -> (j' < ny)%nat ->
       Rabs (E (fun w => nth (i + j * nx) (field w) 0 * nth (i' + j' * nx) (field w) 0) - asked2 nxt nyt c i j i' j') <= mass2 nxt nyt c / (INR nxt * INR nyt)).
Proof.
  intros Nx Ny Hx Hy W E noise HE HW. destruct (c25 o cl v nx ny nxt nyt dx dy sx sy Hx Hy W E noise HE HW) as (field & F & HF). exists field. split; auto. intros c.
  destruct (c29_2 nxt nyt c Nx Ny) as (V0 & M0 & M1 & D). split.
  - intros i j Hi Hj V. assert (EV : V = 1 + mass2 nxt nyt c / (INR nxt * INR nyt)).
    { unfold V. rewrite HF by auto. fold c. replace (INR i - INR i) with 0 by ring. replace (INR j - INR j) with 0 by ring. rewrite V0. f_equal. apply (cov2_at0 _ _ _ _ _ _ _ _ HC); auto. }
    split; auto. apply (var_facts (INR nxt * INR nyt) (mass2 nxt nyt c)); auto. apply Rmult_lt_0_compat; apply lt_0_INR; auto.
  - intros i j i' j' Hi Hj Hi' Hj'. rewrite HF by auto. fold c. unfold asked2. rewrite <- (diff_mirror nxt i i'), <- (diff_mirror nyt j j') by lia. apply D; lia.
Qed.
Lemma c29f_3 nx ny nz nxt nyt nzt (dx dy dz sx sy sz : R) : (0 < nxt)%nat -> (0 < nyt)%nat -> (0 < nzt)%nat -> (nx <= nxt)%nat -> (ny <= nyt)%nat -> (nz <= nzt)%nat ->
  forall (W : Type) (E : (W -> R) -> R) (noise : W -> list R), expectation E -> white E (nxt * nyt * nzt) noise ->
  exists field : W -> list R, (forall w, @field3d L v nx ny nz nxt nyt nzt dx dy dz sx sy sz (noise w) = Ok (field w) /\ length (field w) = (nx * ny * nz)%nat) /\
    let c := @cov3_spec Rarith v nxt dx nyt dy nzt dz sx sy sz in
    (forall i j k, (i < nx)%nat -> (j < ny)%nat -> (k < nz)%nat ->
       let V := E (fun w => nth (i + j * nx + k * nx * ny) (field w) 0 * nth (i + j * nx + k * nx * ny) (field w) 0) in
       V = 1 + mass3 nxt nyt nzt c / (INR nxt * INR nyt * INR nzt) /\ 1 <= V /\ (V = 1 <-> nonneg3 nxt nyt nzt c)) /\
    (forall i j k i' j' k', (i < nx)%nat -> (j < ny)%nat -> (k < nz)%nat -> (i' < nx)%nat -> (j' < ny)%nat -> (k' < nz)%nat ->
       Rabs (E (fun w => nth (i + j * nx + k * nx * ny) (field w) 0 * nth (i' + j' * nx + k' * nx * ny) (field w) 0) - asked3 nxt nyt nzt c i j k i' j' k')
       <= mass3 nxt nyt nzt c / (INR nxt * INR nyt * INR nzt)).
Proof.
  intros Nx Ny Nz Hx Hy Hz W E noise HE HW. destruct (c26 o cl v nx ny nz nxt nyt nzt dx dy dz sx sy sz Hx Hy Hz W E noise HE HW) as (field & F & HF). exists field. split; auto. intros c.
  destruct (c29_3 nxt nyt nzt c Nx Ny Nz) as (V0 & M0 & M1 & D). split.
  - intros i j k Hi Hj Hk V. assert (EV : V = 1 + mass3 nxt nyt nzt c / (INR nxt * INR nyt * INR nzt)).
    { unfold V. rewrite HF by auto. fold c. replace (INR i - INR i) with 0 by ring. replace (INR j - INR j) with 0 by ring. replace (INR k - INR k) with 0 by ring.
      rewrite V0. f_equal. apply (cov3_at0 _ _ _ _ _ _ _ _ HC); auto. }
    split; auto. apply (var_facts (INR nxt * INR nyt * INR nzt) (mass3 nxt nyt nzt c)); auto. repeat apply Rmult_lt_0_compat; apply lt_0_INR; auto.
  - intros i j k i' j' k' Hi Hj Hk Hi' Hj' Hk'. rewrite HF by auto. fold c. unfold asked3. rewrite <- (diff_mirror nxt i i'), <- (diff_mirror nyt j j'), <- (diff_mirror nzt k k') by lia. apply D; lia.
Qed.
End F.

(** ** white noise exists: one cell, chosen at random, gets plus or minus sqrt n *)
Section W.
Variable n : nat.
Hypothesis Hn : (0 < n)%nat.
Definition Ex (f : nat * bool -> R) : R := / (2 * INR n) * rsum n (fun w => f (w, true) + f (w, false)).
Definition nz (w : nat * bool) : list R := map (fun i => if (i =? fst w)%nat then (if snd w then sqrt (INR n) else - sqrt (INR n)) else 0) (seq 0 n).
Lemma nth_nz i w : (i < n)%nat -> nth i (nz w) 0 = if (i =? fst w)%nat then (if snd w then sqrt (INR n) else - sqrt (INR n)) else 0.
Proof. intros H. unfold nz. rewrite nth_map_seq by auto. reflexivity. Qed.
Lemma white_example : expectation Ex /\ white Ex n nz /\ centred Ex n nz.
Proof.
  pose proof (lt_0_INR n Hn) as P. split; [split; [|split]|split; [split|]].
  - intros f g H. unfold Ex. f_equal. apply rsum_ext. intros i _. rewrite !H. reflexivity.
  - intros f g. unfold Ex. rewrite <- Rmult_plus_distr_l. f_equal. rewrite <- rsum_plus. apply rsum_ext. intros. ring.
  - intros a f. unfold Ex. rewrite <- Rmult_assoc, (Rmult_comm a), Rmult_assoc. f_equal. rewrite <- rsum_scal. apply rsum_ext. intros. ring.
  - intros w. unfold nz. rewrite map_length, seq_length. reflexivity.
  - intros i j Hi Hj. unfold Ex. rewrite (rsum_ext n _ (fun w => if (w =? i)%nat then (if (i =? j)%nat then 2 * INR n else 0) else 0)).
    + rewrite rsum_pick by auto. destruct (i =? j)%nat; [field; lra|ring].
    + intros w Hw. rewrite !nth_nz by auto. cbn [fst snd]. rewrite (Nat.eqb_sym w i). destruct (Nat.eqb_spec i w) as [<-|]; [|ring].
      rewrite (Nat.eqb_sym j i). destruct (i =? j)%nat; [|ring]. pose proof (sqrt_sqrt (INR n)). lra.
  - intros i Hi. unfold Ex. rewrite rsum_zero; [ring|]. intros w Hw. rewrite !nth_nz by auto. cbn [fst snd]. destruct (i =? w)%nat; ring.
Qed.
End W.

(** ** spectra without negative values in 2D and 3D: spherical, range 2.2, cells of size 2 *)
Section P.
Variables (o : Z -> outcome Z) (cl : Z -> Z -> Z).
Let v := sph o cl (22 / 10) (22 / 10) (22 / 10) 0 0.
Lemma v_ex_created : @CreateVariogram Rarith "spherical" (22 / 10) (22 / 10) (22 / 10) 0 0 1 = Ok v.
Proof. apply sph_created; lra. Qed.
Lemma far_small x y z : (x = 0 \/ x = 2 \/ x = -2) -> (y = 0 \/ y = 2 \/ y = -2) -> (z = 0 \/ z = 2 \/ z = -2) -> x <> 0 \/ y <> 0 \/ z <> 0 ->
  0 <= @GetCorr3 Rarith v x y z <= 1 / 50.
Proof.
  intros Hx Hy Hz H. destruct (created_corr _ _ _ _ _ _ _ _ v_ex_created) as [_ E]; try lra. rewrite E. change (vt v) with SPHERICAL.
  assert (EM : or_main (22 / 10) (22 / 10) = 22 / 10) by (unfold or_main; destruct (Rlt_dec (22 / 10) 0); lra). rewrite EM, radians_0.
  set (d := ndist _ _ _ _ _ _).
  assert (D : 10 / 11 <= d).
  { apply Rsqr_incr_0_var; [|apply sqrt_pos]. unfold d, ndist. rewrite Rsqr_sqrt by apply sq3.
    unfold dot, main_axis, perp_axis, third_axis. rewrite cos_0, sin_0. unfold Rsqr.
    assert (S : 4 <= x ^ 2 + y ^ 2 + z ^ 2) by (pose proof (pow2_ge_0 x); pose proof (pow2_ge_0 y); pose proof (pow2_ge_0 z);
       destruct H as [H|[H|H]]; [destruct Hx as [Q|[Q|Q]]|destruct Hy as [Q|[Q|Q]]|destruct Hz as [Q|[Q|Q]]]; try lra; subst; nra).
    replace ((1 * 1 * x + 1 * 0 * y + 0 * z) / (22 / 10)) with (10 / 22 * x) by field. replace ((- 0 * x + 1 * y + 0 * z) / (22 / 10)) with (10 / 22 * y) by field.
    replace ((- (0 * 1) * x + - (0 * 0) * y + 1 * z) / (22 / 10)) with (10 / 22 * z) by field. nra. }
  clearbody d. cbn [corr_fun]. destruct (Rlt_dec d 1); [|lra].
  assert (0 <= (1 - d) ^ 2 * (2 + d)) by (apply Rmult_le_pos; [apply pow2_ge_0|lra]). split; [nra|].
  assert (0 <= (d - 10 / 11) * (3 - (d * d + d * (10 / 11) + 100 / 121))) by (apply Rmult_le_pos; nra). nra.
Qed.
Lemma lag_cases i : (i < 3)%nat -> let x := @lag Rarith 3 i 2 in (x = 0 \/ x = 2 \/ x = -2) /\ (x = 0 -> i = 0%nat).
Proof. intros H. unfold lag, wrapped. destruct i as [|[|[|i]]]; [..|lia]; cbn; split; try lra; intros; try lia; lra. Qed.
Lemma entry_bound (i j k : nat) (c w : R) : (i = 0%nat /\ j = 0%nat /\ k = 0%nat -> c = 1 /\ w = 1) -> (~ (i = 0%nat /\ j = 0%nat /\ k = 0%nat) -> 0 <= c <= 1 / 50) -> -1 <= w <= 1 ->
  (if ((i =? 0) && (j =? 0) && (k =? 0))%nat%bool then 1 else - (1 / 50)) <= c * w.
Proof.
  intros H1 H2 Hw. destruct ((i =? 0) && (j =? 0) && (k =? 0))%nat%bool eqn:E.
  - rewrite !andb_true_iff, !Nat.eqb_eq in E. destruct H1 as [-> ->]; [tauto|lra].
  - destruct H2; [|nra]. intros (-> & -> & ->). discriminate.
Qed.
Lemma nonneg3_example : nonneg3 3 3 3 (@cov3_spec Rarith v 3 2 3 2 3 2 1 1 1).
Proof.
  intros kx ky kz _ _ _. unfold spectral3, sum3.
  apply Rle_trans with (rsum 3 (fun i => rsum 3 (fun j => rsum 3 (fun k => if ((i =? 0) && (j =? 0) && (k =? 0))%nat%bool then 1 else - (1 / 50))))); [cbn; lra|].
  apply rsum_le. intros i Hi. apply rsum_le. intros j Hj. apply rsum_le. intros k Hk. apply entry_bound.
  - intros (-> & -> & ->). split; [apply (cov3_at0 _ _ _ _ _ _ _ _ v_ex_created); lra || lia|].
    unfold wave3. cbn [INR]. rewrite <- cos_0. f_equal. unfold Rdiv. ring.
  - intros H. unfold cov3_spec. destruct (FindSmoothingFactors _ _ _ _) as [[? ?] ?]. rewrite !kernel_off by lra.
    destruct (lag_cases i Hi) as [X1 X2]. destruct (lag_cases j Hj) as [Y1 Y2]. destruct (lag_cases k Hk) as [Z1 Z2].
    change (mul Rarith) with Rmult. rewrite (var_1 _ _ _ _ _ _ _ _ v_ex_created), Rmult_1_l.
    apply far_small; auto. destruct (Nat.eq_dec i 0); [|tauto]. destruct (Nat.eq_dec j 0); [|tauto]. destruct (Nat.eq_dec k 0); [exfalso|]; tauto.
  - unfold wave3. pose proof (COS_bound (2 * PI * (INR kx * INR i / INR 3 + INR ky * INR j / INR 3 + INR kz * INR k / INR 3))). lra.
Qed.
Lemma nonneg2_example : nonneg2 3 3 (@cov2_spec Rarith v 3 2 3 2 1 1).
Proof.
  intros kx ky _ _. unfold spectral2, sum2.
  apply Rle_trans with (rsum 3 (fun i => rsum 3 (fun j => if ((i =? 0) && (j =? 0) && (0 =? 0))%nat%bool then 1 else - (1 / 50)))); [cbn; lra|].
  apply rsum_le. intros i Hi. apply rsum_le. intros j Hj. apply (entry_bound i j 0).
  - intros (-> & -> & _). split; [apply (cov2_at0 _ _ _ _ _ _ _ _ v_ex_created); lra || lia|].
    unfold wave2. cbn [INR]. rewrite <- cos_0. f_equal. unfold Rdiv. ring.
  - intros H. unfold cov2_spec. destruct (FindSmoothingFactors _ _ _ _) as [[? ?] ?]. rewrite !kernel_off by lra.
    destruct (lag_cases i Hi) as [X1 X2]. destruct (lag_cases j Hj) as [Y1 Y2].
    change (mul Rarith) with Rmult. rewrite (var_1 _ _ _ _ _ _ _ _ v_ex_created), Rmult_1_l, corr2_3.
    apply far_small; auto. destruct (Nat.eq_dec i 0); [|tauto]. destruct (Nat.eq_dec j 0); [exfalso|]; tauto.
  - unfold wave2. pose proof (COS_bound (2 * PI * (INR kx * INR i / INR 3 + INR ky * INR j / INR 3))). lra.
Qed.
End P.

(** ** where the default padding of a 1D spherical field leaves a trace *)
Section Trace.
Variables (o : Z -> outcome Z) (cl : Z -> Z -> Z).
Notation L := (Rlib o cl).
Let v := sph o cl 10 1000 10 90 0.
Lemma trace_created : @CreateVariogram Rarith "spherical" 10 1000 10 90 0 1 = Ok v.
Proof. apply sph_created; lra. Qed.
Lemma sph_strict x y : 0 <= x < 1 -> x < y -> corr_fun SPHERICAL 1 y < corr_fun SPHERICAL 1 x.
Proof.
  intros Hx Hy. cbn [corr_fun]. destruct (Rlt_dec x 1); [|lra]. destruct (Rlt_dec y 1).
  - assert (0 < (y - x) * (3 - (y * y + y * x + x * x))) by (apply Rmult_lt_0_compat; nra). nra.
  - assert (0 < (1 - x) * (1 - x) * (2 + x)) by (repeat apply Rmult_lt_0_compat; lra). nra.
Qed.
Lemma trace_1d : forall (W : Type) (E : (W -> R) -> R) (noise : W -> list R), expectation E -> white E 112 noise ->
  exists field : W -> list R, (forall w, @field1d L v 101 112 1 1 (noise w) = Ok (field w)) /\
    E (fun w => nth 0 (field w) 0 * nth 100 (field w) 0) <> @GetCorr1 Rarith v 100.
Proof.
  intros W E noise HE HW.
  destruct (c27_field o cl _ _ _ _ _ _ _ v trace_created ltac:(lra) ltac:(lra) ltac:(lra) ltac:(lra) ltac:(right; left; reflexivity) 101 112 1 1 ltac:(lia) ltac:(lia) ltac:(lra) W E noise HE HW)
    as (field & F & HF). exists field. split; [intros; apply F|]. rewrite HF by lia. replace (INR (Nat.min _ _) * 1) with 12 by (cbn; lra).
  pose proof (corr1_lin _ _ _ _ _ _ _ _ trace_created ltac:(lra) ltac:(lra) ltac:(lra) ltac:(lra)) as CL.
  rewrite !CL. change (vt v) with SPHERICAL.
  assert (EM : forall r, 0 <= r -> or_main 10 r = r) by (intros r Hr; unfold or_main; destruct (Rlt_dec r 0); lra). rewrite !EM, radians_0 by lra.
  set (u := ndist _ _ _ _ _ _).
  assert (U : 0 < u < 1 / 12).
  { unfold u, ndist. unfold dot, main_axis, perp_axis, third_axis. rewrite cos_0, sin_0.
    pose proof cos90 as C. apply Rabs_le_inv in C. pose proof (sc2 (radians 90)) as S. revert C S. generalize (cos (radians 90)) (sin (radians 90)). intros c s C S.
    split.
    - apply sqrt_lt_R0. nra.
    - rewrite <- (sqrt_square (1 / 12)) by lra. apply sqrt_lt_1_alt. nra. }
  clearbody u. rewrite !Rabs_right by lra. apply not_eq_sym, Rlt_not_eq. apply sph_strict; lra.
Qed.
End Trace.

(** ** a spectrum with a negative value: gaussian, range 10, four cells of size 1 *)
Lemma clipped_example (v : variogram Rarith) : @CreateVariogram Rarith "gaussian" 10 (-1) (-1) 0 0 1 = Ok v -> ~ nonneg1 4 (@cov1_spec Rarith v 4 1 1).
Proof.
  intros HC H. specialize (H 2%nat ltac:(lia)). unfold spectral1 in H. cbn [rsum] in H.
  pose proof (corr1_lin _ _ _ _ _ _ _ _ HC ltac:(lra) ltac:(lra) ltac:(lra) ltac:(lra)) as CL.
  assert (VT : vt v = GAUSSIAN).
  { unfold CreateVariogram in HC. change (Uppercase "gaussian") with (Ok "GAUSSIAN"%string) in HC. cbn [bind] in HC. apply Ok_inj' in HC. rewrite <- HC. reflexivity. }
  assert (U : forall x, @GetCorr1 Rarith v x = exp (- 3 * (x / 10) ^ 2)).
  { intros x. rewrite CL, VT. assert (EM : or_main 10 (-1) = 10) by (unfold or_main; destruct (Rlt_dec (-1) 0); lra). rewrite EM, radians_0. cbn [corr_fun].
    f_equal. f_equal. unfold ndist, dot, main_axis, perp_axis, third_axis. rewrite cos_0, sin_0. 
    rewrite Rpow_mult_distr, <- !Rsqr_pow2, <- Rsqr_abs, Rsqr_sqrt; [unfold Rsqr; field|]. unfold Rsqr; lra. }
  assert (T : forall j m, (j < 4)%nat -> m = INR (Nat.min j (4 - j)) -> @cov1_spec Rarith v 4 1 1 j = exp (- 3 * (m / 10) ^ 2)).
  { intros j m Hj ->. unfold cov1_spec. destruct (FindSmoothingFactors _ _ _ _) as [[? ?] ?]. rewrite kernel_off by lra.
    change (mul Rarith) with Rmult. rewrite (var_1 _ _ _ _ _ _ _ _ HC), Rmult_1_l, U. f_equal. f_equal. f_equal. f_equal.
    unfold lag1. destruct j as [|[|[|[|]]]]; [..|lia]; cbn; lra. }
  rewrite (T 0%nat 0), (T 1%nat 1), (T 2%nat 2), (T 3%nat 1) in H by (lia || (cbn; lra)).
  unfold wave1 in H. cbn [INR] in H.
  replace (2 * PI * ((1 + 1) * 0 / (1 + 1 + 1 + 1))) with 0 in H by field. replace (2 * PI * ((1 + 1) * 1 / (1 + 1 + 1 + 1))) with PI in H by field.
  replace (2 * PI * ((1 + 1) * (1 + 1) / (1 + 1 + 1 + 1))) with (2 * PI) in H by field. replace (2 * PI * ((1 + 1) * (1 + 1 + 1) / (1 + 1 + 1 + 1))) with (PI + 2 * PI) in H by field.
  rewrite cos_0, cos_PI, cos_2PI, cos_plus, cos_PI, sin_PI, cos_2PI in H.
  replace (- 3 * (0 / 10) ^ 2) with 0 in H by field. rewrite exp_0 in H.
  assert (A1 : 97 / 100 <= exp (- 3 * (1 / 10) ^ 2)) by (pose proof (exp_ineq1_le (- 3 * (1 / 10) ^ 2)); lra).
  assert (A2 : exp (- 3 * (2 / 10) ^ 2) <= 100 / 112).
  { replace (- 3 * (2 / 10) ^ 2) with (- (12 / 100)) by field. rewrite exp_Ropp. replace (100 / 112) with (/ (1 + 12 / 100)) by field. apply Rinv_le_contravar; [lra|apply exp_ineq1_le]. }
  lra.
Qed.

(** ** for the property file *)
Lemma c28_refuted (o : Z -> outcome Z) (cl : Z -> Z -> Z) : exists v : variogram (Rlib o cl), @CreateVariogram Rarith "spherical" 10 1000 10 90 0 1 = Ok v /\
  (forall rec fuel t st, exists d : dims (Rlib o cl), d_nx d = 101%Z /\ d_dx d = 1 /\ fst (step rec fuel t (CSize v d) st) = Ok (VSizes [112%Z])) /\
  forall (W : Type) (E : (W -> R) -> R) (noise : W -> list R), expectation E -> white E 112 noise ->
  exists field : W -> list R, (forall w, @field1d (Rlib o cl) v 101 112 1 1 (noise w) = Ok (field w)) /\
    E (fun w => nth 0 (field w) 0 * nth 100 (field w) 0) <> @GetCorr1 Rarith v 100.
Proof.
  exists (sph o cl 10 1000 10 90 0). split; [apply sph_created; lra|split; [|exact (trace_1d o cl)]].
  intros rec fuel t st. exists (dims3 o cl 101 1 1). split; [reflexivity|split; [reflexivity|]].
  destruct (near_1d o cl rec fuel t st) as (ns & E & -> & _). exact E.
Qed.
Lemma c33_1_refuted (o : Z -> outcome Z) (cl : Z -> Z -> Z) : exists v : variogram (Rlib o cl), @CreateVariogram Rarith "spherical" 10 1000 10 90 0 1 = Ok v /\
  forall rec fuel t st, exists ns, fst (step rec fuel t (CSize v (dims3 o cl 101 1 1)) st) = Ok (VSizes ns) /\ ns = [112%Z] /\
    ndist 10 1000 10 (radians 90) (radians 0) (IZR (100 + -1 * 112) * 1, 0, 0) < 1.
Proof. exists (sph o cl 10 1000 10 90 0). split; [apply sph_created; lra|]. intros. apply (near_1d o cl). Qed.
Lemma c33_2_refuted (o : Z -> outcome Z) (cl : Z -> Z -> Z) : exists v : variogram (Rlib o cl), @CreateVariogram Rarith "spherical" 10 10 1000 0 90 1 = Ok v /\
  forall rec fuel t st, exists ns, fst (step rec fuel t (CSize v (dims3 o cl 101 101 1)) st) = Ok (VSizes ns) /\ ns = [112; 112]%Z /\
    ndist 10 10 1000 (radians 0) (radians 90) (IZR (100 + -1 * 112) * 1, IZR (0 + 0 * 112) * 1, 0) < 1.
Proof. exists (sph o cl 10 10 1000 0 90). split; [apply sph_created; lra|]. intros. apply (near_2d o cl). Qed.
Lemma c33_3_refuted (o : Z -> outcome Z) (cl : Z -> Z -> Z) : exists v : variogram (Rlib o cl), @CreateVariogram Rarith "spherical" 1000 1000 10 0 90 1 = Ok v /\
  forall rec fuel t st, exists ns, fst (step rec fuel t (CSize v (dims3 o cl 2 2 101)) st) = Ok (VSizes ns) /\ length ns = 3%nat /\ nth 2 ns 0%Z = 112%Z /\
    ndist 1000 1000 10 (radians 0) (radians 90) (0, 0, IZR (100 + -1 * 112) * 1) < 1.
Proof. exists (sph o cl 1000 1000 10 0 90). split; [apply sph_created; lra|]. intros. apply (near_3d o cl). Qed.
Lemma c33_example (o : Z -> outcome Z) (cl : Z -> Z -> Z) rec fuel t st : exists (v : variogram (Rlib o cl)) ns, @CreateVariogram Rarith "spherical" 10 10 10 0 0 1 = Ok v /\
  fst (step rec fuel t (CSize v (dims3 o cl 101 101 101)) st) = Ok (VSizes ns) /\ length ns = 3%nat /\ radians 0 = 0.
Proof.
  destruct (size_bad o cl rec fuel t st 10 10 10 0 0 101 101 101) as (ns & E & Hl); try lra; try lia.
  exists (sph o cl 10 10 10 0 0), ns. split; [apply sph_created; lra|split; [exact E|split; [exact Hl|apply radians_0]]].
Qed.
Lemma fft1_example (o : Z -> outcome Z) (cl : Z -> Z -> Z) : exists X, @ComputeFFT1D (Rlib o cl) [1; 2; 3] true 0 = Ok X.
Proof. eexists. apply (@fft1_ok (Rlib o cl) (Rlib_sizes o cl)). discriminate. Qed.

Section Zero.
Variables (o : Z -> outcome Z) (cl : Z -> Z -> Z) (v : variogram (Rlib o cl)).
Notation L := (Rlib o cl).
Lemma lin_zero (F : list R -> outcome (list R)) n m : (forall x y a b, length x = n -> length y = n -> exists fx fy, F x = Ok fx /\ F y = Ok fy /\ F (comb a b x y) = Ok (comb a b fx fy)) ->
  (forall x, length x = n -> exists fx, F x = Ok fx /\ length fx = m) -> F (repeat 0 n) = Ok (repeat 0 m).
Proof.
  intros H HL. assert (E0 : length (repeat 0 n) = n) by apply repeat_length. destruct (H _ _ 0 0 E0 E0) as (f & g & E1 & E2 & E3).
  rewrite E1 in E2. apply Ok_inj' in E2. subst g. destruct (HL _ E0) as (f' & E4 & L4). rewrite E1 in E4. apply Ok_inj' in E4. subst f'.
  rewrite !comb_00, E0, L4 in E3 by auto. exact E3.
Qed.
Lemma c30_zero1 nx n dx sx : (0 < n)%nat -> (nx <= n)%nat -> @field1d L v nx n dx sx (repeat 0 n) = Ok (repeat 0 nx).
Proof.
  intros Hn Hx. apply (lin_zero (fun x => @field1d L v nx n dx sx x)).
  - intros. apply c30_1; auto.
  - intros x Hl. destruct (field1d_lin o cl v nx n dx sx x Hn Hx Hl) as (f & E & Lf & _). eauto.
Qed.
Lemma c30_zero2 nx ny nxt nyt dx dy sx sy : (nx <= nxt)%nat -> (ny <= nyt)%nat -> @field2d L v nx ny nxt nyt dx dy sx sy (repeat 0 (nxt * nyt)) = Ok (repeat 0 (nx * ny)).
Proof.
  intros Hx Hy. apply (lin_zero (fun x => @field2d L v nx ny nxt nyt dx dy sx sy x)).
  - intros. apply c30_2; auto.
  - intros x Hl. destruct (field2d_lin o cl v nx ny nxt nyt dx dy sx sy x Hx Hy Hl) as (f & E & Lf & _). eauto.
Qed.
Lemma c30_zero3 nx ny nz nxt nyt nzt dx dy dz sx sy sz : (nx <= nxt)%nat -> (ny <= nyt)%nat -> (nz <= nzt)%nat ->
  @field3d L v nx ny nz nxt nyt nzt dx dy dz sx sy sz (repeat 0 (nxt * nyt * nzt)) = Ok (repeat 0 (nx * ny * nz)).
Proof.
  intros Hx Hy Hz. apply (lin_zero (fun x => @field3d L v nx ny nz nxt nyt nzt dx dy dz sx sy sz x)).
  - intros. apply c30_3; auto.
  - intros x Hl. destruct (field3d_lin o cl v nx ny nz nxt nyt nzt dx dy dz sx sy sz x Hx Hy Hz Hl) as (f & E & Lf & _). eauto.
Qed.
End Zero.
