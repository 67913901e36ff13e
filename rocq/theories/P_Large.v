(** Sizes and indices in 64 bits (C94). *)
From Coq Require Import ZArith List Bool Lia.
From Verif Require Import Base Arith M_Variogram M_FftSize M_Random M_Api M_Field M_Large S_Api S_Sizes S_Large P_FftSize P_Sim P_Sim2 ExampleLib.
Import ListNotations.
Open Scope Z_scope.

Lemma mul_small a b : 0 <= a -> 0 <= b -> a * b < 2 ^ 64 -> mul a b = a * b.
Proof. intros. apply u64_small. nia. Qed.
Lemma add_small a b : 0 <= a -> 0 <= b -> a + b < 2 ^ 64 -> add a b = a + b.
Proof. intros. apply u64_small. lia. Qed.

Lemma fits_safe l : fits l -> computed_or_refused l.
Proof. induction 1 as [|[n w|b w t] l H _ IH]; cbn; auto. Qed.

Lemma inside_below b w n m : n <= m -> 0 < w -> m * w <= b -> inside b w (below n).
Proof. intros H W B e [E1 E2]. split; [lia|]. nia. Qed.
Lemma inside_counted b w n : 0 < w -> n * w <= b -> n < 2 ^ 64 -> inside b w (counted n).
Proof. intros W B N e (c & C & ->). rewrite u64_small by lia. split; [lia|]. nia. Qed.

Section Three.
Variables ni nj nk nx ny nz : Z.
Hypothesis Hi : 0 <= nx <= ni.
Hypothesis Hj : 0 <= ny <= nj.
Hypothesis Hk : 0 <= nz <= nk.
Hypothesis Pos : 1 <= ni /\ 1 <= nj /\ 1 <= nk.
Hypothesis Total : (ni + 2) * nj * nk <= 2 ^ 60 - 1.

Lemma half : 1 <= ni / 2 + 1 /\ 2 * (ni / 2 + 1) <= ni + 2.
Proof. assert (H := Z.div_mod ni 2). assert (H' := Z.mod_pos_bound ni 2). lia. Qed.
Lemma ninj : 0 <= ni * nj <= ni * nj * nk.
Proof. nia. Qed.
Lemma ninjnk : 1 <= ni * nj * nk <= 2 ^ 60 - 1.
Proof. nia. Qed.
Lemma cplx_total : 0 <= (ni / 2 + 1) * nj <= (ni / 2 + 1) * nj * nk /\ 2 * ((ni / 2 + 1) * nj * nk) <= 2 ^ 60 - 1.
Proof.
  assert (H := half). set (h := ni / 2 + 1) in *. split; [nia|].
  apply Z.le_trans with ((ni + 2) * nj * nk); [|exact Total].
  replace (2 * (h * nj * nk)) with (2 * h * (nj * nk)) by ring. replace ((ni + 2) * nj * nk) with ((ni + 2) * (nj * nk)) by ring.
  apply Z.mul_le_mono_nonneg_r; [nia|lia].
Qed.
Lemma n_real3_eq : n_real3 ni nj nk = ni * nj * nk.
Proof.
  assert (A := ninj). assert (B := ninjnk). unfold n_real3. rewrite (mul_small ni nj) by lia. apply mul_small; lia.
Qed.
Lemma n_complex3_eq : n_complex3 ni nj nk = (ni / 2 + 1) * nj * nk.
Proof.
  assert (A := half). destruct cplx_total as [B C]. unfold n_complex3. rewrite (mul_small (ni / 2 + 1) nj) by lia. apply mul_small; lia.
Qed.
Lemma real_bytes3_eq : real_bytes3 ni nj nk = ni * nj * nk * 8.
Proof. unfold real_bytes3. rewrite n_real3_eq. assert (B := ninjnk). apply mul_small; lia. Qed.
Lemma complex_bytes3_eq : complex_bytes3 ni nj nk = (ni / 2 + 1) * nj * nk * 16.
Proof. unfold complex_bytes3. rewrite n_complex3_eq. destruct cplx_total as [A B]. apply mul_small; lia. Qed.

(** the index of a cell of a grid at least as large, and of the grid itself *)
Lemma index3 mi mj mk i j k : 0 <= mi <= ni -> 0 <= mj <= nj -> 0 <= mk <= nk -> 0 <= i < mi -> 0 <= j < mj -> 0 <= k < mk ->
  0 <= i + j * mi + k * mi * mj < mi * mj * mk /\ 0 <= j * mi <= i + j * mi + k * mi * mj /\
  0 <= k * mi <= k * mi * mj /\ k * mi * mj <= i + j * mi + k * mi * mj /\ mi * mj * mk <= ni * nj * nk /\ 0 <= mi * mj <= mi * mj * mk.
Proof.
  intros A B C I J K.
  assert (0 <= j * mi) by nia. assert (0 <= k * mi) by nia. assert (i + j * mi < mi * mj) by nia.
  assert (0 <= k * (mi * mj)) by nia. assert (i + j * mi + k * (mi * mj) < mi * mj * mk) by nia.
  assert (k * mi <= k * (mi * mj)) by nia.
  replace (k * mi * mj) with (k * (mi * mj)) by ring.
  assert (mi * mj <= ni * nj) by nia.
  assert (mi * mj * mk <= ni * nj * nk) by nia.
  assert (mi * mj <= mi * mj * mk) by nia. lia.
Qed.
Lemma grid_at mi mj mk i j k : 0 <= mi <= ni -> 0 <= mj <= nj -> 0 <= mk <= nk -> 0 <= i < mi -> 0 <= j < mj -> 0 <= k < mk ->
  add (add i (mul j mi)) (mul (mul k mi) mj) = i + j * mi + k * mi * mj.
Proof.
  intros A B C I J K. destruct (index3 mi mj mk i j k A B C I J K) as (P1 & P2 & P3 & P4 & P5 & P6). assert (T := ninjnk).
  rewrite (mul_small j mi) by lia. rewrite (mul_small k mi) by lia. rewrite (mul_small (k * mi) mj) by lia.
  rewrite (add_small i) by lia. apply add_small; lia.
Qed.
Lemma real_at i j k : 0 <= i < nx -> 0 <= j < ny -> 0 <= k < nz ->
  add (add i (mul ni j)) (mul (mul ni nj) k) = i + j * ni + k * ni * nj.
Proof.
  intros I J K. destruct (index3 ni nj nk i j k) as (P1 & P2 & P3 & P4 & P5 & P6); try lia. assert (T := ninjnk).
  rewrite (mul_small ni j) by lia. rewrite (mul_small ni nj) by lia.
  replace (k * ni * nj) with (ni * nj * k) in * by ring. replace (j * ni) with (ni * j) in * by ring.
  rewrite (mul_small (ni * nj) k) by lia. rewrite (add_small i) by lia. apply add_small; lia.
Qed.
Lemma n_out : mul (mul nx ny) nz = nx * ny * nz /\ 0 <= nx * ny * nz <= ni * nj * nk.
Proof.
  assert (A : 0 <= nx * ny <= ni * nj) by nia. assert (B : 0 <= nx * ny * nz <= ni * nj * nk) by nia. assert (T := ninjnk). assert (S := ninj).
  split; [|exact B]. rewrite (mul_small nx ny) by lia. apply mul_small; lia.
Qed.

Lemma fits3 : fits (arrays3 nx ny nz ni nj nk).
Proof.
  assert (T := ninjnk). destruct cplx_total as [C1 C2]. destruct n_out as [O1 O2].
  assert (Cells : inside (8 * (ni * nj * nk)) 8 (each3 ni nj nk (Grid_index ni nj))).
  { intros e (i & j & k & I & J & K & ->). unfold Grid_index. rewrite (grid_at ni nj nk) by lia.
    destruct (index3 ni nj nk i j k) as (P1 & _); lia. }
  unfold arrays3, FFTGrid3D_new, Grid_new, Grid_cells, Initialize3_at, scale3, fftw3, spectrum3, GetRealGrid3_at, Grid_cells, fits.
  rewrite n_real3_eq, n_complex3_eq, real_bytes3_eq, complex_bytes3_eq, O1.
  cbn [app]. repeat apply Forall_cons; try apply Forall_nil;
    try exact Cells; try lia; try (apply inside_below with (ni * nj * nk); lia); try (apply inside_below with ((ni / 2 + 1) * nj * nk); lia);
    try (apply inside_counted; lia).
  - intros e (i & j & k & I & J & K & ->). rewrite real_at by lia. destruct (index3 ni nj nk i j k) as (P1 & _); lia.
  - intros e (i & j & k & I & J & K & ->). rewrite (grid_at nx ny nz) by lia. destruct (index3 nx ny nz i j k) as (P1 & _); lia.
Qed.
End Three.

Section Two.
Variables ni nj nx ny : Z.
Hypothesis Hi : 0 <= nx <= ni.
Hypothesis Hj : 0 <= ny <= nj.
Hypothesis Pos : 1 <= ni /\ 1 <= nj.
Hypothesis Total : ni < 2 ^ 30 /\ nj < 2 ^ 30.

Lemma total2 : 1 <= ni * nj /\ ni * nj <= (2 ^ 30 - 1) * (2 ^ 30 - 1) /\
  0 <= (ni / 2 + 1) * nj /\ (ni / 2 + 1) * nj <= 2 ^ 29 * (2 ^ 30 - 1) /\ 0 <= ni / 2 + 1.
Proof.
  assert (H := Z.div_mod ni 2). assert (H' := Z.mod_pos_bound ni 2). set (h := ni / 2) in *.
  assert (0 <= h + 1 <= 2 ^ 29) by lia. repeat split; try nia.
Qed.
Lemma index2 mi mj i j : 0 <= mi <= ni -> 0 <= mj <= nj -> 0 <= i < mi -> 0 <= j < mj ->
  0 <= j * mi /\ 0 <= i + j * mi < mi * mj /\ mi * mj <= ni * nj.
Proof. intros A B I J. assert (0 <= j * mi) by nia. assert (i + j * mi < mi * mj) by nia. assert (mi * mj <= ni * nj) by nia. lia. Qed.
Lemma fits2 : fits (arrays2 nx ny ni nj).
Proof.
  destruct total2 as (T1 & T2 & T3 & T4 & T5).
  assert (N : n_real2 ni nj = ni * nj) by (apply mul_small; lia).
  assert (C : n_complex2 ni nj = (ni / 2 + 1) * nj) by (apply mul_small; lia).
  assert (RB : real_bytes2 ni nj = (1 + ni * nj) * 8).
  { unfold real_bytes2. rewrite N, add_small by lia. apply mul_small; lia. }
  assert (CB : complex_bytes2 ni nj = (ni / 2 + 1) * nj * 16) by (unfold complex_bytes2; rewrite C; apply mul_small; lia).
  assert (Oc : 0 <= nx * ny <= ni * nj) by nia.
  assert (O : mul nx ny = nx * ny) by (apply mul_small; lia).
  assert (Ix : forall mi mj i j, 0 <= mi <= ni -> 0 <= mj <= nj -> 0 <= i < mi -> 0 <= j < mj -> add i (mul j mi) = i + j * mi).
  { intros mi mj i j A B I J. destruct (index2 mi mj i j A B I J) as (P1 & P2 & P3). rewrite mul_small by lia. apply add_small; lia. }
  assert (Cells : inside (8 * (ni * nj)) 8 (each2 ni nj (fun i j => add i (mul j ni)))).
  { intros e (i & j & I & J & ->). rewrite (Ix ni nj) by lia. destruct (index2 ni nj i j); lia. }
  unfold arrays2, FFTGrid2D_new, Grid2D_new, Initialize2_at, scale2, fftw2, spectrum2, GetRealGrid2_at, Grid2D_cells, fits.
  rewrite N, C, RB, CB, O.
  cbn [app]. repeat apply Forall_cons; try apply Forall_nil;
    try exact Cells; try lia; try (apply inside_below with (ni * nj); lia); try (apply inside_below with ((ni / 2 + 1) * nj); lia);
    try (apply inside_counted; lia).
  - intros e (i & j & I & J & ->). destruct (index2 ni nj i j) as (P1 & P2 & P3); try lia.
    replace (mul ni j) with (j * ni) by (rewrite mul_small by lia; ring). rewrite add_small by lia. lia.
  - intros e (i & j & I & J & ->). rewrite (Ix nx ny) by lia. destruct (index2 nx ny i j); lia.
Qed.
End Two.

Lemma fits1 nx n : 0 <= nx <= n -> 1 <= n < 2 ^ 31 -> fits (arrays1 nx n).
Proof.
  intros A B. assert (H := Z.div_mod n 2). assert (H' := Z.mod_pos_bound n 2). set (h := n / 2) in *.
  unfold arrays1, ComputeFFT1D_at, ComputeFFTInv1D_at, fits. fold h. cbv zeta. rewrite !mul_small by lia.
  assert (V : inside (16 * n) 16 (fun e => e = 0 \/ exists i, 1 <= i < h + 1 /\ (e = i \/ e = u64 (n - i)))).
  { intros e [->|(i & I & [->| ->])]; [lia|lia|]. rewrite u64_small by lia. lia. }
  cbn [app]. repeat apply Forall_cons; try apply Forall_nil; try exact V; try lia;
    try (apply inside_below with n; lia); try (apply inside_below with (h + 1); lia); apply inside_below with nx; lia.
Qed.

(** ** The arrays of a call *)
Section Call.
Context {L : Lib}.
Lemma grid_bound (d : dims L) (a : adv L) ns i B : good_lib L B -> B <= 2 ^ 52 -> 1 <= requested d a ns i <= B ->
  exists n, grid_used d a ns i = Ok n /\ requested d a ns i <= n /\ n <= Z.max 4 (2 * B - 1).
Proof.
  intros G HB R. destruct (Z.eq_dec (requested d a ns i) 1) as [E|E].
  - destruct G as [Ho Hg]. unfold grid_used. rewrite E in *.
    destruct (size_ge (clogf L) (oor L) 1 (must_even d i) Ho (Hg 1 ltac:(lia))) as (n & Hn & Hb); [lia|]. exists n. split; [exact Hn|]. lia.
  - destruct (grid_best d a ns i B G HB R) as (n & Hn & [[_ [M _]] _] & U); [lia|]. exists n. split; [exact Hn|]. lia.
Qed.

Lemma dim_123 (d : dims L) : dim_asked d = 1%nat \/ dim_asked d = 2%nat \/ dim_asked d = 3%nat.
Proof. unfold dim_asked. repeat match goal with |- context [if ?b then _ else _] => destruct b end; auto. Qed.

Lemma c94_fits (d : dims L) (a : adv L) ns B grid : good_lib L B -> B < 2 ^ 29 -> has_room d a ns B ->
  (forall i, (i < dim_asked d)%nat -> grid_used d a ns i = Ok (grid i)) ->
  (dim_asked d = 3%nat -> (grid 0%nat + 2) * grid 1%nat * grid 2%nat < 2 ^ 60) -> fits (arrays (dim_asked d) (cells d) grid).
Proof.
  intros G HB Hr Hg Ht.
  assert (X : forall i, (i < dim_asked d)%nat -> 0 <= cells d i <= grid i /\ 1 <= grid i < 2 ^ 30).
  { intros i I. destruct (Hr i I) as [R1 R2]. destruct (grid_bound d a ns i B G ltac:(lia) R2) as (n & Hn & N1 & N2).
    rewrite (Hg i I) in Hn. injection Hn as ->. lia. }
  destruct (dim_123 d) as [E|[E|E]]; rewrite E in *; cbn [arrays].
  - assert (X0 := X 0%nat ltac:(lia)). apply fits1; lia.
  - assert (X0 := X 0%nat ltac:(lia)). assert (X1 := X 1%nat ltac:(lia)). apply fits2; lia.
  - assert (X0 := X 0%nat ltac:(lia)). assert (X1 := X 1%nat ltac:(lia)). assert (X2 := X 2%nat ltac:(lia)). specialize (Ht eq_refl). apply fits3; lia.
Qed.
Lemma c94_sizes (d : dims L) (a : adv L) ns : good_lib L (2 ^ 18) -> has_room d a ns (2 ^ 18) ->
  exists grid, (forall i, (i < dim_asked d)%nat -> grid_used d a ns i = Ok (grid i)) /\ fits (arrays (dim_asked d) (cells d) grid).
Proof.
  intros G Hr.
  assert (X : forall i, (i < dim_asked d)%nat -> exists n, grid_used d a ns i = Ok n /\ 0 <= n < 2 ^ 19).
  { intros i I. destruct (Hr i I) as [R1 R2]. destruct (grid_bound d a ns i _ G ltac:(lia) R2) as (n & Hn & N1 & N2). exists n. split; [exact Hn|lia]. }
  exists (fun i => match grid_used d a ns i with Ok n => n | _ => 0 end).
  assert (Y : forall i, (i < dim_asked d)%nat -> grid_used d a ns i = Ok (match grid_used d a ns i with Ok n => n | _ => 0 end)).
  { intros i I. destruct (X i I) as (n & -> & _). reflexivity. }
  split; [exact Y|]. apply (c94_fits d a ns (2 ^ 18)); auto; [lia|]. intros E. rewrite E in X.
  destruct (X 0%nat ltac:(lia)) as (a0 & -> & A0). destruct (X 1%nat ltac:(lia)) as (a1 & -> & A1). destruct (X 2%nat ltac:(lia)) as (a2 & -> & A2).
  assert ((a0 + 2) * a1 <= (2 ^ 19 + 1) * 2 ^ 19) by nia. assert ((a0 + 2) * a1 * a2 <= (2 ^ 19 + 1) * 2 ^ 19 * 2 ^ 19) by nia. lia.
Qed.

(** a size that is already of the right kind *)
Lemma grid_power (d : dims L) (a : adv L) ns i e : good_lib L (2 ^ 30) -> 1 <= e <= 30 -> requested d a ns i = 2 ^ e -> grid_used d a ns i = Ok (2 ^ e).
Proof.
  intros G E R. assert (P : 2 <= 2 ^ e <= 2 ^ 30).
  { change 2 with (2 ^ 1) at 1. split; apply Z.pow_le_mono_r; lia. }
  destruct (grid_best d a ns i _ G) as (n & Hn & [[_ [A _]] B] & _); [lia|rewrite R; lia|rewrite R; lia|].
  rewrite Hn. f_equal. rewrite R in *. assert (n <= 2 ^ e); [|lia]. apply B. split; [|split].
  - exists e, 0, 0, 0. rewrite !Z.pow_0_r. lia.
  - lia.
  - intros _. exists (2 ^ (e - 1)). rewrite <- Z.pow_succ_r by lia. f_equal. lia.
Qed.
End Call.

(** 4 by 2^30 by 2^30 cells need 2^65 bytes: fftw_malloc is asked for none *)
Lemma overrun3 nx ny nz : ~ computed_or_refused (arrays3 nx ny nz (2 ^ 2) (2 ^ 30) (2 ^ 30)).
Proof.
  unfold arrays3, FFTGrid3D_new. cbn [app computed_or_refused]. intros [H _].
  destruct (H 0) as [_ X]; [|revert X; vm_compute; discriminate || (intros X; apply X; reflexivity)].
  split; [lia|]. vm_compute. reflexivity.
Qed.

(** doubles, exact exponents; simulate(variogram('spherical', 2.0), 1, 1.0, 2^30 - 3, 1.0, 2^30 - 3, 1.0) *)
Definition BLib : Lib := {|
  arith := EA; r2c1 := er2c3 1 1; r2c2 := er2c3 1; r2c3 := er2c3; c2r1 := ec2r3 1 1; c2r2 := ec2r3 1; c2r3 := ec2r3;
  oor := fun _ => Ok 0; clogf := clog |}.
Definition b_vario : variogram BLib := ex_vario.
Definition b_dims : dims BLib := @mkDims BLib 1 (lit EA 1 0) (Some (2 ^ 30 - 3)) (Some (lit EA 1 0)) (Some (2 ^ 30 - 3)) (Some (lit EA 1 0)).
Definition b_auto : adv BLib := @mkAdv BLib None None None None None None.
Lemma b_lib : good_lib BLib (2 ^ 30).
Proof. split; [intros x _; cbn; auto|]. intros m Hm. apply exact_logs_good. lia. Qed.
Definition b_sizes_of (o : outcome (value BLib)) : list Z := match o with Ok (VSizes l) => l | _ => [] end.
