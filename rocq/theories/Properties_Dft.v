(** Covariance of the simulated fields, in exact arithmetic. [Rlib o cl] has exact real arithmetic and exact discrete Fourier
    transforms; [o] and [cl] (conversions and logarithms of sizes) are arbitrary. Expectations, white noise and spectra: S_Spectrum.v;
    covariance tables: S_CovGrid.v. *)
From Coq Require Import ZArith Bool Lia Reals Lra String List.
From Verif Require Import Base Arith RealArith M_Variogram M_Padding M_FftSize M_Grid M_CovGrid M_Fft M_Dsfmt M_Random M_Field M_Api
  S_Api S_CovGrid S_Sizes S_Vario S_Spectrum P_Padding P_DftMain P_DftRound P_Convex P_Images P_Images2 P_DftProps.
Import ListNotations.
Open Scope R_scope.

(** ** C24-C26 *)
(** the 1D field of [n] padded cells: the covariance of two cells is the inverse transform of the clipped spectrum *)
Theorem C24_covariance_1d : forall (o : Z -> outcome Z) (cl : Z -> Z -> Z) (v : variogram (Rlib o cl)) nx n dx sx,
  (0 < n)%nat -> (nx <= n)%nat ->
  forall (W : Type) (E : (W -> R) -> R) (noise : W -> list R), expectation E -> white E n noise ->
  exists field : W -> list R, (forall w, @field1d (Rlib o cl) v nx n dx sx (noise w) = Ok (field w) /\ length (field w) = nx) /\
    forall i i', (i < nx)%nat -> (i' < nx)%nat ->
      E (fun w => nth i (field w) 0 * nth i' (field w) 0) = clipped1 n (@cov1_spec Rarith v n dx sx) (INR i - INR i').
Proof. exact c24. Qed.
Print Assumptions C24_covariance_1d.
(** no spectral value negative, no smoothing: the covariance is the variogram's, at the shorter way round *)
Theorem C24_exact_1d : forall (o : Z -> outcome Z) (cl : Z -> Z -> Z) (v : variogram (Rlib o cl)) nx n dx sx,
  (0 < n)%nat -> (nx <= n)%nat -> 99999 / 100000 <= sx -> nonneg1 n (@cov1_spec Rarith v n dx sx) ->
  forall i i', (i < nx)%nat -> (i' < nx)%nat ->
    let d := (Nat.max i i' - Nat.min i i')%nat in
    clipped1 n (@cov1_spec Rarith v n dx sx) (INR i - INR i') = @var Rarith v * @GetCorr1 Rarith v (INR (Nat.min d (n - d)) * dx).
Proof. exact c24_exact. Qed.
Print Assumptions C24_exact_1d.
(** the same about calls of advanced.simulate: the result is a fixed linear image of the draws, with these covariances *)
Theorem C24_api : forall (o : Z -> outcome Z) (cl : Z -> Z -> Z) (v : variogram (Rlib o cl)) (d : dims (Rlib o cl)) (a : adv (Rlib o cl)) zx,
  dim_asked d = 1%nat -> (0 < zx)%Z -> (d_nx d <= zx)%Z ->
  let nx := Z.to_nat (d_nx d) in let n := Z.to_nat zx in
  exists h : nat -> nat -> R,
    (forall i i', (i < nx)%nat -> (i' < nx)%nat ->
       rsum n (fun l => h i l * h i' l) = clipped1 n (@cov1_spec Rarith v n (d_dx d) (opt (a_sx a) 1)) (INR i - INR i')) /\
    forall rec fuel t ns st (l : list R) st',
      fst (step rec fuel t (CSize v d) st) = Ok (VSizes ns) -> length ns = 1%nat -> asks d a ns -> grid_used d a ns 0 = Ok zx ->
      step rec fuel t (CAdvanced v d a) st = (Ok (@VArray (Rlib o cl) l), st') ->
      exists (noise : list R) end_,
        draws (Unif01 (A := Rlib o cl) rec) fuel n (init_gen_rand (fst (genrand_uint32 rec (gen (ensure_init rec t st))))) = Ok (noise, end_) /\
        forall i, (i < nx)%nat -> nth i l 0 = rsum n (fun q => h i q * nth q noise 0).
Proof. exact api1. Qed.
Print Assumptions C24_api.
Theorem C25_covariance_2d : forall (o : Z -> outcome Z) (cl : Z -> Z -> Z) (v : variogram (Rlib o cl)) nx ny nxt nyt dx dy sx sy,
  (nx <= nxt)%nat -> (ny <= nyt)%nat ->
  forall (W : Type) (E : (W -> R) -> R) (noise : W -> list R), expectation E -> white E (nxt * nyt) noise ->
  exists field : W -> list R, (forall w, @field2d (Rlib o cl) v nx ny nxt nyt dx dy sx sy (noise w) = Ok (field w) /\ length (field w) = (nx * ny)%nat) /\
    forall i j i' j', (i < nx)%nat -> (j < ny)%nat -> (i' < nx)%nat -> (j' < ny)%nat ->
      E (fun w => nth (i + j * nx) (field w) 0 * nth (i' + j' * nx) (field w) 0)
      = clipped2 nxt nyt (@cov2_spec Rarith v nxt dx nyt dy sx sy) (INR i - INR i') (INR j - INR j').
Proof. exact c25. Qed.
Print Assumptions C25_covariance_2d.
(** (a,b): the separation wrapped to less than half the padded size *)
Theorem C25_exact_2d : forall (o : Z -> outcome Z) (cl : Z -> Z -> Z) (v : variogram (Rlib o cl)) nx ny nxt nyt dx dy sx sy,
  (nx <= nxt)%nat -> (ny <= nyt)%nat -> 99999 / 100000 <= sx -> 99999 / 100000 <= sy ->
  nonneg2 nxt nyt (@cov2_spec Rarith v nxt dx nyt dy sx sy) ->
  forall i j i' j' a b q r, (i < nx)%nat -> (j < ny)%nat -> (i' < nx)%nat -> (j' < ny)%nat ->
    (Z.of_nat i - Z.of_nat i' = a + q * Z.of_nat nxt)%Z -> (2 * Z.abs a < Z.of_nat nxt)%Z ->
    (Z.of_nat j - Z.of_nat j' = b + r * Z.of_nat nyt)%Z -> (2 * Z.abs b < Z.of_nat nyt)%Z ->
    clipped2 nxt nyt (@cov2_spec Rarith v nxt dx nyt dy sx sy) (INR i - INR i') (INR j - INR j') = @var Rarith v * @GetCorr2 Rarith v (IZR a * dx) (IZR b * dy).
Proof. exact c25_exact. Qed.
Print Assumptions C25_exact_2d.
Theorem C25_api : forall (o : Z -> outcome Z) (cl : Z -> Z -> Z) (v : variogram (Rlib o cl)) (d : dims (Rlib o cl)) (a : adv (Rlib o cl)) zx zy,
  dim_asked d = 2%nat -> (0 < zx)%Z -> (0 < zy)%Z -> (d_nx d <= zx)%Z -> (opt (d_ny d) 1 <= zy)%Z ->
  let nx := Z.to_nat (d_nx d) in let ny := Z.to_nat (opt (d_ny d) 1%Z) in let nxt := Z.to_nat zx in let nyt := Z.to_nat zy in
  exists h : nat -> nat -> nat -> R,
    (forall i j i' j', (i < nx)%nat -> (j < ny)%nat -> (i' < nx)%nat -> (j' < ny)%nat ->
       rsum (nxt * nyt) (fun l => h i j l * h i' j' l)
       = clipped2 nxt nyt (@cov2_spec Rarith v nxt (d_dx d) nyt (opt (d_dy d) (-1)) (opt (a_sx a) 1) (opt (a_sy a) 1)) (INR i - INR i') (INR j - INR j')) /\
    forall rec fuel t ns st (l : list R) st',
      fst (step rec fuel t (CSize v d) st) = Ok (VSizes ns) -> length ns = 2%nat -> asks d a ns -> grid_used d a ns 0 = Ok zx -> grid_used d a ns 1 = Ok zy ->
      step rec fuel t (CAdvanced v d a) st = (Ok (@VArray (Rlib o cl) l), st') ->
      exists (xs noise : list R) end_,
        draws (Unif01 (A := Rlib o cl) rec) fuel (nxt * nyt) (init_gen_rand (fst (genrand_uint32 rec (gen (ensure_init rec t st))))) = Ok (xs, end_) /\
        Permutation.Permutation noise xs /\
        forall i j, (i < nx)%nat -> (j < ny)%nat -> nth (i + j * nx) l 0 = rsum (nxt * nyt) (fun q => h i j q * nth q noise 0).
Proof. exact api2. Qed.
Print Assumptions C25_api.
Theorem C26_covariance_3d : forall (o : Z -> outcome Z) (cl : Z -> Z -> Z) (v : variogram (Rlib o cl)) nx ny nz nxt nyt nzt dx dy dz sx sy sz,
  (nx <= nxt)%nat -> (ny <= nyt)%nat -> (nz <= nzt)%nat ->
  forall (W : Type) (E : (W -> R) -> R) (noise : W -> list R), expectation E -> white E (nxt * nyt * nzt) noise ->
  exists field : W -> list R, (forall w, @field3d (Rlib o cl) v nx ny nz nxt nyt nzt dx dy dz sx sy sz (noise w) = Ok (field w) /\ length (field w) = (nx * ny * nz)%nat) /\
    forall i j k i' j' k', (i < nx)%nat -> (j < ny)%nat -> (k < nz)%nat -> (i' < nx)%nat -> (j' < ny)%nat -> (k' < nz)%nat ->
      E (fun w => nth (i + j * nx + k * nx * ny) (field w) 0 * nth (i' + j' * nx + k' * nx * ny) (field w) 0)
      = clipped3 nxt nyt nzt (@cov3_spec Rarith v nxt dx nyt dy nzt dz sx sy sz) (INR i - INR i') (INR j - INR j') (INR k - INR k').
Proof. exact c26. Qed.
Print Assumptions C26_covariance_3d.
Theorem C26_exact_3d : forall (o : Z -> outcome Z) (cl : Z -> Z -> Z) (v : variogram (Rlib o cl)) nx ny nz nxt nyt nzt dx dy dz sx sy sz,
  (nx <= nxt)%nat -> (ny <= nyt)%nat -> (nz <= nzt)%nat ->
  99999 / 100000 <= sx -> 99999 / 100000 <= sy -> 99999 / 100000 <= sz ->
  nonneg3 nxt nyt nzt (@cov3_spec Rarith v nxt dx nyt dy nzt dz sx sy sz) ->
  forall i j k i' j' k' a b c q r s, (i < nx)%nat -> (j < ny)%nat -> (k < nz)%nat -> (i' < nx)%nat -> (j' < ny)%nat -> (k' < nz)%nat ->
    (Z.of_nat i - Z.of_nat i' = a + q * Z.of_nat nxt)%Z -> (2 * Z.abs a < Z.of_nat nxt)%Z ->
    (Z.of_nat j - Z.of_nat j' = b + r * Z.of_nat nyt)%Z -> (2 * Z.abs b < Z.of_nat nyt)%Z ->
    (Z.of_nat k - Z.of_nat k' = c + s * Z.of_nat nzt)%Z -> (2 * Z.abs c < Z.of_nat nzt)%Z ->
    clipped3 nxt nyt nzt (@cov3_spec Rarith v nxt dx nyt dy nzt dz sx sy sz) (INR i - INR i') (INR j - INR j') (INR k - INR k')
    = @var Rarith v * @GetCorr3 Rarith v (IZR a * dx) (IZR b * dy) (IZR c * dz).
Proof. exact c26_exact. Qed.
Print Assumptions C26_exact_3d.
Theorem C26_api : forall (o : Z -> outcome Z) (cl : Z -> Z -> Z) (v : variogram (Rlib o cl)) (d : dims (Rlib o cl)) (a : adv (Rlib o cl)) zx zy zz,
  dim_asked d = 3%nat -> (0 < zx)%Z -> (0 < zy)%Z -> (0 < zz)%Z ->
  (d_nx d <= zx)%Z -> (opt (d_ny d) 1 <= zy)%Z -> (opt (d_nz d) 1 <= zz)%Z ->
  let nx := Z.to_nat (d_nx d) in let ny := Z.to_nat (opt (d_ny d) 1%Z) in let nz := Z.to_nat (opt (d_nz d) 1%Z) in
  let nxt := Z.to_nat zx in let nyt := Z.to_nat zy in let nzt := Z.to_nat zz in
  exists h : nat -> nat -> nat -> nat -> R,
    (forall i j k i' j' k', (i < nx)%nat -> (j < ny)%nat -> (k < nz)%nat -> (i' < nx)%nat -> (j' < ny)%nat -> (k' < nz)%nat ->
       rsum (nxt * nyt * nzt) (fun l => h i j k l * h i' j' k' l)
       = clipped3 nxt nyt nzt (@cov3_spec Rarith v nxt (d_dx d) nyt (opt (d_dy d) (-1)) nzt (opt (d_dz d) (-1)) (opt (a_sx a) 1) (opt (a_sy a) 1) (opt (a_sz a) 1))
           (INR i - INR i') (INR j - INR j') (INR k - INR k')) /\
    forall rec fuel t ns st (l : list R) st',
      fst (step rec fuel t (CSize v d) st) = Ok (VSizes ns) -> length ns = 3%nat -> asks d a ns ->
      grid_used d a ns 0 = Ok zx -> grid_used d a ns 1 = Ok zy -> grid_used d a ns 2 = Ok zz ->
      step rec fuel t (CAdvanced v d a) st = (Ok (@VArray (Rlib o cl) l), st') ->
      exists (xs noise : list R),
        draws (Unif01 (A := Rlib o cl) rec) fuel (nxt * nyt * nzt) (gen (ensure_init rec t st)) = Ok (xs, gen st') /\
        Permutation.Permutation noise xs /\
        forall i j k, (i < nx)%nat -> (j < ny)%nat -> (k < nz)%nat ->
          nth (i + j * nx + k * nx * ny) l 0 = rsum (nxt * nyt * nzt) (fun q => h i j k q * nth q noise 0).
Proof. exact api3. Qed.
Print Assumptions C26_api.
(** white noise as an example of the hypotheses: one cell, chosen at random, gets plus or minus sqrt n *)
Example white_noise_exists : forall n, (0 < n)%nat -> expectation (Ex n) /\ white (Ex n) n (nz n) /\ centred (Ex n) n (nz n).
Proof. exact white_example. Qed.
(** spherical, range 2.2, 3 by 3 (by 3) cells of size 2: no spectral value is negative *)
Example C25_example : forall (o : Z -> outcome Z) (cl : Z -> Z -> Z), exists v : variogram (Rlib o cl), @CreateVariogram Rarith "spherical" (22 / 10) (22 / 10) (22 / 10) 0 0 1 = Ok v /\
  nonneg2 3 3 (@cov2_spec Rarith v 3 2 3 2 1 1) /\ nonneg3 3 3 3 (@cov3_spec Rarith v 3 2 3 2 3 2 1 1 1).
Proof. intros o cl. exact (ex_intro _ _ (Logic.conj (v_ex_created o cl) (Logic.conj (nonneg2_example o cl) (nonneg3_example o cl)))). Qed.
Example C25_lags_example : (Z.of_nat 0 - Z.of_nat 2 = 1 + -1 * Z.of_nat 3)%Z /\ (2 * Z.abs 1 < Z.of_nat 3)%Z.
Proof. split; reflexivity. Qed.

(** ** C27, C28 *)
Theorem C27_no_negative_spectrum : forall (s : string) (main perp depth azi dp pw : R) (v : variogram Rarith) n (dx sx : R),
  @CreateVariogram Rarith s main perp depth azi dp pw = Ok v -> 0 < main -> perp <> 0 -> depth <> 0 -> 0 < pw ->
  (vt v = EXPONENTIAL \/ vt v = SPHERICAL \/ vt v = CONSTANT \/ vt v = GENERAL_EXPONENTIAL /\ pw <= 1) ->
  (0 < n)%nat -> 99999 / 100000 <= sx -> nonneg1 n (@cov1_spec Rarith v n dx sx).
Proof. exact (fun s main perp depth azi dp pw v n dx sx HC Hm Hp Hd Hw HT Hn Hs => c27 s main perp depth azi dp pw v HC Hm Hp Hd Hw n dx sx HT Hn Hs). Qed.
Print Assumptions C27_no_negative_spectrum.
Theorem C27_covariance : forall (o : Z -> outcome Z) (cl : Z -> Z -> Z) (s : string) (main perp depth azi dp pw : R) (v : variogram (Rlib o cl)) nx n (dx sx : R),
  @CreateVariogram Rarith s main perp depth azi dp pw = Ok v -> 0 < main -> perp <> 0 -> depth <> 0 -> 0 < pw ->
  (vt v = EXPONENTIAL \/ vt v = SPHERICAL \/ vt v = CONSTANT \/ vt v = GENERAL_EXPONENTIAL /\ pw <= 1) ->
  (0 < n)%nat -> (nx <= n)%nat -> 99999 / 100000 <= sx ->
  forall (W : Type) (E : (W -> R) -> R) (noise : W -> list R), expectation E -> white E n noise ->
  exists field : W -> list R, (forall w, @field1d (Rlib o cl) v nx n dx sx (noise w) = Ok (field w) /\ length (field w) = nx) /\
    forall i i', (i < nx)%nat -> (i' < nx)%nat ->
      let k := (Nat.max i i' - Nat.min i i')%nat in
      E (fun w => nth i (field w) 0 * nth i' (field w) 0) = @GetCorr1 Rarith v (INR (Nat.min k (n - k)) * dx).
Proof. exact (fun o cl s main perp depth azi dp pw v nx n dx sx HC Hm Hp Hd Hw HT => c27_field o cl s main perp depth azi dp pw v HC Hm Hp Hd Hw HT nx n dx sx). Qed.
Print Assumptions C27_covariance.
(** at least the default padding ([ns]: the size it reports), and the x axis is an axis of the variogram or its main range is the largest.
    Missing from the full claim: other variograms, for which it is false (below). *)
Theorem C28_padded_partial : forall (o : Z -> outcome Z) (cl : Z -> Z -> Z) (s : string) (main perp depth azi dp pw : R) (v : variogram (Rlib o cl)) rec fuel t (d : dims (Rlib o cl)) st ns n (sx : R),
  @CreateVariogram Rarith s main perp depth azi dp pw = Ok v -> 0 < main -> perp <> 0 -> depth <> 0 -> 0 < pw ->
  (vt v = EXPONENTIAL \/ vt v = SPHERICAL \/ vt v = CONSTANT \/ vt v = GENERAL_EXPONENTIAL /\ pw <= 1) ->
  fst (step rec fuel t (CSize v d) st) = Ok (VSizes ns) -> length ns = 1%nat -> 0 < d_dx d /\ (0 <= d_nx d < 2 ^ 63)%Z ->
  (or_main main perp <= main /\ or_main main depth <= main) \/ (radians azi = 0 /\ radians dp = 0) ->
  (nth 0 ns 0 <= Z.of_nat n)%Z -> 99999 / 100000 <= sx ->
  let nx := Z.to_nat (d_nx d) in let dx := d_dx d in
  forall (W : Type) (E : (W -> R) -> R) (noise : W -> list R), expectation E -> white E n noise ->
  exists field : W -> list R, (forall w, @field1d (Rlib o cl) v nx n dx sx (noise w) = Ok (field w) /\ length (field w) = nx) /\
    forall i i', (i < nx)%nat -> (i' < nx)%nat ->
      let k := (Nat.max i i' - Nat.min i i')%nat in
      let c := E (fun w => nth i (field w) 0 * nth i' (field w) 0) in
      0 <= c - @GetCorr1 Rarith v (INR k * dx) <= corr_fun (vt v) pw 1 /\
      ((2 * k <= n)%nat \/ vt v = SPHERICAL -> c = @GetCorr1 Rarith v (INR k * dx)).
Proof. exact (fun o cl s main perp depth azi dp pw v rec fuel t d st ns n sx HC Hm Hp Hd Hw HT HS Hl Hsp Hdir => c28_field o cl s main perp depth azi dp pw v HC Hm Hp Hd Hw HT rec fuel t d st ns HS Hl Hsp Hdir n sx). Qed.
Print Assumptions C28_padded_partial.
(** main range 10 at azimuth 90 degrees, perpendicular range 1000: 101 cells are padded to 112, and cells 0 and 100 are
    correlated like cells 12 apart *)
Theorem C28_trace_refuted : forall (o : Z -> outcome Z) (cl : Z -> Z -> Z), exists v : variogram (Rlib o cl), @CreateVariogram Rarith "spherical" 10 1000 10 90 0 1 = Ok v /\
  (forall rec fuel t st, exists d : dims (Rlib o cl), d_nx d = 101%Z /\ d_dx d = 1 /\ fst (step rec fuel t (CSize v d) st) = Ok (VSizes [112%Z])) /\
  forall (W : Type) (E : (W -> R) -> R) (noise : W -> list R), expectation E -> white E 112 noise ->
  exists field : W -> list R, (forall w, @field1d (Rlib o cl) v 101 112 1 1 (noise w) = Ok (field w)) /\
    E (fun w => nth 0 (field w) 0 * nth 100 (field w) 0) <> @GetCorr1 Rarith v 100.
Proof. exact c28_refuted. Qed.
Print Assumptions C28_trace_refuted.
(** ** C29 *)
(** the variance is 1 plus the clipped mass per cell; [asked1] is what the table asks for *)
Theorem C29_variance_1d : forall (o : Z -> outcome Z) (cl : Z -> Z -> Z) (s : string) (main perp depth azi dp pw : R) (v : variogram (Rlib o cl)) nx n (dx sx : R),
  @CreateVariogram Rarith s main perp depth azi dp pw = Ok v -> 0 < main -> perp <> 0 -> depth <> 0 -> 0 < pw ->
  (0 < n)%nat -> (nx <= n)%nat ->
  forall (W : Type) (E : (W -> R) -> R) (noise : W -> list R), expectation E -> white E n noise ->
  exists field : W -> list R, (forall w, @field1d (Rlib o cl) v nx n dx sx (noise w) = Ok (field w) /\ length (field w) = nx) /\
    let c := @cov1_spec Rarith v n dx sx in
    (forall i, (i < nx)%nat -> let V := E (fun w => nth i (field w) 0 * nth i (field w) 0) in
       V = 1 + mass1 n c / INR n /\ 1 <= V /\ (V = 1 <-> nonneg1 n c)) /\
    (forall i i', (i < nx)%nat -> (i' < nx)%nat ->
       Rabs (E (fun w => nth i (field w) 0 * nth i' (field w) 0) - asked1 n c i i') <= mass1 n c / INR n).
Proof. exact (fun o cl s main perp depth azi dp pw v nx n dx sx  HC Hm Hp Hd Hw => c29f_1 o cl v s main perp depth azi dp pw HC Hm Hp Hd Hw nx n dx sx ). Qed.
Print Assumptions C29_variance_1d.
Theorem C29_variance_2d : forall (o : Z -> outcome Z) (cl : Z -> Z -> Z) (s : string) (main perp depth azi dp pw : R) (v : variogram (Rlib o cl)) nx ny nxt nyt (dx dy sx sy : R),
  @CreateVariogram Rarith s main perp depth azi dp pw = Ok v -> 0 < main -> perp <> 0 -> depth <> 0 -> 0 < pw ->
  (0 < nxt)%nat -> (0 < nyt)%nat -> (nx <= nxt)%nat -> (ny <= nyt)%nat ->
  forall (W : Type) (E : (W -> R) -> R) (noise : W -> list R), expectation E -> white E (nxt * nyt) noise ->
  exists field : W -> list R, (forall w, @field2d (Rlib o cl) v nx ny nxt nyt dx dy sx sy (noise w) = Ok (field w) /\ length (field w) = (nx * ny)%nat) /\
    let c := @cov2_spec Rarith v nxt dx nyt dy sx sy in
    (forall i j, (i < nx)%nat -> (j < ny)%nat -> let V := E (fun w => nth (i + j * nx) (field w) 0 * nth (i + j * nx) (field w) 0) in
       V = 1 + mass2 nxt nyt c / (INR nxt * INR nyt) /\ 1 <= V /\ (V = 1 <-> nonneg2 nxt nyt c)) /\
    (forall i j i' j', (i < nx)%nat -> (j < ny)%nat -> (i' < nx)%nat -> (j' < ny)%nat ->
       Rabs (E (fun w => nth (i + j * nx) (field w) 0 * nth (i' + j' * nx) (field w) 0) - asked2 nxt nyt c i j i' j') <= mass2 nxt nyt c / (INR nxt * INR nyt)).
Proof. exact (fun o cl s main perp depth azi dp pw v nx ny nxt nyt dx dy sx sy  HC Hm Hp Hd Hw => c29f_2 o cl v s main perp depth azi dp pw HC Hm Hp Hd Hw nx ny nxt nyt dx dy sx sy ). Qed.
Print Assumptions C29_variance_2d.
Theorem C29_variance_3d : forall (o : Z -> outcome Z) (cl : Z -> Z -> Z) (s : string) (main perp depth azi dp pw : R) (v : variogram (Rlib o cl)) nx ny nz nxt nyt nzt (dx dy dz sx sy sz : R),
  @CreateVariogram Rarith s main perp depth azi dp pw = Ok v -> 0 < main -> perp <> 0 -> depth <> 0 -> 0 < pw ->
  (0 < nxt)%nat -> (0 < nyt)%nat -> (0 < nzt)%nat -> (nx <= nxt)%nat -> (ny <= nyt)%nat -> (nz <= nzt)%nat ->
  forall (W : Type) (E : (W -> R) -> R) (noise : W -> list R), expectation E -> white E (nxt * nyt * nzt) noise ->
  exists field : W -> list R, (forall w, @field3d (Rlib o cl) v nx ny nz nxt nyt nzt dx dy dz sx sy sz (noise w) = Ok (field w) /\ length (field w) = (nx * ny * nz)%nat) /\
    let c := @cov3_spec Rarith v nxt dx nyt dy nzt dz sx sy sz in
    (forall i j k, (i < nx)%nat -> (j < ny)%nat -> (k < nz)%nat ->
       let V := E (fun w => nth (i + j * nx + k * nx * ny) (field w) 0 * nth (i + j * nx + k * nx * ny) (field w) 0) in
       V = 1 + mass3 nxt nyt nzt c / (INR nxt * INR nyt * INR nzt) /\ 1 <= V /\ (V = 1 <-> nonneg3 nxt nyt nzt c)) /\
    (forall i j k i' j' k', (i < nx)%nat -> (j < ny)%nat -> (k < nz)%nat -> (i' < nx)%nat -> (j' < ny)%nat -> (k' < nz)%nat ->
       Rabs (E (fun w => nth (i + j * nx + k * nx * ny) (field w) 0 * nth (i' + j' * nx + k' * nx * ny) (field w) 0) - asked3 nxt nyt nzt c i j k i' j' k')
       <= mass3 nxt nyt nzt c / (INR nxt * INR nyt * INR nzt)).
Proof. exact (fun o cl s main perp depth azi dp pw v nx ny nz nxt nyt nzt dx dy dz sx sy sz  HC Hm Hp Hd Hw => c29f_3 o cl v s main perp depth azi dp pw HC Hm Hp Hd Hw nx ny nz nxt nyt nzt dx dy dz sx sy sz ). Qed.
Print Assumptions C29_variance_3d.
(** nothing clipped: [C25_example]. Something clipped: gaussian, range 10, 4 cells of size 1 *)
Example C29_example : exists v, @CreateVariogram Rarith "gaussian" 10 (-1) (-1) 0 0 1 = Ok v /\ ~ nonneg1 4 (@cov1_spec Rarith v 4 1 1).
Proof. eexists. split; [reflexivity|]. apply clipped_example. reflexivity. Qed.

(** ** C30 *)
(** sums and multiples; every noise array of the right length gives a field *)
Theorem C30_linear_1d : forall (o : Z -> outcome Z) (cl : Z -> Z -> Z) (v : variogram (Rlib o cl)) nx n dx sx (x y : list R) a b,
  (0 < n)%nat -> (nx <= n)%nat -> length x = n -> length y = n ->
  exists fx fy : list R, @field1d (Rlib o cl) v nx n dx sx x = Ok fx /\ @field1d (Rlib o cl) v nx n dx sx y = Ok fy /\
    @field1d (Rlib o cl) v nx n dx sx (comb a b x y) = Ok (comb a b fx fy).
Proof. exact c30_1. Qed.
Print Assumptions C30_linear_1d.
Theorem C30_linear_2d : forall (o : Z -> outcome Z) (cl : Z -> Z -> Z) (v : variogram (Rlib o cl)) nx ny nxt nyt dx dy sx sy (x y : list R) a b,
  (nx <= nxt)%nat -> (ny <= nyt)%nat -> length x = (nxt * nyt)%nat -> length y = (nxt * nyt)%nat ->
  exists fx fy : list R, @field2d (Rlib o cl) v nx ny nxt nyt dx dy sx sy x = Ok fx /\ @field2d (Rlib o cl) v nx ny nxt nyt dx dy sx sy y = Ok fy /\
    @field2d (Rlib o cl) v nx ny nxt nyt dx dy sx sy (comb a b x y) = Ok (comb a b fx fy).
Proof. exact c30_2. Qed.
Print Assumptions C30_linear_2d.
Theorem C30_linear_3d : forall (o : Z -> outcome Z) (cl : Z -> Z -> Z) (v : variogram (Rlib o cl)) nx ny nz nxt nyt nzt dx dy dz sx sy sz (x y : list R) a b,
  (nx <= nxt)%nat -> (ny <= nyt)%nat -> (nz <= nzt)%nat ->
  length x = (nxt * nyt * nzt)%nat -> length y = (nxt * nyt * nzt)%nat ->
  exists fx fy : list R, @field3d (Rlib o cl) v nx ny nz nxt nyt nzt dx dy dz sx sy sz x = Ok fx /\ @field3d (Rlib o cl) v nx ny nz nxt nyt nzt dx dy dz sx sy sz y = Ok fy /\
    @field3d (Rlib o cl) v nx ny nz nxt nyt nzt dx dy dz sx sy sz (comb a b x y) = Ok (comb a b fx fy).
Proof. exact c30_3. Qed.
Print Assumptions C30_linear_3d.
Theorem C30_zero_1d : forall (o : Z -> outcome Z) (cl : Z -> Z -> Z) (v : variogram (Rlib o cl)) nx n dx sx,
  (0 < n)%nat -> (nx <= n)%nat -> @field1d (Rlib o cl) v nx n dx sx (repeat 0 n) = Ok (repeat 0 nx).
Proof. exact c30_zero1. Qed.
Print Assumptions C30_zero_1d.
Theorem C30_zero_2d : forall (o : Z -> outcome Z) (cl : Z -> Z -> Z) (v : variogram (Rlib o cl)) nx ny nxt nyt dx dy sx sy,
  (nx <= nxt)%nat -> (ny <= nyt)%nat -> @field2d (Rlib o cl) v nx ny nxt nyt dx dy sx sy (repeat 0 (nxt * nyt)) = Ok (repeat 0 (nx * ny)).
Proof. exact c30_zero2. Qed.
Print Assumptions C30_zero_2d.
Theorem C30_zero_3d : forall (o : Z -> outcome Z) (cl : Z -> Z -> Z) (v : variogram (Rlib o cl)) nx ny nz nxt nyt nzt dx dy dz sx sy sz,
  (nx <= nxt)%nat -> (ny <= nyt)%nat -> (nz <= nzt)%nat ->
  @field3d (Rlib o cl) v nx ny nz nxt nyt nzt dx dy dz sx sy sz (repeat 0 (nxt * nyt * nzt)) = Ok (repeat 0 (nx * ny * nz)).
Proof. exact c30_zero3. Qed.
Print Assumptions C30_zero_3d.
Theorem C30_mean_1d : forall (o : Z -> outcome Z) (cl : Z -> Z -> Z) (v : variogram (Rlib o cl)) nx n dx sx,
  (0 < n)%nat -> (nx <= n)%nat ->
  forall (W : Type) (E : (W -> R) -> R) (noise : W -> list R) (field : W -> list R), expectation E -> (forall w, length (noise w) = n) -> centred E n noise ->
  (forall w, @field1d (Rlib o cl) v nx n dx sx (noise w) = Ok (field w)) -> centred E nx field.
Proof. exact c30_mean1. Qed.
Print Assumptions C30_mean_1d.
Theorem C30_mean_2d : forall (o : Z -> outcome Z) (cl : Z -> Z -> Z) (v : variogram (Rlib o cl)) nx ny nxt nyt dx dy sx sy,
  (nx <= nxt)%nat -> (ny <= nyt)%nat ->
  forall (W : Type) (E : (W -> R) -> R) (noise : W -> list R) (field : W -> list R), expectation E -> (forall w, length (noise w) = (nxt * nyt)%nat) -> centred E (nxt * nyt) noise ->
  (forall w, @field2d (Rlib o cl) v nx ny nxt nyt dx dy sx sy (noise w) = Ok (field w)) -> centred E (nx * ny) field.
Proof. exact c30_mean2. Qed.
Print Assumptions C30_mean_2d.
Theorem C30_mean_3d : forall (o : Z -> outcome Z) (cl : Z -> Z -> Z) (v : variogram (Rlib o cl)) nx ny nz nxt nyt nzt dx dy dz sx sy sz,
  (nx <= nxt)%nat -> (ny <= nyt)%nat -> (nz <= nzt)%nat ->
  forall (W : Type) (E : (W -> R) -> R) (noise : W -> list R) (field : W -> list R), expectation E -> (forall w, length (noise w) = (nxt * nyt * nzt)%nat) -> centred E (nxt * nyt * nzt) noise ->
  (forall w, @field3d (Rlib o cl) v nx ny nz nxt nyt nzt dx dy dz sx sy sz (noise w) = Ok (field w)) -> centred E (nx * ny * nz) field.
Proof. exact c30_mean3. Qed.
Print Assumptions C30_mean_3d.
Example C30_example : comb 2 3 [1; 2] [10; 20] = [2 * 1 + 3 * 10; 2 * 2 + 3 * 20].
Proof. reflexivity. Qed.

(** ** C33 *)
(** [ns]: the size of simulation_size; p, q, r: separations of two cells; a, b, c: the image; Nx, Ny, Nz: any grid at least that large.
    Missing from the full claim: variograms not meeting the hypothesis on ranges and angles, for which it is false (below). *)
Theorem C33_images_1d_partial : forall (o : Z -> outcome Z) (cl : Z -> Z -> Z) (s : string) (main perp depth azi dp pw : R) (v : variogram (Rlib o cl)) rec fuel t (d : dims (Rlib o cl)) st ns N p a,
  @CreateVariogram Rarith s main perp depth azi dp pw = Ok v -> 0 < main -> perp <> 0 -> depth <> 0 ->
  fst (step rec fuel t (CSize v d) st) = Ok (VSizes ns) ->
  (forall i, (i < length ns)%nat -> 0 < spacing o cl d i /\ (cells d i < 2 ^ 63)%Z) ->
  length ns = 1%nat -> (or_main main perp <= main /\ or_main main depth <= main) \/ (radians azi = 0 /\ radians dp = 0) ->
  (nth 0 ns 0%Z <= N)%Z -> (Z.abs p < d_nx d)%Z -> a <> 0%Z -> 1 < ndist main (or_main main perp) (or_main main depth) (radians azi) (radians dp) (IZR (p + a * N) * d_dx d, 0, 0).
Proof. exact (fun o cl s main perp depth azi dp pw v rec fuel t d st ns N p a HC Hm Hp Hd HS Hsp => c33_1 o cl s main perp depth azi dp pw v HC Hm Hp Hd rec fuel t d st ns HS Hsp N p a). Qed.
Print Assumptions C33_images_1d_partial.
Theorem C33_images_2d_partial : forall (o : Z -> outcome Z) (cl : Z -> Z -> Z) (s : string) (main perp depth azi dp pw : R) (v : variogram (Rlib o cl)) rec fuel t (d : dims (Rlib o cl)) st ns Nx Ny p q a b,
  @CreateVariogram Rarith s main perp depth azi dp pw = Ok v -> 0 < main -> perp <> 0 -> depth <> 0 ->
  fst (step rec fuel t (CSize v d) st) = Ok (VSizes ns) ->
  (forall i, (i < length ns)%nat -> 0 < spacing o cl d i /\ (cells d i < 2 ^ 63)%Z) ->
  length ns = 2%nat -> radians dp = 0 \/ or_main main depth <= Rmax main (or_main main perp) ->
  (nth 0 ns 0%Z <= Nx)%Z -> (nth 1 ns 0%Z <= Ny)%Z -> (Z.abs p < cells d 0)%Z -> (Z.abs q < cells d 1)%Z -> a <> 0%Z \/ b <> 0%Z ->
  1 < ndist main (or_main main perp) (or_main main depth) (radians azi) (radians dp) (IZR (p + a * Nx) * spacing o cl d 0, IZR (q + b * Ny) * spacing o cl d 1, 0).
Proof. exact (fun o cl s main perp depth azi dp pw v rec fuel t d st ns Nx Ny p q a b HC Hm Hp Hd HS Hsp => c33_2 o cl s main perp depth azi dp pw v HC Hm Hp Hd rec fuel t d st ns HS Hsp Nx Ny p q a b). Qed.
Print Assumptions C33_images_2d_partial.
Theorem C33_images_3d_partial : forall (o : Z -> outcome Z) (cl : Z -> Z -> Z) (s : string) (main perp depth azi dp pw : R) (v : variogram (Rlib o cl)) rec fuel t (d : dims (Rlib o cl)) st ns Nx Ny Nz p q r a b c,
  @CreateVariogram Rarith s main perp depth azi dp pw = Ok v -> 0 < main -> perp <> 0 -> depth <> 0 ->
  fst (step rec fuel t (CSize v d) st) = Ok (VSizes ns) ->
  (forall i, (i < length ns)%nat -> 0 < spacing o cl d i /\ (cells d i < 2 ^ 63)%Z) ->
  length ns = 3%nat -> radians dp = 0 ->
  (nth 0 ns 0%Z <= Nx)%Z -> (nth 1 ns 0%Z <= Ny)%Z -> (nth 2 ns 0%Z <= Nz)%Z ->
  (Z.abs p < cells d 0)%Z -> (Z.abs q < cells d 1)%Z -> (Z.abs r < cells d 2)%Z -> a <> 0%Z \/ b <> 0%Z \/ c <> 0%Z ->
  1 < ndist main (or_main main perp) (or_main main depth) (radians azi) (radians dp) (IZR (p + a * Nx) * spacing o cl d 0, IZR (q + b * Ny) * spacing o cl d 1, IZR (r + c * Nz) * spacing o cl d 2).
Proof. exact (fun o cl s main perp depth azi dp pw v rec fuel t d st ns Nx Ny Nz p q r a b c HC Hm Hp Hd HS Hsp => c33_3 o cl s main perp depth azi dp pw v HC Hm Hp Hd rec fuel t d st ns HS Hsp Nx Ny Nz p q r a b c). Qed.
Print Assumptions C33_images_3d_partial.
(** main range 10 at azimuth 90 degrees, perpendicular range 1000: the image of the last cell is 12 cells from the first, along the
    long range *)
Theorem C33_images_1d_refuted : forall (o : Z -> outcome Z) (cl : Z -> Z -> Z), exists v : variogram (Rlib o cl), @CreateVariogram Rarith "spherical" 10 1000 10 90 0 1 = Ok v /\
  forall rec fuel t st, exists ns, fst (step rec fuel t (CSize v (dims3 o cl 101 1 1)) st) = Ok (VSizes ns) /\ ns = [112%Z] /\
    ndist 10 1000 10 (radians 90) (radians 0) (IZR (100 + -1 * 112) * 1, 0, 0) < 1.
Proof. exact c33_1_refuted. Qed.
Print Assumptions C33_images_1d_refuted.
(** dip 90 degrees, vertical range 1000, in 2D *)
Theorem C33_images_2d_refuted : forall (o : Z -> outcome Z) (cl : Z -> Z -> Z), exists v : variogram (Rlib o cl), @CreateVariogram Rarith "spherical" 10 10 1000 0 90 1 = Ok v /\
  forall rec fuel t st, exists ns, fst (step rec fuel t (CSize v (dims3 o cl 101 101 1)) st) = Ok (VSizes ns) /\ ns = [112; 112]%Z /\
    ndist 10 10 1000 (radians 0) (radians 90) (IZR (100 + -1 * 112) * 1, IZR (0 + 0 * 112) * 1, 0) < 1.
Proof. exact c33_2_refuted. Qed.
Print Assumptions C33_images_2d_refuted.
(** dip 90 degrees, main range 1000, vertical range 10, in 3D *)
Theorem C33_images_3d_refuted : forall (o : Z -> outcome Z) (cl : Z -> Z -> Z), exists v : variogram (Rlib o cl), @CreateVariogram Rarith "spherical" 1000 1000 10 0 90 1 = Ok v /\
  forall rec fuel t st, exists ns, fst (step rec fuel t (CSize v (dims3 o cl 2 2 101)) st) = Ok (VSizes ns) /\ length ns = 3%nat /\ nth 2 ns 0%Z = 112%Z /\
    ndist 1000 1000 10 (radians 0) (radians 90) (0, 0, IZR (100 + -1 * 112) * 1) < 1.
Proof. exact c33_3_refuted. Qed.
Print Assumptions C33_images_3d_refuted.
(** 112 is itself a size the transforms use: no rounding up removes these images *)
Example C33_112 : forall even, best_size even 112 112.
Proof. exact best_112. Qed.
(** the hypotheses of the positive theorems: spherical, range 10, 101 cells *)
Example C33_example : forall (o : Z -> outcome Z) (cl : Z -> Z -> Z) rec fuel t st, exists (v : variogram (Rlib o cl)) ns, @CreateVariogram Rarith "spherical" 10 10 10 0 0 1 = Ok v /\
  fst (step rec fuel t (CSize v (dims3 o cl 101 101 101)) st) = Ok (VSizes ns) /\ length ns = 3%nat /\ radians 0 = 0.
Proof. exact c33_example. Qed.

(** ** C43 *)
Theorem C43_round_trip_1d : forall (o : Z -> outcome Z) (cl : Z -> Z -> Z) (x out : list R) sf mp X,
  @ComputeFFT1D (Rlib o cl) x sf mp = Ok X -> (length out <= length x)%nat ->
  @ComputeFFTInv1D (Rlib o cl) X out sf = Ok (firstn (length out) x).
Proof. exact round1. Qed.
Print Assumptions C43_round_trip_1d.
Theorem C43_round_trip_2d : forall (o : Z -> outcome Z) (cl : Z -> Z -> Z) ni nj sf (x : list R),
  (0 < ni)%nat -> (0 < nj)%nat -> length x = (ni * nj)%nat ->
  exists X, @DoFFT2 (Rlib o cl) ni nj sf x = Ok X /\ @DoInverseFFT2 (Rlib o cl) ni nj sf X = Ok x.
Proof. exact round2. Qed.
Print Assumptions C43_round_trip_2d.
Theorem C43_round_trip_3d : forall (o : Z -> outcome Z) (cl : Z -> Z -> Z) ni nj nk sf (x : list R),
  (0 < ni)%nat -> (0 < nj)%nat -> (0 < nk)%nat -> length x = (ni * nj * nk)%nat ->
  exists X, @DoFFT3 (Rlib o cl) ni nj nk sf x = Ok X /\ @DoInverseFFT3 (Rlib o cl) ni nj nk sf X = Ok x.
Proof. exact round3. Qed.
Print Assumptions C43_round_trip_3d.
Theorem C43_energy_1d : forall (o : Z -> outcome Z) (cl : Z -> Z -> Z) (x : list R) X,
  @ComputeFFT1D (Rlib o cl) x true 0 = Ok X -> rsum (length X) (fun k => norm2 (nth k X (0, 0))) = sumsq x.
Proof. exact energy1. Qed.
Print Assumptions C43_energy_1d.
(** in 2D and 3D only half of the spectrum is stored; [columns]: how often a stored column occurs in all of it *)
Theorem C43_energy_2d : forall (o : Z -> outcome Z) (cl : Z -> Z -> Z) ni nj (x : list R) X,
  (0 < ni)%nat -> (0 < nj)%nat -> length x = (ni * nj)%nat -> @DoFFT2 (Rlib o cl) ni nj true x = Ok X ->
  rsum nj (fun r => rsum (ni / 2 + 1) (fun k => columns ni k * norm2 (nth (r * (ni / 2 + 1) + k) X (0, 0)))) = sumsq x.
Proof. exact energy2. Qed.
Print Assumptions C43_energy_2d.
Theorem C43_energy_3d : forall (o : Z -> outcome Z) (cl : Z -> Z -> Z) ni nj nk (x : list R) X,
  (0 < ni)%nat -> (0 < nj)%nat -> (0 < nk)%nat -> length x = (ni * nj * nk)%nat -> @DoFFT3 (Rlib o cl) ni nj nk true x = Ok X ->
  rsum (nk * nj) (fun r => rsum (ni / 2 + 1) (fun k => columns ni k * norm2 (nth (r * (ni / 2 + 1) + k) X (0, 0)))) = sumsq x.
Proof. exact energy3. Qed.
Print Assumptions C43_energy_3d.
Example C43_example : forall (o : Z -> outcome Z) (cl : Z -> Z -> Z), exists X, @ComputeFFT1D (Rlib o cl) [1; 2; 3] true 0 = Ok X.
Proof. exact fft1_example. Qed.
