(** C85: what rounding does to simulated fields. *)
From Coq Require Import ZArith Bool Lia Reals Lra String List.
From Flocq Require Import Core IEEE754.BinarySingleNaN.
From Verif Require Import Base Arith RealArith FloatArith M_Variogram M_CovGrid M_Dsfmt M_Random M_Field M_Api S_CovGrid S_Vario S_Random S_Normal S_Api S_CorrF S_Accur S_FieldF S_FieldH
  P_NormF P_CorrF P_CorrF7 P_FieldH P_FieldJ P_FieldK Properties_Accur.
Import ListNotations.
Open Scope R_scope.

(** ** the covariance tables *)
(** Every entry of the table of covariances that the program computes in doubles is within [dl] of the exact one ([same_call]: 2^-46
    without rotation, k^2 * 2^-39 with rotation and ranges of ratio at most k). Smoothing is off, as in simulate. *)
Theorem C85_tables_partial : forall (m : libm) (dl : R) (v : variogram (Farith m)) (w : variogram Rarith), rounds_well m -> dl <= 1 / 1000000 -> same_call m dl v w ->
  forall nx ny nz (dx dy dz : b64), (Z.of_nat nx < 2 ^ 53)%Z -> (Z.of_nat ny < 2 ^ 53)%Z -> (Z.of_nat nz < 2 ^ 53)%Z -> spacing nx dx -> spacing ny dy -> spacing nz dz ->
  near_table dl (@FFTCovGrid1D (Farith m) v nx dx (Flit 1 0)) (@FFTCovGrid1D Rarith w nx (B2R dx) 1) /\
  near_table dl (@FFTCovGrid2D (Farith m) v nx dx ny dy (Flit 1 0) (Flit 1 0)) (@FFTCovGrid2D Rarith w nx (B2R dx) ny (B2R dy) 1 1) /\
  near_table dl (@FFTCovGrid3D (Farith m) v nx dx ny dy nz dz (Flit 1 0) (Flit 1 0) (Flit 1 0)) (@FFTCovGrid3D Rarith w nx (B2R dx) ny (B2R dy) nz (B2R dz) 1 1 1).
Proof.
  intros m dl v w HM H0 HV nx ny nz dx dy dz A B C D E F. assert (H : 0 + dl <= 1 / 1000000) by (rewrite Rplus_0_l; exact H0). split; [|split]; [exact (tab1 m 0 dl HM H v w HV nx dx A D)|exact (tab2 m 0 dl HM H v w HV nx dx ny dy A B D E)|exact (tab3 m 0 dl HM H v w HV nx dx ny dy nz dz A B C D E F)].
Qed.
Print Assumptions C85_tables_partial.

(** ** fields of given noise *)
(** Any two tables within [dl], any transforms with relative error [eps]: the field in doubles is finite, and its Euclidean distance to
    the exact field of the same noise is at most 2 * sqrt (N * (eps + dl)) times the length of the noise (and 2^-700 for underflow). *)
Theorem C85_noise_1d : forall (m : libm) (f : fftlib) o cl o' cl' (eps dl : R), accurate eps f -> fft_sizes (Flib m f o cl) -> bpow radix2 (-53) <= eps -> 0 <= dl -> eps + dl <= 1 / 1000000 ->
  forall (v : variogram (Farith m)) (w : variogram Rarith) nx n (dx sx : b64) (dx' sx' : R) (noise : list b64), (0 < n)%nat -> (nx <= n)%nat -> (Z.of_nat n < 2 ^ 53)%Z ->
  length noise = n -> all_finite noise -> len (vals noise) <= bpow radix2 100 ->
  near_table dl (@FFTCovGrid1D (Farith m) v n dx sx) (@FFTCovGrid1D Rarith w n dx' sx') ->
  near_field (2 * (sqrt (INR n * (eps + dl)) * len (vals noise)) + bpow radix2 (-700))
    (@field1d (Flib m f o cl) v nx n dx sx noise) (@field1d (Rlib o' cl') w nx n dx' sx' (vals noise)).
Proof. exact field1_near. Qed.
Print Assumptions C85_noise_1d.
Theorem C85_noise_2d : forall (m : libm) (f : fftlib) o cl o' cl' (eps dl : R), accurate eps f -> fft_sizes (Flib m f o cl) -> bpow radix2 (-53) <= eps -> 0 <= dl -> eps + dl <= 1 / 1000000 ->
  forall (v : variogram (Farith m)) (w : variogram Rarith) nx ny nxt nyt (dx dy sx sy : b64) (dx' dy' sx' sy' : R) (noise : list b64),
  (0 < nxt)%nat -> (0 < nyt)%nat -> (nx <= nxt)%nat -> (ny <= nyt)%nat -> (Z.of_nat (nxt * nyt) < 2 ^ 53)%Z ->
  length noise = (nxt * nyt)%nat -> all_finite noise -> len (vals noise) <= bpow radix2 100 ->
  near_table dl (@FFTCovGrid2D (Farith m) v nxt dx nyt dy sx sy) (@FFTCovGrid2D Rarith w nxt dx' nyt dy' sx' sy') ->
  near_field (2 * (sqrt (INR (nxt * nyt) * (eps + dl)) * len (vals noise)) + bpow radix2 (-700))
    (@field2d (Flib m f o cl) v nx ny nxt nyt dx dy sx sy noise) (@field2d (Rlib o' cl') w nx ny nxt nyt dx' dy' sx' sy' (vals noise)).
Proof. exact field2_near. Qed.
Print Assumptions C85_noise_2d.
Theorem C85_noise_3d : forall (m : libm) (f : fftlib) o cl o' cl' (eps dl : R), accurate eps f -> fft_sizes (Flib m f o cl) -> bpow radix2 (-53) <= eps -> 0 <= dl -> eps + dl <= 1 / 1000000 ->
  forall (v : variogram (Farith m)) (w : variogram Rarith) nx ny nz nxt nyt nzt (dx dy dz sx sy sz : b64) (dx' dy' dz' sx' sy' sz' : R) (noise : list b64),
  (0 < nxt)%nat -> (0 < nyt)%nat -> (0 < nzt)%nat -> (nx <= nxt)%nat -> (ny <= nyt)%nat -> (nz <= nzt)%nat -> (Z.of_nat (nxt * nyt * nzt) < 2 ^ 53)%Z ->
  length noise = (nxt * nyt * nzt)%nat -> all_finite noise -> len (vals noise) <= bpow radix2 100 ->
  near_table dl (@FFTCovGrid3D (Farith m) v nxt dx nyt dy nzt dz sx sy sz) (@FFTCovGrid3D Rarith w nxt dx' nyt dy' nzt dz' sx' sy' sz') ->
  near_field (2 * (sqrt (INR (nxt * nyt * nzt) * (eps + dl)) * len (vals noise)) + bpow radix2 (-700))
    (@field3d (Flib m f o cl) v nx ny nz nxt nyt nzt dx dy dz sx sy sz noise) (@field3d (Rlib o' cl') w nx ny nz nxt nyt nzt dx' dy' dz' sx' sy' sz' (vals noise)).
Proof. exact field3_near. Qed.
Print Assumptions C85_noise_3d.

(** ** results of advanced.simulate and simulate without smoothing *)
(** A call that returns an array returns, up to [fuzz], the exact field of the normal numbers it has drawn. The numbers come from the
    generator seeded with one draw of the global one (1D, 2D) or from the global one (3D); nowhere in its stream are there two numbers
    in a row that are exactly one half (see C12). In 2D and 3D the grid is at least as large as the field (see C19, C20). *)
Theorem C85_simulate_1d_partial : forall (m : libm) (f : fftlib) o cl o' cl' (eps dl : R), rounds_well m -> accurate eps f -> fft_sizes (Flib m f o cl) -> bpow radix2 (-53) <= eps -> eps + dl <= 1 / 1000000 ->
  forall (v : variogram (Farith m)) (w : variogram Rarith), same_call m dl v w ->
  forall rec fuel, is_build rec -> log_sane m ->
  forall t (d : dims (Flib m f o cl)) (a : adv (Flib m f o cl)) st l st', dim_asked d = 1%nat -> a_sx a = None -> cell (d_dx d) -> (0 < d_nx d)%Z ->
  step rec fuel t (CAdvanced (L := Flib m f o cl) v d a) st = (Ok (VArray l), st') ->
  let seed := fst (genrand_uint32 rec (gen (ensure_init rec t st))) in no_two_halves (Unif01 (A := Farith m) rec) (init_gen_rand seed) ->
  exists z noise end_, let n := Z.to_nat z in
    sizes1 (L := Flib m f o cl) v (d_nx d) (d_dx d) (opt (a_padx a) (-1)%Z) = Ok z /\
    draws (Unif01 (A := Farith m) rec) fuel n (init_gen_rand seed) = Ok (noise, end_) /\
    near_field (fuzz eps dl noise) (Ok l) (@field1d (Rlib o' cl') w (Z.to_nat (d_nx d)) n (B2R (d_dx d)) 1 (vals noise)).
Proof. exact api1. Qed.
Print Assumptions C85_simulate_1d_partial.
Theorem C85_simulate_2d_partial : forall (m : libm) (f : fftlib) o cl o' cl' (eps dl : R), rounds_well m -> accurate eps f -> fft_sizes (Flib m f o cl) -> bpow radix2 (-53) <= eps -> eps + dl <= 1 / 1000000 ->
  forall (v : variogram (Farith m)) (w : variogram Rarith), same_call m dl v w ->
  forall rec fuel, is_build rec -> log_sane m ->
  forall t (d : dims (Flib m f o cl)) (a : adv (Flib m f o cl)) st l st', dim_asked d = 2%nat -> a_sx a = None -> a_sy a = None ->
  cell (d_dx d) -> cell (opt (d_dy d) (lit (Flib m f o cl) (-1) 0)) -> (0 < d_nx d)%Z -> (0 < opt (d_ny d) 1)%Z ->
  step rec fuel t (CAdvanced (L := Flib m f o cl) v d a) st = (Ok (VArray l), st') ->
  let seed := fst (genrand_uint32 rec (gen (ensure_init rec t st))) in no_two_halves (Unif01 (A := Farith m) rec) (init_gen_rand seed) ->
  exists zx zy xs noise end_, let nx := Z.to_nat zx in let ny := Z.to_nat zy in
    sizes2 (L := Flib m f o cl) v (d_nx d) (d_dx d) (opt (d_ny d) 1%Z) (opt (d_dy d) (lit (Flib m f o cl) (-1) 0)) (opt (a_padx a) (-1)%Z) (opt (a_pady a) (-1)%Z) = Ok (zx, zy) /\
    draws (Unif01 (A := Farith m) rec) fuel (nx * ny) (init_gen_rand seed) = Ok (xs, end_) /\
    (forall i j c, (i < nx)%nat -> (j < ny)%nat -> nth (i + j * nx) noise c = nth (i * ny + j) xs c) /\
    ((d_nx d <= zx)%Z -> (opt (d_ny d) 1 <= zy)%Z -> (zx * zy < 2 ^ 53)%Z ->
     near_field (fuzz eps dl noise) (Ok l)
       (@field2d (Rlib o' cl') w (Z.to_nat (d_nx d)) (Z.to_nat (opt (d_ny d) 1%Z)) nx ny (B2R (d_dx d)) (B2R (opt (d_dy d) (lit (Flib m f o cl) (-1) 0))) 1 1 (vals noise))).
Proof. exact api2. Qed.
Print Assumptions C85_simulate_2d_partial.
Theorem C85_simulate_3d_partial : forall (m : libm) (f : fftlib) o cl o' cl' (eps dl : R), rounds_well m -> accurate eps f -> fft_sizes (Flib m f o cl) -> bpow radix2 (-53) <= eps -> eps + dl <= 1 / 1000000 ->
  forall (v : variogram (Farith m)) (w : variogram Rarith), same_call m dl v w ->
  forall rec fuel, is_build rec -> log_sane m ->
  forall t (d : dims (Flib m f o cl)) (a : adv (Flib m f o cl)) st l st', dim_asked d = 3%nat -> a_sx a = None -> a_sy a = None -> a_sz a = None ->
  cell (d_dx d) -> cell (opt (d_dy d) (lit (Flib m f o cl) (-1) 0)) -> cell (opt (d_dz d) (lit (Flib m f o cl) (-1) 0)) -> (0 < d_nx d)%Z -> (0 < opt (d_ny d) 1)%Z -> (0 < opt (d_nz d) 1)%Z ->
  step rec fuel t (CAdvanced (L := Flib m f o cl) v d a) st = (Ok (VArray l), st') ->
  let g := gen (ensure_init rec t st) in reachable rec g -> no_two_halves (Unif01 (A := Farith m) rec) g ->
  exists zx zy zz xs noise, let nx := Z.to_nat zx in let ny := Z.to_nat zy in let nz := Z.to_nat zz in
    sizes3 (L := Flib m f o cl) v (d_nx d) (d_dx d) (opt (d_ny d) 1%Z) (opt (d_dy d) (lit (Flib m f o cl) (-1) 0)) (opt (d_nz d) 1%Z) (opt (d_dz d) (lit (Flib m f o cl) (-1) 0))
      (opt (a_padx a) (-1)%Z) (opt (a_pady a) (-1)%Z) (opt (a_padz a) (-1)%Z) = Ok (zx, zy, zz) /\
    draws (Unif01 (A := Farith m) rec) fuel (nx * ny * nz) g = Ok (xs, gen st') /\
    (forall i j k c, (i < nx)%nat -> (j < ny)%nat -> (k < nz)%nat -> nth (i + j * nx + k * nx * ny) noise c = nth ((i * ny + j) * nz + k) xs c) /\
    ((d_nx d <= zx)%Z -> (opt (d_ny d) 1 <= zy)%Z -> (opt (d_nz d) 1 <= zz)%Z -> (zx * zy * zz < 2 ^ 53)%Z ->
     near_field (fuzz eps dl noise) (Ok l)
       (@field3d (Rlib o' cl') w (Z.to_nat (d_nx d)) (Z.to_nat (opt (d_ny d) 1%Z)) (Z.to_nat (opt (d_nz d) 1%Z)) nx ny nz
          (B2R (d_dx d)) (B2R (opt (d_dy d) (lit (Flib m f o cl) (-1) 0))) (B2R (opt (d_dz d) (lit (Flib m f o cl) (-1) 0))) 1 1 1 (vals noise))).
Proof. exact api3. Qed.
Print Assumptions C85_simulate_3d_partial.

(** ** the hypotheses can be met *)
(** The exact transforms, rounded, have relative error 2^-52. *)
Example C85_transforms : accurate (bpow radix2 (-52)) ex_fft /\ forall m o cl, fft_sizes (Flib m ex_fft o cl).
Proof. split; [exact ex_accurate|exact ex_sizes]. Qed.
(** A math library that rounds correctly, with a logarithm good enough for normal draws. *)
Example C85_library : exists m, rounds_well m /\ log_sane m.
Proof.
  destruct rounded_library as (m & F & _ & E & T & P & _).
  exists (mkLibm (lm_exp m) (fun _ => Flit (-1) 0) (lm_sin m) (lm_cos m) (lm_pow m)). split.
  - split; [|split; [exact T|split; [exact E|exact P]]]. destruct F. constructor; assumption.
  - assert (Q : exactly (Flit (-1) 0) (-1)) by exact lm1r. destruct Q as [Q1 Q2]. intros x _ _. cbn [lm_log]. split; [exact Q1|]. rewrite Q2. lra.
Qed.
(** variogram('gaussian', 250), and variogram('gaussian', 250, 10, azimuth = 45): the ratio is 25 *)
Example C85_variograms : forall m, exists v w v' w',
  same_call m (bpow radix2 (-46)) v w /\ same_call m (25 ^ 2 * bpow radix2 (-39)) v' w' /\
  bpow radix2 (-53) <= bpow radix2 (-52) /\ bpow radix2 (-52) + bpow radix2 (-46) <= 1 / 1000000 /\ bpow radix2 (-52) + 25 ^ 2 * bpow radix2 (-39) <= 1 / 1000000 /\
  cell (Flit 10 0) /\ spacing 100 (Flit 10 0).
Proof.
  intros m. destruct Accur_rotated_args as (R1 & R2 & R3 & A1 & A2 & _ & P1 & P2 & K).
  assert (CF : forall a b c d e p, exists v, @CreateVariogram (Farith m) "gaussian" a b c d e p = Ok v) by (intros; eexists; reflexivity).
  assert (CR : forall a b c d e p, exists w, @CreateVariogram Rarith "gaussian" a b c d e p = Ok w) by (intros; eexists; reflexivity).
  destruct (CF (Flit 250 0) (Flit (-1) 0) (Flit (-1) 0) (Flit 0 0) (Flit 0 0) (Flit 15 1)) as [v Hv].
  destruct (CR (B2R (Flit 250 0)) (B2R (Flit (-1) 0)) (B2R (Flit (-1) 0)) (B2R (Flit 0 0)) (B2R (Flit 0 0)) (B2R (Flit 15 1))) as [w Hw].
  destruct (CF (Flit 250 0) (Flit 10 0) (Flit (-1) 0) (Flit 45 0) (Flit 0 0) (Flit 15 1)) as [v' Hv'].
  destruct (CR (B2R (Flit 250 0)) (B2R (Flit 10 0)) (B2R (Flit (-1) 0)) (B2R (Flit 45 0)) (B2R (Flit 0 0)) (B2R (Flit 15 1))) as [w' Hw'].
  destruct l10r as [T1 T2]. assert (Q0 : bpow radix2 (-100) <= 1) by (change 1 with (bpow radix2 0); apply bpow_le; lia).
  assert (Q1 : 1024 <= bpow radix2 60) by (change 1024 with (bpow radix2 10); apply bpow_le; lia). assert (Q2 : bpow radix2 60 <= bpow radix2 100) by (apply bpow_le; lia).
  exists v, w, v', w'. split; [|split; [|split; [apply bpow_le; lia|split; [unfold bpow, radix2, Zpower_pos; simpl; lra|split; [unfold bpow, radix2, Zpower_pos; simpl; lra|split]]]]].
  - exists "gaussian"%string, (Flit 250 0), (Flit (-1) 0), (Flit (-1) 0), (Flit 0 0), (Flit 0 0), (Flit 15 1). repeat (split; [assumption|]). left. auto.
  - exists "gaussian"%string, (Flit 250 0), (Flit 10 0), (Flit (-1) 0), (Flit 45 0), (Flit 0 0), (Flit 15 1). repeat (split; [assumption|]). right. split; [exact A1|]. split; [exact A2|]. exists 25. split; [lra|]. split; [exact K|reflexivity].
  - split; [exact T1|]. rewrite T2. lra.
  - split; [exact T1|]. rewrite T2. split; [lra|]. change (INR 100) with (INR 100). replace (INR 100) with 100 by (rewrite INR_IZR_INZ; reflexivity). lra.
Qed.
