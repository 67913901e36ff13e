(** Properties of variograms and of the covariance tables made from them. *)
From Coq Require Import ZArith Bool Lia Reals Lra String Ascii List.
From Flocq Require Import IEEE754.BinarySingleNaN.
From Verif Require Import Base Arith RealArith FloatArith M_Variogram M_CovGrid S_CovGrid S_Vario P_Vario P_VarioNames P_VarioMore P_VarioKernel P_VarioTables P_VarioF.
Import ListNotations.
Open Scope R_scope.

(** ** C32: the table is symmetric *)
(** 1D, in every arithmetic with a commutative product; both arithmetics used here are such *)
Theorem C32_symmetric_1d : forall (A : Arith), (forall a b : num A, mul A a b = mul A b a) ->
  forall (v : variogram A) nx dx s t i z, FFTCovGrid1D v nx dx s = Ok t -> (0 < i < nx)%nat -> nth (nx - i) t z = nth i t z.
Proof. exact table1_mirror. Qed.
Print Assumptions C32_symmetric_1d.
Theorem C32_products_commute : (forall a b, mul Rarith a b = mul Rarith b a) /\ (forall m a b, mul (Farith m) a b = mul (Farith m) b a).
Proof. exact (Logic.conj Rmult_comm (fun m => Bmult_comm)). Qed.
Print Assumptions C32_products_commute.

(** 2D and 3D: at all cells but those of a half-size row (index n/2 of an even n); at all cells for a variogram along the axes.
    Missing from the full claim: see the refutation. *)
Theorem C32_symmetric_2d_partial : forall (v : variogram Rarith) nx dx ny dy sx sy t i j z,
  @FFTCovGrid2D Rarith v nx dx ny dy sx sy = Ok t -> (i < nx)%nat -> (j < ny)%nat ->
  (2 * i <> nx)%nat /\ (2 * j <> ny)%nat \/ txy v = 0 ->
  nth (mirror nx i + nx * mirror ny j) t z = nth (i + nx * j) t z.
Proof. exact tab2_mirror. Qed.
Print Assumptions C32_symmetric_2d_partial.
Theorem C32_symmetric_3d_partial : forall (v : variogram Rarith) nx dx ny dy nz dz sx sy sz t i j k z,
  @FFTCovGrid3D Rarith v nx dx ny dy nz dz sx sy sz = Ok t -> (i < nx)%nat -> (j < ny)%nat -> (k < nz)%nat ->
  (2 * i <> nx)%nat /\ (2 * j <> ny)%nat /\ (2 * k <> nz)%nat \/ txy v = 0 /\ txz v = 0 /\ tyz v = 0 ->
  nth (mirror nx i + nx * mirror ny j + nx * ny * mirror nz k) t z = nth (i + nx * j + nx * ny * k) t z.
Proof. exact tab3_mirror. Qed.
Print Assumptions C32_symmetric_3d_partial.
Theorem C32_no_rotation_partial : forall s main perp depth pw v, @CreateVariogram Rarith s main perp depth 0 0 pw = Ok v ->
  txy v = 0 /\ txz v = 0 /\ tyz v = 0.
Proof. exact straight_terms. Qed.
Print Assumptions C32_no_rotation_partial.
(** azimuth 45 degrees, ranges 2 and 1, a 4 by 4 grid: the entries at lags (-2,1) and (2,-1) differ *)
Theorem C32_half_row_refuted : exists v t, @CreateVariogram Rarith "exponential" 2 1 1 45 0 1 = Ok v /\
  @FFTCovGrid2D Rarith v 4 1 4 1 1 1 = Ok t /\ nth (2 + 4 * 1) t 0 <> nth (2 + 4 * mirror 4 1) t 0.
Proof. exact half_row. Qed.
Print Assumptions C32_half_row_refuted.

(** ** C34: type names *)
Theorem C34_documented_names : forall (A : Arith) s n t main perp depth azi dp (power : num A),
  In (n, t) documented -> lower s = n -> is_ascii s ->
  exists v, CreateVariogram s main perp depth azi dp power = Ok v /\ vt v = t.
Proof. exact @names_documented. Qed.
Print Assumptions C34_documented_names.
Theorem C34_case_insensitive : forall (A : Arith) s s' main perp depth azi dp (power : num A),
  is_ascii s -> is_ascii s' -> lower s = lower s' ->
  CreateVariogram s main perp depth azi dp power = CreateVariogram s' main perp depth azi dp power.
Proof. exact @names_case. Qed.
Print Assumptions C34_case_insensitive.
Theorem C34_other_names : forall (A : Arith) s main perp depth azi dp (power : num A),
  is_ascii s -> (forall n t, In (n, t) documented -> lower s <> n) ->
  exists v, CreateVariogram s main perp depth azi dp power = Ok v /\ vt v = SPHERICAL.
Proof. exact @names_others. Qed.
Print Assumptions C34_other_names.
(** what the types compute: corr is the documented function of the normalised distance *)
Theorem C34_functions : forall s main perp depth azi dp power v, @CreateVariogram Rarith s main perp depth azi dp power = Ok v ->
  0 < main -> perp <> 0 -> depth <> 0 -> 0 < power ->
  vt v <> N_TYPES /\
  forall x y z, @GetCorr3 Rarith v x y z
    = corr_fun (vt v) power (ndist main (or_main main perp) (or_main main depth) (radians azi) (radians dp) (x, y, z)).
Proof. exact created_corr. Qed.
Print Assumptions C34_functions.
(** the eight functions are different for every power other than 1 and 2 (the default is 1.5), for which the general exponential is
    the exponential and the gaussian *)
Theorem C34_different : forall t t' p, t <> N_TYPES -> t' <> N_TYPES -> p <> 1 -> p <> 2 -> t <> t' ->
  exists d, 0 <= d /\ corr_fun t p d <> corr_fun t' p d.
Proof. exact functions_differ. Qed.
Print Assumptions C34_different.
Theorem C34_general_exponential : forall d, 0 <= d ->
  corr_fun GENERAL_EXPONENTIAL 1 d = corr_fun EXPONENTIAL 1 d /\ corr_fun GENERAL_EXPONENTIAL 2 d = corr_fun GAUSSIAN 2 d.
Proof. exact (fun d H => Logic.conj (genexp_is_exp d H) (genexp_is_gauss d H)). Qed.
Print Assumptions C34_general_exponential.
(** "every other name": names with a character outside ASCII are undefined behaviour instead *)
Theorem C34_non_ascii : forall (A : Arith) s main perp depth azi dp (power : num A), ~ is_ascii s ->
  CreateVariogram s main perp depth azi dp power = UB BadChar.
Proof. exact @names_bad. Qed.
Print Assumptions C34_non_ascii.
Theorem C34_every_other_name_refuted : exists s, forall (A : Arith) main perp depth azi dp (power : num A),
  CreateVariogram s main perp depth azi dp power = UB BadChar.
Proof. exists (String (ascii_of_nat 195) (String (ascii_of_nat 169) "")). reflexivity. Qed.
Print Assumptions C34_every_other_name_refuted.
Example C34_examples :
  lower "Matern32" = "matern32"%string /\ is_ascii "Matern32" /\ In ("matern32"%string, MATERN32) documented /\
  (forall n t, In (n, t) documented -> lower "nugget" <> n) /\ ~ is_ascii (String (ascii_of_nat 195) (String (ascii_of_nat 169) "")).
Proof.
  split; [reflexivity|]. split; [cbn [is_ascii]; repeat split; apply Nat.ltb_lt; reflexivity|]. split; [cbn; tauto|]. split.
  - cbn [documented In]. intros n t H. repeat destruct H as [H|H]; try contradiction; injection H as <- <-; discriminate.
  - cbn [is_ascii]. intros [H _]. apply Nat.ltb_lt in H. discriminate.
Qed.

(** ** C35: default ranges *)
Theorem C35_negative_ranges : forall (A : Arith) s main perp depth azi dp (power : num A), flt A main (lit A 0 0) = false ->
  (flt A perp (lit A 0 0) = true -> CreateVariogram s main perp depth azi dp power = CreateVariogram s main main depth azi dp power) /\
  (flt A depth (lit A 0 0) = true -> CreateVariogram s main perp depth azi dp power = CreateVariogram s main perp main azi dp power).
Proof. exact (fun A s main perp depth a d p H => Logic.conj (fun H' => default_perp s main perp depth a d p H' H) (fun H' => default_depth s main perp depth a d p H' H)). Qed.
Print Assumptions C35_negative_ranges.
(** zero is documented to mean the main range too. In doubles corr at lag 0 of a spherical variogram with ranges 1, 0, 1 is 0
    instead of 1 (sin 0 = 0 and cos 0 = 1 is all that is asked of libm). *)
Theorem C35_zero_range_refuted : forall m, lm_sin m (Flit 0 0) = Flit 0 0 -> lm_cos m (Flit 0 0) = Flit 1 0 ->
  exists v v1,
  @CreateVariogram (Farith m) "spherical" (Flit 1 0) (Flit 0 0) (Flit 1 0) (Flit 0 0) (Flit 0 0) (Flit 15 1) = Ok v /\
  @CreateVariogram (Farith m) "spherical" (Flit 1 0) (Flit 1 0) (Flit 1 0) (Flit 0 0) (Flit 0 0) (Flit 15 1) = Ok v1 /\
  @GetCorr1 (Farith m) v (Flit 0 0) = Flit 0 0 /\ @GetCorr1 (Farith m) v1 (Flit 0 0) = Flit 1 0.
Proof. exact zero_range. Qed.
Print Assumptions C35_zero_range_refuted.
Example C35_example : exists m, lm_sin m (Flit 0 0) = Flit 0 0 /\ lm_cos m (Flit 0 0) = Flit 1 0.
Proof. exists (mkLibm (fun x => x) (fun x => x) (fun x => x) (fun _ => Flit 1 0) (fun x _ => x)). split; reflexivity. Qed.

(** ** C36: correlations *)
Theorem C36_correlation : forall s main perp depth azi dp power v, @CreateVariogram Rarith s main perp depth azi dp power = Ok v ->
  0 < main -> perp <> 0 -> depth <> 0 -> 0 < power ->
  @GetCorr3 Rarith v 0 0 0 = 1 /\
  (forall x y z, 0 <= @GetCorr3 Rarith v x y z <= 1) /\
  (forall x y z, @GetCorr3 Rarith v (- x) (- y) (- z) = @GetCorr3 Rarith v x y z) /\
  (forall k x y z, 1 <= k -> @GetCorr3 Rarith v (k * x) (k * y) (k * z) <= @GetCorr3 Rarith v x y z).
Proof. exact c36_3d. Qed.
Print Assumptions C36_correlation.

(** ** C37: dimensions agree (and with C36, the same holds of corr in 1D and 2D) *)
Theorem C37_dimensions : forall (v : variogram Rarith) x y,
  @GetCorr1 Rarith v x = @GetCorr2 Rarith v x 0 /\ @GetCorr2 Rarith v x y = @GetCorr3 Rarith v x y 0.
Proof. exact (fun v x y => Logic.conj (corr1_2 v x) (corr2_3 v x y)). Qed.
Print Assumptions C37_dimensions.
(** in double precision too, bit for bit, when the anisotropy factors are finite and the sums are not -0 *)
Theorem C37_double_1d : forall m (v : variogram (Farith m)) x,
  mul (Farith m) (mul (Farith m) (txx v) x) x <> B754_zero true ->
  is_finite (tyy v) = true -> is_finite (mul (Farith m) (txy v) x) = true ->
  @GetCorr2 (Farith m) v x (B754_zero false) = @GetCorr1 (Farith m) v x.
Proof. exact (fun m v x H1 H2 H3 => f_equal (Corr1D v) (dist21 m v x H1 H2 H3)). Qed.
Print Assumptions C37_double_1d.
Theorem C37_double_2d : forall m (v : variogram (Farith m)) x y,
  let p := mul (Farith m) in let s := add (Farith m) in
  s (p (p (txx v) x) x) (p (p (tyy v) y) y) <> B754_zero true ->
  s (s (p (p (txx v) x) x) (p (p (tyy v) y) y)) (p (p (txy v) x) y) <> B754_zero true ->
  is_finite (tzz v) = true -> is_finite (p (txz v) x) = true -> is_finite (p (tyz v) y) = true ->
  @GetCorr3 (Farith m) v x y (B754_zero false) = @GetCorr2 (Farith m) v x y.
Proof. exact (fun m v x y H0 H1 H2 H3 H4 => f_equal (Corr1D v) (dist32 m v x y H0 H1 H2 H3 H4)). Qed.
Print Assumptions C37_double_2d.

(** ** C38: azimuth and dip *)
(** along the three axes of the variogram *)
Theorem C38_axes : forall s main perp depth azi dp power v, @CreateVariogram Rarith s main perp depth azi dp power = Ok v ->
  0 < main -> perp <> 0 -> depth <> 0 -> 0 < power ->
  (forall r h, h = scale r (main_axis (radians azi) (radians dp)) ->
     @GetCorr3 Rarith v (fst (fst h)) (snd (fst h)) (snd h) = corr_fun (vt v) power (Rabs r / main)) /\
  (forall r h, h = scale r (perp_axis (radians azi)) ->
     @GetCorr3 Rarith v (fst (fst h)) (snd (fst h)) (snd h) = corr_fun (vt v) power (Rabs r / or_main main perp)) /\
  (forall r h, h = scale r (third_axis (radians azi) (radians dp)) ->
     @GetCorr3 Rarith v (fst (fst h)) (snd (fst h)) (snd h) = corr_fun (vt v) power (Rabs r / or_main main depth)).
Proof. exact created_axes. Qed.
Print Assumptions C38_axes.
(** the normalised distance is a norm *)
Theorem C38_norm : forall main perp depth a d, main <> 0 -> perp <> 0 -> depth <> 0 ->
  let n := ndist main perp depth a d in
  (forall h, 0 <= n h) /\ (forall h, n h = 0 -> h = (0, 0, 0)) /\ (forall k h, n (scale k h) = Rabs k * n h) /\
  (forall g h, n (plus3 g h) <= n g + n h).
Proof.
  exact (fun rx ry rz a d Hx Hy Hz => Logic.conj (ndist_nonneg rx ry rz a d) (Logic.conj (fun h => ndist_zero rx ry rz a d h Hx Hy Hz)
    (Logic.conj (fun k h => ndist_scale rx ry rz a d k h Hx Hy Hz) (fun g h => ndist_triangle rx ry rz a d g h Hx Hy Hz)))).
Qed.
Print Assumptions C38_norm.
(** half a turn changes nothing in 2D, and in 3D without dip (angles are converted with a decimal constant close to pi/180, so half
    a turn is stated in radians) *)
Theorem C38_half_turn_partial : forall s main perp depth azi azi' dp power v v', radians azi' = radians azi + PI ->
  @CreateVariogram Rarith s main perp depth azi dp power = Ok v -> @CreateVariogram Rarith s main perp depth azi' dp power = Ok v' ->
  (forall x y, @GetCorr2 Rarith v' x y = @GetCorr2 Rarith v x y) /\
  (dp = 0 -> forall x y z, @GetCorr3 Rarith v' x y z = @GetCorr3 Rarith v x y z).
Proof. exact created_half_turn. Qed.
Print Assumptions C38_half_turn_partial.
(** with dip it does change the correlation *)
Theorem C38_half_turn_refuted : exists v v' x z,
  @CreateVariogram Rarith "exponential" 2 1 1 0 45 1 = Ok v /\ @CreateVariogram Rarith "exponential" 2 1 1 180 45 1 = Ok v' /\
  @GetCorr3 Rarith v' x 0 z < @GetCorr3 Rarith v x 0 z.
Proof. exact half_turn_dip. Qed.
Print Assumptions C38_half_turn_refuted.

(** ** C39: five percent at one range *)
Theorem C39_five_percent : forall s main perp depth azi dp power v, @CreateVariogram Rarith s main perp depth azi dp power = Ok v ->
  0 < main -> perp <> 0 -> depth <> 0 -> 0 < power ->
  forall x y z, ndist main (or_main main perp) (or_main main depth) (radians azi) (radians dp) (x, y, z) = 1 ->
  (vt v = SPHERICAL -> @GetCorr3 Rarith v x y z = 0) /\ (vt v = CONSTANT -> @GetCorr3 Rarith v x y z = 1) /\
  (vt v <> SPHERICAL -> vt v <> CONSTANT -> Rabs (@GetCorr3 Rarith v x y z - 5 / 100) < 1 / 1000).
Proof. exact created_one_range. Qed.
Print Assumptions C39_five_percent.
Example C39_example : ndist 1000 100 10 (PI / 3) (PI / 6)
  (1000 * (cos (PI / 6) * cos (PI / 3)), 1000 * (cos (PI / 6) * sin (PI / 3)), 1000 * sin (PI / 6)) = 1.
Proof. change (ndist 1000 100 10 (PI / 3) (PI / 6) (scale 1000 (main_axis (PI / 3) (PI / 6))) = 1). rewrite ndist_main by lra. rewrite Rabs_right; lra. Qed.

(** ** C40: in double precision, whatever libm computes *)
Theorem C40_bitwise_symmetric : forall m (v : variogram (Farith m)) x y z,
  let opp := neg (Farith m) in
  @GetCorr3 (Farith m) v (opp x) (opp y) (opp z) = @GetCorr3 (Farith m) v x y z /\
  @GetCorr2 (Farith m) v (opp x) (opp y) = @GetCorr2 (Farith m) v x y /\
  @GetCorr1 (Farith m) v (opp x) = @GetCorr1 (Farith m) v x.
Proof. exact (fun m v x y z => Logic.conj (f_equal (Corr1D v) (dist3_sym m v x y z)) (Logic.conj (f_equal (Corr1D v) (dist2_sym m v x y)) (f_equal (Corr1D v) (dist1_sym m v x)))). Qed.
Print Assumptions C40_bitwise_symmetric.

(** ** C41: the smoothing kernel *)
(** never increases a covariance and leaves lag zero unchanged. Parameter 1 means no smoothing. *)
Theorem C41_never_increases : forall s main perp depth azi dp power v, @CreateVariogram Rarith s main perp depth azi dp power = Ok v ->
  0 < main -> perp <> 0 -> depth <> 0 -> 0 < power ->
  forall nx dx ny dy nz dz sx sy sz, 0 < sx -> 0 < sy -> 0 < sz ->
  (forall t t1 i z, @FFTCovGrid1D Rarith v nx dx sx = Ok t -> @FFTCovGrid1D Rarith v nx dx 1 = Ok t1 -> (i < nx)%nat ->
     0 <= nth i t z <= nth i t1 z /\ (i = 0%nat -> nth i t z = nth i t1 z)) /\
  (forall t t1 i j z, @FFTCovGrid2D Rarith v nx dx ny dy sx sy = Ok t -> @FFTCovGrid2D Rarith v nx dx ny dy 1 1 = Ok t1 ->
     (i < nx)%nat -> (j < ny)%nat ->
     0 <= nth (i + nx * j) t z <= nth (i + nx * j) t1 z /\ (i = 0%nat -> j = 0%nat -> nth (i + nx * j) t z = nth (i + nx * j) t1 z)) /\
  (forall t t1 i j k z, @FFTCovGrid3D Rarith v nx dx ny dy nz dz sx sy sz = Ok t -> @FFTCovGrid3D Rarith v nx dx ny dy nz dz 1 1 1 = Ok t1 ->
     (i < nx)%nat -> (j < ny)%nat -> (k < nz)%nat ->
     0 <= nth (i + nx * j + nx * ny * k) t z <= nth (i + nx * j + nx * ny * k) t1 z /\
     (i = 0%nat -> j = 0%nat -> k = 0%nat -> nth (i + nx * j + nx * ny * k) t z = nth (i + nx * j + nx * ny * k) t1 z)).
Proof. exact smoothing_le. Qed.
Print Assumptions C41_never_increases.
(** the 1D table stays symmetric: C32_symmetric_1d, for every parameter *)
(** at one range along x the covariance is multiplied by exactly the parameter, for variograms along the axes *)
Theorem C41_one_range_x_partial : forall s main perp depth power v, @CreateVariogram Rarith s main perp depth 0 0 power = Ok v ->
  0 < main -> perp <> 0 -> depth <> 0 -> perp <= 1000 * main -> depth <= 1000 * main ->
  forall sp, 0 < sp < 99999 / 100000 -> forall sy sz nx dx ny dy nz dz i z, (i < nx)%nat -> (0 < ny)%nat -> (0 < nz)%nat ->
  (forall t t1, @FFTCovGrid1D Rarith v nx dx sp = Ok t -> @FFTCovGrid1D Rarith v nx dx 1 = Ok t1 ->
     @lag1 Rarith nx i dx = main -> nth i t z = sp * nth i t1 z) /\
  (forall t t1, @FFTCovGrid2D Rarith v nx dx ny dy sp sy = Ok t -> @FFTCovGrid2D Rarith v nx dx ny dy 1 1 = Ok t1 ->
     Rabs (@lag Rarith nx i dx) = main -> nth i t z = sp * nth i t1 z) /\
  (forall t t1, @FFTCovGrid3D Rarith v nx dx ny dy nz dz sp sy sz = Ok t -> @FFTCovGrid3D Rarith v nx dx ny dy nz dz 1 1 1 = Ok t1 ->
     Rabs (@lag Rarith nx i dx) = main -> nth i t z = sp * nth i t1 z).
Proof. exact smoothing_one_range. Qed.
Print Assumptions C41_one_range_x_partial.
Example C41_example : @lag1 Rarith 100 20 50 = 1000 /\ Rabs (@lag Rarith 100 80 50) = 1000.
Proof. unfold lag1, lag, wrapped. cbn -[IZR]. cbn. split; [lra|]. rewrite Rabs_left; lra. Qed.
(** along y the factor is off by less than a power of 1.000001 (pi/2 is rounded to 1.57 in the code) *)
Theorem C41_one_range_y_partial : forall s main perp depth power v, @CreateVariogram Rarith s main perp depth 0 0 power = Ok v ->
  0 < main -> perp <> 0 -> depth <> 0 -> perp <= 1000 * main -> depth <= 1000 * main ->
  forall sp sx nx dx ny dy t t1 j z, 0 < sp < 99999 / 100000 -> (0 < nx)%nat ->
  @FFTCovGrid2D Rarith v nx dx ny dy sx sp = Ok t -> @FFTCovGrid2D Rarith v nx dx ny dy 1 1 = Ok t1 -> (j < ny)%nat ->
  Rabs (@lag Rarith ny j dy) = or_main main perp ->
  exists f, nth (nx * j) t z = f * nth (nx * j) t1 z /\ Rpower sp (1000001 / 1000000) < f < sp.
Proof. exact one_range_y. Qed.
Print Assumptions C41_one_range_y_partial.
(** and never the parameter itself: an isotropic exponential variogram of range 2, parameter 1/2, lag 2 along y *)
Theorem C41_one_range_y_refuted : exists v t t1, @CreateVariogram Rarith "exponential" 2 2 2 0 0 1 = Ok v /\
  @FFTCovGrid2D Rarith v 5 2 5 2 1 (1 / 2) = Ok t /\ @FFTCovGrid2D Rarith v 5 2 5 2 1 1 = Ok t1 /\
  @lag Rarith 5 1 2 = 2 /\ nth 5 t 0 < 1 / 2 * nth 5 t1 0.
Proof. exact one_range_y_case. Qed.
Print Assumptions C41_one_range_y_refuted.

(** ** C42: setters *)
Theorem C42_like_fresh : forall (A : Arith) (os : list (setter A)) t p rx ry rz azi dp std,
  let v := fold_left object os (new_variogram t p rx ry rz azi dp std) in
  exists std', v = new_variogram (vt v) (vpower v) (range_x v) (range_y v) (range_z v) (azimuth v) (dip v) std'.
Proof. exact (fun A os t p rx ry rz a d s => fresh_history os _ (fresh_new t p rx ry rz a d s)). Qed.
Print Assumptions C42_like_fresh.
(** every successful setter sets what it names and nothing else *)
Theorem C42_effect : forall (A : Arith) (v : variogram A) o v', set1 v o = Ok v' ->
  vt v' = vt v /\ vpower v' = vpower v /\
  let params w := (range_x w, range_y w, range_z w, azimuth w, dip w, var w) in
  match o with
  | OAngles a d => params v' = (range_x v, range_y v, range_z v, a, d, var v)
  | ORotate a d => params v' = (range_x v, range_y v, range_z v, add A (azimuth v) a, add A (dip v) d, var v)
  | OStd s => params v' = (range_x v, range_y v, range_z v, azimuth v, dip v, mul A s s)
  | ORanges x y z => params v' = (x, y, z, azimuth v, dip v, var v)
  | OX r => params v' = (r, range_y v, range_z v, azimuth v, dip v, var v)
  | OY r => params v' = (range_x v, r, range_z v, azimuth v, dip v, var v)
  | OZ r => params v' = (range_x v, range_y v, r, azimuth v, dip v, var v)
  | OLimX l => params v' = ((if flt A l (range_x v) then l else range_x v), range_y v, range_z v, azimuth v, dip v, var v)
  | OLimY l => params v' = (range_x v, (if flt A l (range_y v) then l else range_y v), range_z v, azimuth v, dip v, var v)
  | OLimZ l => params v' = (range_x v, range_y v, (if flt A l (range_z v) then l else range_z v), azimuth v, dip v, var v)
  end.
Proof. exact @set_effect. Qed.
Print Assumptions C42_effect.
(** a setter throws exactly when a range to be set is not positive; there is no other failure *)
Theorem C42_throws : forall (A : Arith) (v : variogram A) o,
  (set1 v o = Throw NegativeRange <->
   match o with
   | ORanges x y z => (fle A x (lit A 0 0) || fle A y (lit A 0 0) || fle A z (lit A 0 0))%bool = true
   | OX r | OY r | OZ r => fle A r (lit A 0 0) = true
   | OLimX l => flt A l (range_x v) = true /\ fle A l (lit A 0 0) = true
   | OLimY l => flt A l (range_y v) = true /\ fle A l (lit A 0 0) = true
   | OLimZ l => flt A l (range_z v) = true /\ fle A l (lit A 0 0) = true
   | _ => False
   end) /\
  (set1 v o = Throw NegativeRange \/ exists v', set1 v o = Ok v').
Proof. exact (fun A v o => Logic.conj (set_throws v o) (set_total v o)). Qed.
Print Assumptions C42_throws.
