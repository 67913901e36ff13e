(** Properties of grid sizes, padding, noise layout, array bounds and covariance tables. *)
From Coq Require Import ZArith Bool Lia Reals Lra String Permutation List.
From Flocq Require Import Core.Raux.
From Verif Require Import Base Arith RealArith M_Variogram M_Padding M_FftSize M_Grid M_CovGrid M_Fft M_Dsfmt M_Random M_Field M_Api
  S_Api S_CovGrid S_Sizes S_Room P_Base P_Grid P_Api P_Field P_Field3 P_Bounds P_FftSize P_Sim P_Sim2 P_Overrun P_Logs P_Logs2 P_Padding P_Refute P_Cov
  ExampleLib.
Import ListNotations.
Open Scope Z_scope.

(** ** C14 *)
(** 3D: nx*ny*nz consecutive normal draws [xs] of the global generator; the noise array is a permutation of them, cell (i,j,k)
    holding draw number (i*ny+j)*nz+k; the field is computed from that array. [grid_used]: the padded size (S_Sizes.v). *)
Theorem C14_noise_3d : forall (L : Lib) rec fuel t (v : variogram L) (d : dims L) (a : adv L) ns st l st',
  dim_asked d = 3%nat ->
  fst (step rec fuel t (CSize v d) st) = Ok (VSizes ns) -> length ns = dim_asked d -> asks d a ns ->
  step rec fuel t (CAdvanced v d a) st = (Ok (VArray l), st') ->
  exists zx zy zz, grid_used d a ns 0 = Ok zx /\ grid_used d a ns 1 = Ok zy /\ grid_used d a ns 2 = Ok zz /\
  let nx := Z.to_nat zx in let ny := Z.to_nat zy in let nz := Z.to_nat zz in
  exists xs noise,
    draws (Unif01 rec) fuel (nx * ny * nz) (gen (ensure_init rec t st)) = Ok (xs, gen st') /\
    length xs = (nx * ny * nz)%nat /\ length noise = (nx * ny * nz)%nat /\ Permutation noise xs /\
    (forall i j k z, (i < nx)%nat -> (j < ny)%nat -> (k < nz)%nat ->
       nth (i + j * nx + k * nx * ny)%nat noise z = nth ((i * ny + j) * nz + k)%nat xs z) /\
    field3d v (Z.to_nat (d_nx d)) (Z.to_nat (opt (d_ny d) 1)) (Z.to_nat (opt (d_nz d) 1)) nx ny nz
      (d_dx d) (opt (d_dy d) (lit L (-1) 0)) (opt (d_dz d) (lit L (-1) 0))
      (opt (a_sx a) (lit L 1 0)) (opt (a_sy a) (lit L 1 0)) (opt (a_sz a) (lit L 1 0)) noise = Ok l.
Proof. exact @c14_3d. Qed.
Print Assumptions C14_noise_3d.

(** 2D: nx*ny consecutive draws of a generator seeded with one draw of the global one. *)
Theorem C14_noise_2d : forall (L : Lib) rec fuel t (v : variogram L) (d : dims L) (a : adv L) ns st l st',
  dim_asked d = 2%nat ->
  fst (step rec fuel t (CSize v d) st) = Ok (VSizes ns) -> length ns = dim_asked d -> asks d a ns ->
  step rec fuel t (CAdvanced v d a) st = (Ok (VArray l), st') ->
  let g := gen (ensure_init rec t st) in
  gen st' = snd (genrand_uint32 rec g) /\
  exists zx zy, grid_used d a ns 0 = Ok zx /\ grid_used d a ns 1 = Ok zy /\
  let nx := Z.to_nat zx in let ny := Z.to_nat zy in
  exists xs noise end_,
    draws (Unif01 rec) fuel (nx * ny) (init_gen_rand (fst (genrand_uint32 rec g))) = Ok (xs, end_) /\
    length xs = (nx * ny)%nat /\ length noise = (nx * ny)%nat /\ Permutation noise xs /\
    (forall i j z, (i < nx)%nat -> (j < ny)%nat -> nth (i + j * nx)%nat noise z = nth (i * ny + j)%nat xs z) /\
    field2d v (Z.to_nat (d_nx d)) (Z.to_nat (opt (d_ny d) 1)) nx ny
      (d_dx d) (opt (d_dy d) (lit L (-1) 0)) (opt (a_sx a) (lit L 1 0)) (opt (a_sy a) (lit L 1 0)) noise = Ok l.
Proof. exact @c14_2d. Qed.
Print Assumptions C14_noise_2d.

Theorem C14_noise_1d : forall (L : Lib) rec fuel t (v : variogram L) (d : dims L) (a : adv L) ns st l st',
  dim_asked d = 1%nat ->
  fst (step rec fuel t (CSize v d) st) = Ok (VSizes ns) -> length ns = dim_asked d -> asks d a ns ->
  step rec fuel t (CAdvanced v d a) st = (Ok (VArray l), st') ->
  let g := gen (ensure_init rec t st) in
  gen st' = snd (genrand_uint32 rec g) /\
  exists zx, grid_used d a ns 0 = Ok zx /\
  let nx := Z.to_nat zx in
  exists noise end_,
    draws (Unif01 rec) fuel nx (init_gen_rand (fst (genrand_uint32 rec g))) = Ok (noise, end_) /\
    length noise = nx /\
    field1d v (Z.to_nat (d_nx d)) nx (d_dx d) (opt (a_sx a) (lit L 1 0)) noise = Ok l.
Proof. exact @c14_1d. Qed.
Print Assumptions C14_noise_1d.

(** "Consecutive": drawing n+m numbers is drawing n and then m from where the first n ended. *)
Theorem C14_consecutive : forall (L : Lib) rec fuel n m s xs s',
  draws (Unif01 (A := L) rec) fuel (n + m) s = Ok (xs, s') ->
  exists ys s1 zs, draws (Unif01 rec) fuel n s = Ok (ys, s1) /\ draws (Unif01 rec) fuel m s1 = Ok (zs, s') /\ xs = ys ++ zs.
Proof. exact @draws_split. Qed.
Print Assumptions C14_consecutive.

(** A 3D, a 2D and a 1D call that return, with simulation_size answering in the right dimension. *)
Definition sizes_of (o : outcome (value ELib)) : list Z := match o with Ok (VSizes l) => l | _ => [] end.
Example C14_case :
  map (fun d => sizes_of (fst (step do_recursion 100 0 (CSize ex_vario d) (@after ELib do_recursion 100 []))))
      [ex_dims1; ex_dims2; ex_dims3] = [[5]; [5; 5]; [5; 5; 5]] /\
  map (fun d => (dim_asked d, grid_used d ex_nopad [5; 5; 5] 0, grid_used d ex_nopad [5; 5; 5] 1)) [ex_dims1; ex_dims2; ex_dims3] =
    [(1%nat, Ok 2, Ok 1); (2%nat, Ok 2, Ok 2); (3%nat, Ok 2, Ok 2)] /\
  asks ex_dims3 ex_nopad [5; 5; 5] /\
  map (fun c => match fst (step do_recursion 100 0 c (@after ELib do_recursion 100 [])) with Ok (VArray l) => length l | _ => 99%nat end)
      [ex_sim1; ex_sim2; ex_sim3] = [2; 4; 8]%nat.
Proof.
  split; [vm_compute; reflexivity|split; [vm_compute; reflexivity|split; [|vm_compute; reflexivity]]].
  intros i Hi. change (dim_asked ex_dims3) with 3%nat in Hi.
  destruct i as [|[|[|i]]]; [..|lia]; unfold requested; cbn; lia.
Qed.

(** ** C17 (exact arithmetic): the answer of simulation_size, direction by direction, for any variogram object. The statement in
    terms of the arguments of variogram() is C17_size_rule in Properties_Special.v. *)
Theorem C17_any_variogram : forall o cl rec fuel t (v : variogram (Rlib o cl)) (d : dims (Rlib o cl)) st ns,
  (0 < range_x v)%R -> (0 < range_y v)%R -> (0 < range_z v)%R ->
  (forall i, (i < length ns)%nat -> (0 < spacing o cl d i)%R /\ cells d i < 2 ^ 63) ->
  fst (step rec fuel t (CSize v d) st) = Ok (VSizes ns) ->
  forall i, (i < length ns)%nat ->
    size_rule (GetMinimumRangeToGridRatio v) (range_used o cl v (length ns) i) (spacing o cl d i) (cells d i) (nth i ns 0).
Proof. exact (fun o cl rec fuel t v d st ns => size_exact o cl rec fuel t v d st ns). Qed.
Print Assumptions C17_any_variogram.

(** simulation_size(variogram('exponential', 1.0), 100, 1.0) returns one number, 102 = 100 + max(1, trunc(ratio - 100)) + 1. *)
Example C17_case : fst (step do_recursion 0 0 (CSize m_vario (m_dims 100)) (@after MLib do_recursion 0 [])) = Ok (VSizes [102]).
Proof.
  destruct (g_size (fun _ => Ok 0) single_logs do_recursion 0 100 0 (@after MLib do_recursion 0 [])) as [N HN]; [lia|]. change (g_vario _ _) with m_vario in HN. change (g_dims _ _ 100) with (m_dims 100) in HN. change (Rlib _ _) with MLib in HN. rewrite HN. do 3 f_equal.
  pose proof (C17_any_variogram (fun _ => Ok 0) single_logs do_recursion 0%nat 0 m_vario (m_dims 100) (@after MLib do_recursion 0 []) [N]) as H.
  assert (E : forall x, (0 < x)%R -> (x < 100)%R -> (Ztrunc (x - 100) <= 0)%Z).
  { intros x Hx Hx'. rewrite Ztrunc_ceil by lra. apply Zceil_glb. simpl. lra. }
  destruct (H ltac:(cbn; lra) ltac:(cbn; lra) ltac:(cbn; lra)) with (i := 0%nat) as [EN _]; auto.
  - intros i Hi. destruct i; [|simpl in Hi; lia]. cbn. split; [lra|lia].
  - cbn [nth length] in EN. rewrite EN. change (cells (m_dims 100) 0) with 100.
    assert (X : (Zfloor (range_used (fun _ => Ok 0) single_logs m_vario 1 0 / spacing (fun _ => Ok 0) single_logs (m_dims 100) 0) = 1)%Z).
    { replace (range_used _ _ _ _ _ / spacing _ _ _ _)%R with 1%R by (cbn; lra). apply (Zfloor_IZR 1). }
    rewrite X. set (y := (_ - 100)%R).
    assert (Ztrunc y <= 0)%Z; [|lia]. unfold y. apply E; cbn; lra.
Qed.

(** ** C18 *)
(** Partial: it holds exactly when no counted direction (ny > 1; nz > 1) has a negative or missing spacing. *)
Theorem C18_dimension_partial : forall (L : Lib) rec fuel t (v : variogram L) (d : dims L) st ns,
  fst (step rec fuel t (CSize v d) st) = Ok (VSizes ns) -> (length ns = dim_asked d <-> no_negative_spacing d).
Proof. exact @size_agrees. Qed.
Print Assumptions C18_dimension_partial.

(** simulation_size(v, 4, 1.0, 4) (no dy) answers two numbers although simulate makes a 1D field. *)
Theorem C18_missing_spacing_refuted : exists (L : Lib) (v : variogram L) (d : dims L),
  dims_ok d /\ forall rec fuel t st, exists ns, fst (step rec fuel t (CSize v d) st) = Ok (VSizes ns) /\ length ns <> dim_asked d.
Proof.
  exists ELib, ex_vario, (@mkDims ELib 4 (lit ELib 1 0) (Some 4) None None None). split.
  - unfold dims_ok, given, size_ok. cbn. repeat split; try discriminate; try (injection H as <-); lia.
  - intros rec fuel t st. cbn [step fst].
    match goal with |- context [bind ?a ?b] => set (o := bind a b) end.
    assert (E : sizes_of o = [7; 3]) by (vm_compute; reflexivity). clearbody o.
    destruct o as [x| | |]; try discriminate. destruct x; try discriminate. cbn in E. subst. eexists. split; [reflexivity|].
    assert (D : dim_asked (@mkDims ELib 4 (lit ELib 1 0) (Some 4) None None None) = 1%nat) by (vm_compute; reflexivity).
    rewrite D. discriminate.
Qed.
Print Assumptions C18_missing_spacing_refuted.

(** ** C19 *)
(** [good_logs]: the exponents computed with floating point logarithms are the exact ones or one more (S_Sizes.v). *)
Theorem C19_best_size : forall clogf oor m even,
  x86_or_arm oor -> good_logs clogf m -> 1 <= m <= 2 ^ 52 -> (even = true -> 2 <= m) ->
  exists n, FindNewSizeWithPadding clogf oor m even = Ok n /\ best_size even m n /\ n < 2 * m.
Proof. exact size_best. Qed.
Print Assumptions C19_best_size.

(** The padded grid of a simulation, in every direction. *)
Theorem C19_grid_used : forall (L : Lib) (d : dims L) (a : adv L) ns i B,
  good_lib L B -> B <= 2 ^ 52 -> 1 <= requested d a ns i <= B -> (must_even d i = true -> 2 <= requested d a ns i) ->
  exists n, grid_used d a ns i = Ok n /\ best_size (must_even d i) (requested d a ns i) n /\ n < 2 * requested d a ns i.
Proof. exact @grid_best. Qed.
Print Assumptions C19_grid_used.

(** Logarithms accurate to one unit in the last place are good: single precision up to 2^18, double precision up to 2^24. *)
Theorem C19_single_precision : forall (logf : Z -> R) (quot : R -> R -> R) m, 1 <= m <= 2 ^ 18 ->
  (forall k, 1 <= k <= 2 ^ 18 -> near (/ 2 ^ 23) (logf k) (ln (IZR k))) ->
  (forall x y, near (/ 2 ^ 52) (quot x y) (x / y)) ->
  good_logs (fun p k => Zceil (quot (logf k) (logf p))) m.
Proof. exact accurate_logs_good. Qed.
Print Assumptions C19_single_precision.
Theorem C19_double_precision : forall (logf : Z -> R) (quot : R -> R -> R) m, 1 <= m <= 2 ^ 24 ->
  (forall k, 1 <= k <= 2 ^ 24 -> near (/ 2 ^ 50) (logf k) (ln (IZR k))) ->
  (forall x y, near (/ 2 ^ 52) (quot x y) (x / y)) ->
  good_logs (fun p k => Zceil (quot (logf k) (logf p))) m.
Proof. exact accurate_logs_good_double. Qed.
Print Assumptions C19_double_precision.

Example C19_case : good_lib (Rlib (fun _ => Ok 0) clog) (2 ^ 52) /\
  FindNewSizeWithPadding clog (fun _ => Ok 0) 211 true = Ok 216 /\ FindNewSizeWithPadding clog (fun _ => Ok 0) 211 false = Ok 216 /\
  FindNewSizeWithPadding clog (fun _ => Ok 0) 219 true = Ok 224 /\ FindNewSizeWithPadding clog (fun _ => Ok 0) 219 false = Ok 224 /\
  FindNewSizeWithPadding clog (fun _ => Ok 0) 27 true = Ok 28 /\ FindNewSizeWithPadding clog (fun _ => Ok 0) 27 false = Ok 27 /\
  near (/ 2 ^ 50) (ln (IZR 5)) (ln (IZR 5)).
Proof.
  split; [|do 6 (split; [vm_compute; reflexivity|])].
  - split; [intros x _; cbn; auto|]. intros m Hm. apply exact_logs_good. lia.
  - unfold near. replace (ln (IZR 5) - ln (IZR 5))%R with 0%R by lra. rewrite Rabs_R0. apply Rmult_le_pos; [|apply Rabs_pos].
    left. apply Rinv_0_lt_compat. apply pow_lt. lra.
Qed.

(** The full statement fails: an even size is wanted for a request of 1, and the answer is 1; *)
Theorem C19_one_cell_refuted : exists m, 1 <= m /\ good_logs clog m /\
  forall oor, exists n, FindNewSizeWithPadding clog oor m true = Ok n /\ ~ best_size true m n.
Proof.
  exists 1. split; [lia|split; [apply exact_logs_good; lia|]]. intros oor. exists 1. split; [reflexivity|].
  intros [(_ & _ & H) _]. destruct (H eq_refl) as [h Hh]. lia.
Qed.
Print Assumptions C19_one_cell_refuted.
(** the conversion of the size to float loses the last bit from 2^24 on, even when logarithms are exact; *)
Theorem C19_float_size_refuted : exists m, 1 <= m <= 2 ^ 25 /\
  forall oor even, x86_or_arm oor -> exists n, FindNewSizeWithPadding (fun p m => clog p (f32 m)) oor m even = Ok n /\ n < m.
Proof.
  exists 16777217. split; [lia|]. intros oor even Ho. exists (2 ^ 24). split; [|lia].
  apply size_stuck; auto; try lia.
Qed.
Print Assumptions C19_float_size_refuted.
(** and where log(float) is computed in single precision, correctly rounded, the answer is too small for 4194305. *)
Theorem C19_single_precision_refuted : exists m, 1 <= m <= 2 ^ 23 /\
  forall oor even, x86_or_arm oor -> exists n, FindNewSizeWithPadding single_logs oor m even = Ok n /\ n < m.
Proof.
  exists 4194305. split; [lia|]. intros oor even Ho. exists (2 ^ 22). split; [|lia].
  apply size_stuck; auto; try lia. exact single_4194305.
Qed.
Print Assumptions C19_single_precision_refuted.

(** ** C20 *)
(** Partial: if simulation_size answers in the right dimension and each direction's request (cells + padding) is at least its
    number of cells, and at least 1 and at most B, where the platform's logarithms are good up to B, then the simulation
    runs through without undefined behaviour or exception (NoFuel: a rejection loop of the normal sampler runs too long). *)
Theorem C20_in_bounds_partial : forall (L : Lib), fft_sizes L ->
  forall rec fuel t (v : variogram L) (d : dims L) (a : adv L) ns B st,
  good_lib L B -> B < 2 ^ 29 ->
  fst (step rec fuel t (CSize v d) st) = Ok (VSizes ns) -> length ns = dim_asked d -> accepted (CAdvanced v d a) -> has_room d a ns B ->
  ok_or_nofuel (fst (step rec fuel t (CAdvanced v d a) st)).
Proof. exact (fun L H rec fuel => sim_runs rec fuel H). Qed.
Print Assumptions C20_in_bounds_partial.

(** 100 cells, padding 3, exact arithmetic and logarithms *)
Example C20_case : let L := Rlib (fun _ => Ok 0) clog in
  fft_sizes L /\ good_lib L (2 ^ 28) /\
  (forall rec fuel t st, exists N, fst (step rec fuel t (CSize (g_vario _ _) (g_dims _ _ 100)) st) = Ok (@VSizes L [N])) /\
  dim_asked (g_dims (fun _ => Ok 0) clog 100) = 1%nat /\
  accepted (CAdvanced (g_vario (fun _ => Ok 0) clog) (g_dims _ _ 100) (g_pad _ _ 3)) /\
  forall ns, has_room (g_dims (fun _ => Ok 0) clog 100) (g_pad _ _ 3) ns (2 ^ 28).
Proof.
  cbv zeta. split; [apply Rlib_sizes|split; [|split; [|split; [reflexivity|split]]]].
  - split; [intros x _; cbn; auto|]. intros m Hm. apply exact_logs_good. lia.
  - intros. apply g_size. lia.
  - apply g_accepted; [lia|unfold int_ok; lia].
  - intros ns i Hi. change (dim_asked (g_dims (fun _ => Ok 0) clog 100)) with 1%nat in Hi. destruct i; [|lia].
    unfold requested. cbn. lia.
Qed.

(** The full statement fails. A negative spacing makes the default padding negative: simulate(spherical range 2, nx=4, dx=-1.0)
    reads past the end of the padded array. *)
Definition bad_read (o : outcome (value ELib)) : bool := match o with UB OutOfBounds => true | _ => false end.
Lemma bad_read_eq o : bad_read o = true -> o = UB OutOfBounds.
Proof. destruct o as [| |[]|]; try discriminate; auto. Qed.
Theorem C20_negative_spacing_refuted : exists (L : Lib) (v : variogram L) (d : dims L), fft_sizes L /\ dims_ok d /\
  fst (step do_recursion 100 0 (CSimulate v d) (@after L do_recursion 100 [])) = UB OutOfBounds.
Proof.
  exists ELib, ex_vario, (@mkDims ELib 4 (lit ELib (-1) 0) None None None None). split; [apply ELib_sizes|split].
  - unfold dims_ok, given, size_ok. cbn. repeat split; try discriminate; lia.
  - apply bad_read_eq. vm_compute. reflexivity.
Qed.
Print Assumptions C20_negative_spacing_refuted.
(** Sizes for which the search answers too small a number: advanced.simulate(v, 4194305, 1.0, padx=0) never returns; if the
    noise can be drawn, it reads past the end. *)
Theorem C20_large_grid_refuted : exists (L : Lib) (v : variogram L) (d : dims L) (a : adv L),
  fft_sizes L /\ accepted (CAdvanced v d a) /\
  forall rec fuel t st, let r := fst (step rec fuel t (CAdvanced v d a) st) in r = NoFuel \/ r = UB OutOfBounds.
Proof.
  exists MLib, m_vario, (m_dims 4194305), m_nopad. split; [apply Rlib_sizes|split; [|exact large_overrun]].
  apply g_accepted; [lia|unfold int_ok; lia].
Qed.
Print Assumptions C20_large_grid_refuted.

(** ** C21 *)
Theorem C21_explicit_default_padding : forall (L : Lib) rec fuel t (v : variogram L) (d : dims L) (a : adv L) ns st,
  fst (step rec fuel t (CSize v d) st) = Ok (VSizes ns) -> length ns = dim_asked d ->
  accepted (CAdvanced v d a) ->
  a_padx a = Some (nth 0 ns 0 - d_nx d) ->
  ((2 <= dim_asked d)%nat -> a_pady a = Some (nth 1 ns 0 - opt (d_ny d) 1)) ->
  ((3 <= dim_asked d)%nat -> a_padz a = Some (nth 2 ns 0 - opt (d_nz d) 1)) ->
  a_sx a = None -> a_sy a = None -> a_sz a = None ->
  step rec fuel t (CAdvanced v d a) st = step rec fuel t (CSimulate v d) st.
Proof. exact @padding_same. Qed.
Print Assumptions C21_explicit_default_padding.

(** simulation_size gives 5 and 5 for the 2x2 example, so padx = pady = 3 *)
Example C21_case : accepted (CAdvanced ex_vario ex_dims2 (@mkAdv ELib (Some 3) (Some 3) None None None None)) /\
  sizes_of (fst (step do_recursion 100 0 (CSize ex_vario ex_dims2) (@after ELib do_recursion 100 []))) = [5; 5] /\ dim_asked ex_dims2 = 2%nat.
Proof.
  split; [|split; vm_compute; reflexivity].
  unfold accepted, dims_ok, given, size_ok, int_ok. cbn. repeat split; try discriminate; try (injection H as <-); lia.
Qed.

(** ** C23 *)
(** Partial: no out-of-range conversion, whatever the platform would do on one, for requests up to 8192 (good logarithms) or
    32768 (exact ones). *)
Theorem C23_defined_partial : forall clogf oor m even,
  good_logs clogf m -> 1 <= m <= 8192 -> (even = true -> 2 <= m) ->
  exists n, FindNewSizeWithPadding clogf oor m even = Ok n /\ best_size even m n /\ n < 2 * m.
Proof. exact size_defined. Qed.
Print Assumptions C23_defined_partial.
Theorem C23_defined_exact_partial : forall oor m even, 1 <= m <= 32768 -> (even = true -> 2 <= m) ->
  exists n, FindNewSizeWithPadding clog oor m even = Ok n /\ best_size even m n /\ n < 2 * m.
Proof. exact size_defined_exact. Qed.
Print Assumptions C23_defined_exact_partial.
Example C23_case : good_logs clog 8192 /\ good_logs clog 1.
Proof. split; apply exact_logs_good; lia. Qed.
(** The full statement fails: 2^16*3^10*5^7*7^6 >= 2^64 is converted to size_t for the request 32769, and log(0)/log(2) to int for
    the request 0; both requests can be made through the API (a strict reading: undefined behaviour). *)
Definition bad_conversion (o : outcome (value ELib)) : bool := match o with UB FloatToInt => true | _ => false end.
Lemma bad_conversion_eq o : bad_conversion o = true -> o = UB FloatToInt.
Proof. destruct o as [| |[]|]; try discriminate; auto. Qed.
Theorem C23_search_refuted : exists (L : Lib) (v : variogram L), forall n, n = 0 \/ n = 32769 ->
  exists (d : dims L) (a : adv L), d_nx d = n /\ accepted (CAdvanced v d a) /\
  fst (step do_recursion 100 0 (CAdvanced v d a) (@after L do_recursion 100 [])) = UB FloatToInt.
Proof.
  exists ELib, ex_vario. intros n Hn.
  exists (@mkDims ELib n (lit ELib 1 0) None None None None), ex_nopad. split; [reflexivity|split].
  - unfold accepted, dims_ok, given, size_ok, int_ok. cbn. repeat split; try discriminate; try (injection H as <-); lia.
  - apply bad_conversion_eq. destruct Hn as [-> | ->]; vm_compute; reflexivity.
Qed.
Print Assumptions C23_search_refuted.

(** ** C31 *)
(** Every cell of the table is written, and holds the covariance at the wrapped lag times the smoothing kernel (S_CovGrid.v). *)
Theorem C31_table_1d : forall (A : Arith) (v : variogram A) nx dx sx,
  exists t, FFTCovGrid1D v nx dx sx = Ok t /\ length t = nx /\
  forall i z, (i < nx)%nat -> nth i t z = cov1_spec v nx dx sx i.
Proof. exact @c31_1d. Qed.
Print Assumptions C31_table_1d.
Theorem C31_table_2d : forall (A : Arith) (v : variogram A) nx dx ny dy sx sy,
  exists t, FFTCovGrid2D v nx dx ny dy sx sy = Ok t /\ length t = (nx * ny)%nat /\
  forall i j z, (i < nx)%nat -> (j < ny)%nat -> nth (i + nx * j)%nat t z = cov2_spec v nx dx ny dy sx sy i j.
Proof. exact @c31_2d. Qed.
Print Assumptions C31_table_2d.
Theorem C31_table_3d : forall (A : Arith) (v : variogram A) nx dx ny dy nz dz sx sy sz,
  exists t, FFTCovGrid3D v nx dx ny dy nz dz sx sy sz = Ok t /\ length t = (nx * ny * nz)%nat /\
  forall i j k z, (i < nx)%nat -> (j < ny)%nat -> (k < nz)%nat ->
    nth (i + nx * j + nx * ny * k)%nat t z = cov3_spec v nx dx ny dy nz dz sx sy sz i j k.
Proof. exact @c31_3d. Qed.
Print Assumptions C31_table_3d.
(** The origin: exact arithmetic, positive ranges, unit standard deviation (as the Python module always builds them). *)
Theorem C31_origin : forall (t : vtype) (power rx ry rz azi dp : R) v nx dx ny dy nz dz sx sy sz,
  (0 < rx)%R -> (0 < ry)%R -> (0 < rz)%R -> (t = GENERAL_EXPONENTIAL -> (0 < power)%R) ->
  @Create Rarith t power rx ry rz azi dp 1%R = Ok v -> (0 < nx)%nat -> (0 < ny)%nat -> (0 < nz)%nat ->
  cov1_spec v nx dx sx 0 = 1%R /\ cov2_spec v nx dx ny dy sx sy 0 0 = 1%R /\ cov3_spec v nx dx ny dy nz dz sx sy sz 0 0 0 = 1%R.
Proof. exact c31_origin. Qed.
Print Assumptions C31_origin.
(** an odd and an even size, wrapped lags *)
Example C31_case : map (wrapped 5) (seq 0 5) = [0; 1; 2; -2; -1] /\ map (wrapped 4) (seq 0 4) = [0; 1; -2; -1].
Proof. split; reflexivity. Qed.
