(** C98: zero, NaN and infinite lengths; C74 at huge lags; C35 with ranges of zero. Vocabulary: S_NotNum.v, S_Answer.v, S_CorrF.v. *)
From Coq Require Import ZArith Bool Lia Reals Lra List String.
From Flocq Require Import Core IEEE754.BinarySingleNaN.
From Verif Require Import Base Arith FloatArith M_Variogram M_Padding M_Dsfmt M_Random M_Field M_Api S_Api S_Vario S_FieldF S_CorrF S_SizeF S_Answer S_NotNum P_VarioNames P_NotNum P_NotNum2 P_NotNum3 P_ZeroRange.
Import ListNotations.
Open Scope R_scope.
Local Opaque new_generator genrand_uint32 init_gen_rand gen_rand_all.

(** ** C98 *)
(** variogram() takes every double, NaN, infinite and negative ones too. *)
Theorem C98_variogram_refuted : forall (m : libm) f o cl s n t (main : b64) (perp depth azi dp pw : option b64), In (n, t) documented -> lower s = n -> is_ascii s ->
  forall rec fuel now st, exists v, step rec fuel now (CVariogram (L := Flib m f o cl) s main perp depth azi dp pw) st = (Ok (VVariogram v), st).
Proof.
  intros m f o cl s n t main perp depth azi dp pw Hin Hl Ha rec fuel now st.
  destruct (names_documented (A := Flib m f o cl) s n t main (opt perp (lit (Flib m f o cl) (-1) 0)) (opt depth (lit (Flib m f o cl) (-1) 0))
    (opt azi (lit (Flib m f o cl) 0 0)) (opt dp (lit (Flib m f o cl) 0 0)) (opt pw (lit (Flib m f o cl) 15 1)) Hin Hl Ha) as (v & E & _).
  exists v. exact (f_equal (fun x => (omap (VVariogram (L := Flib m f o cl)) x, st)) E).
Qed.
Print Assumptions C98_variogram_refuted.
(** A NaN or infinite main range: no exception in simulation_size or in any simulation, but undefined behaviour. *)
Theorem C98_range_refuted : forall (m : libm) (f : fftlib) (o : Z -> outcome Z) (cl : Z -> Z -> Z), let L := Flib m f o cl in
  forall s main perp depth azi dp pw (v : variogram (Farith m)), @CreateVariogram (Farith m) s main perp depth azi dp pw = Ok v -> nan_or_infinite main -> forall (d : dims L),
  forall c, needs_padding v d c -> accepted c -> forall rec fuel now st, fst (step rec fuel now c st) = UB FloatToInt.
Proof. exact bad_range. Qed.
Print Assumptions C98_range_refuted.
(** The other ranges, when the call counts their directions: an infinite perpendicular range, a NaN one with azimuth 0, a NaN or infinite depth range. *)
Theorem C98_other_ranges_refuted : forall (m : libm) (f : fftlib) (o : Z -> outcome Z) (cl : Z -> Z -> Z), let L := Flib m f o cl in
  forall s main perp depth azi dp pw (v : variogram (Farith m)), @CreateVariogram (Farith m) s main perp depth azi dp pw = Ok v -> forall (d : dims L),
  ((2 <= dim_asked d)%nat /\ perp = B754_infinity false) \/ ((2 <= dim_asked d)%nat /\ perp = B754_nan /\ azi = Flit 0 0) \/ (dim_asked d = 3%nat /\ nan_or_infinite depth) ->
  forall c, needs_padding v d c -> accepted c -> forall rec fuel now st, exists u, fst (step rec fuel now c st) = UB u.
Proof. exact bad_others. Qed.
Print Assumptions C98_other_ranges_refuted.
(** The same with cells of size zero or NaN in x, whatever the variogram. *)
Theorem C98_cell_size_refuted : forall (m : libm) (f : fftlib) (o : Z -> outcome Z) (cl : Z -> Z -> Z), let L := Flib m f o cl in
  forall (v : variogram (Farith m)) (d : dims L), zero_or_nan (d_dx d) ->
  forall c, needs_padding v d c -> accepted c -> forall rec fuel now st, fst (step rec fuel now c st) = UB FloatToInt.
Proof. exact bad_step. Qed.
Print Assumptions C98_cell_size_refuted.
(** And with cells of size zero or NaN in any direction the call counts (0 is x, 1 is y, 2 is z): it ends in undefined behaviour. *)
Theorem C98_any_cell_size_refuted : forall (m : libm) (f : fftlib) (o : Z -> outcome Z) (cl : Z -> Z -> Z), let L := Flib m f o cl in
  forall (v : variogram (Farith m)) (d : dims L) i, (i < dim_asked d)%nat -> zero_or_nan (step64 d i) ->
  forall c, needs_padding v d c -> accepted c -> forall rec fuel now st, exists u, fst (step rec fuel now c st) = UB u.
Proof. exact bad_cell. Qed.
Print Assumptions C98_any_cell_size_refuted.
(** A spherical variogram answers 0 to a lag that is NaN. *)
Theorem C98_lag_refuted : forall (m : libm) s main perp depth azi dp pw (v : variogram (Farith m)), @CreateVariogram (Farith m) s main perp depth azi dp pw = Ok v -> lower s = "spherical"%string ->
  forall x y z, x = B754_nan \/ y = B754_nan \/ z = B754_nan ->
  @GetCorr1 (Farith m) v B754_nan = Flit 0 0 /\ (x = B754_nan \/ y = B754_nan -> @GetCorr2 (Farith m) v x y = Flit 0 0) /\ @GetCorr3 (Farith m) v x y z = Flit 0 0.
Proof. exact lag_nan. Qed.
Print Assumptions C98_lag_refuted.
(** A constant one answers 1; exponential, gaussian and Matern ones answer NaN (given exp(NaN) = NaN). *)
Theorem C98_other_lags_refuted : forall m s n t main perp depth azi dp pw (v : variogram (Farith m)), @CreateVariogram (Farith m) s main perp depth azi dp pw = Ok v ->
  In (n, t) documented -> lower s = n -> lm_exp m B754_nan = B754_nan -> forall x y z, x = B754_nan \/ y = B754_nan \/ z = B754_nan ->
  (t = CONSTANT -> @GetCorr1 (Farith m) v B754_nan = Flit 1 0 /\ @GetCorr2 (Farith m) v x y = Flit 1 0 /\ @GetCorr3 (Farith m) v x y z = Flit 1 0) /\
  (~ In t [CONSTANT; SPHERICAL; GENERAL_EXPONENTIAL] -> @GetCorr1 (Farith m) v B754_nan = B754_nan /\
    (x = B754_nan \/ y = B754_nan -> @GetCorr2 (Farith m) v x y = B754_nan) /\ @GetCorr3 (Farith m) v x y z = B754_nan).
Proof. exact lag_all. Qed.
Print Assumptions C98_other_lags_refuted.

(** ** C74 *)
(** A Matern 5/2 correlation can be NaN for ordinary numbers: with range 1 it is at lag 2^511 (about 6.7e153), where the polynomial overflows
    and the exponential underflows. (C85_library of Properties_FieldF.v shows a math library that meets the hypotheses.) *)
Theorem C74_nan_refuted : forall m, fair m -> trig_rounded m -> exp_rounded m -> exists v,
  @CreateVariogram (Farith m) "matern52"%string (Flit 1 0) (Flit (-1) 0) (Flit (-1) 0) (Flit 0 0) (Flit 0 0) (Flit 15 1) = Ok v /\
  is_finite (Fof 1 511) = true /\ @GetCorr1 (Farith m) v (Fof 1 511) = B754_nan.
Proof. exact matern_nan. Qed.
Print Assumptions C74_nan_refuted.

(** ** the hypotheses can be met *)
(** simulate(variogram('spherical', nan), 12, 1) and simulate(v, 12, 0) *)
Example C98_case : forall m f o cl rec fuel now st, let L := Flib m f o cl in
  exists v : variogram (Farith m), @CreateVariogram (Farith m) "spherical"%string B754_nan (Flit (-1) 0) (Flit (-1) 0) (Flit 0 0) (Flit 0 0) (Flit 15 1) = Ok v /\
  fst (step rec fuel now (CSimulate (L := L) v (@mkDims L 12 (Flit 1 0) None None None None)) st) = UB FloatToInt /\
  forall w : variogram (Farith m), fst (step rec fuel now (CSimulate (L := L) w (@mkDims L 12 (B754_zero false) None None None None)) st) = UB FloatToInt.
Proof.
  intros m f o cl rec fuel now st L. assert (Ha : is_ascii "spherical"%string) by (cbn; repeat constructor).
  destruct (names_documented (A := Farith m) "spherical"%string "spherical"%string SPHERICAL B754_nan (Flit (-1) 0) (Flit (-1) 0) (Flit 0 0) (Flit 0 0) (Flit 15 1) ltac:(cbn; tauto) eq_refl Ha) as (v & Ev & _).
  exists v. split; [exact Ev|]. split.
  - apply (bad_range m f o cl _ _ _ _ _ _ _ v Ev) with (d := @mkDims L 12 (Flit 1 0) None None None None); [left; reflexivity|right; left; reflexivity|].
    cbn [accepted]. unfold dims_ok, given, size_ok. cbn [d_nx d_ny d_nz]. repeat split; try discriminate; lia.
  - intros w. apply (bad_step m f o cl w (@mkDims L 12 (B754_zero false) None None None None)); [right; exists false; reflexivity|right; left; reflexivity|].
    cbn [accepted]. unfold dims_ok, given, size_ok. cbn [d_nx d_ny d_nz]. repeat split; try discriminate; lia.
Qed.
(** simulate(v, 12, 1, 12, 0): the second direction counts although its cells have size 0 *)
Example C98_any_case : forall m f o cl rec fuel now st, let L := Flib m f o cl in forall w : variogram (Farith m),
  exists u, fst (step rec fuel now (CSimulate (L := L) w (@mkDims L 12 (Flit 1 0) (Some 12%Z) (Some (B754_zero false : b64)) None None)) st) = UB u.
Proof.
  intros m f o cl rec fuel now st L w.
  apply (bad_cell m f o cl w (@mkDims L 12 (Flit 1 0) (Some 12%Z) (Some (B754_zero false : b64)) None None) 1); [vm_compute; lia|right; exists false; reflexivity|right; left; reflexivity|].
  cbn [accepted]. unfold dims_ok, given, size_ok. cbn [d_nx d_ny d_nz]. repeat split; try discriminate; try (intros; match goal with X : Some _ = Some _ |- _ => injection X as <- end); try lia.
Qed.
(** simulate(variogram('spherical', 10, perp_range=nan), 12, 1, 12, 1) *)
Example C98_other_case : forall m f o cl rec fuel now st, let L := Flib m f o cl in
  exists v : variogram (Farith m), @CreateVariogram (Farith m) "spherical"%string (Flit 10 0) B754_nan (Flit (-1) 0) (Flit 0 0) (Flit 0 0) (Flit 15 1) = Ok v /\
  exists u, fst (step rec fuel now (CSimulate (L := L) v (@mkDims L 12 (Flit 1 0) (Some 12%Z) (Some (Flit 1 0)) None None)) st) = UB u.
Proof.
  intros m f o cl rec fuel now st L. assert (Ha : is_ascii "spherical"%string) by (cbn; repeat constructor).
  destruct (names_documented (A := Farith m) "spherical"%string "spherical"%string SPHERICAL (Flit 10 0) B754_nan (Flit (-1) 0) (Flit 0 0) (Flit 0 0) (Flit 15 1) ltac:(cbn; tauto) eq_refl Ha) as (v & Ev & _).
  exists v. split; [exact Ev|].
  apply (bad_others m f o cl _ _ _ _ _ _ _ v Ev (@mkDims L 12 (Flit 1 0) (Some 12%Z) (Some (Flit 1 0)) None None)); [right; left; split; [vm_compute; lia|split; reflexivity]|right; left; reflexivity|].
  cbn [accepted]. unfold dims_ok, given, size_ok. cbn [d_nx d_ny d_nz]. repeat split; try discriminate; try (intros; match goal with X : Some _ = Some _ |- _ => injection X as <- end); try lia.
Qed.

(** ** C35 *)
(** A range of zero, documented to mean the main range, makes every correlation of a spherical variogram 0, at every lag, zero too, in one,
    two and three dimensions: the perpendicular range without azimuth, or the depth range without dip. *)
Theorem C35_zero_everywhere_refuted : forall m s main perp depth azi dp pw (v : variogram (Farith m)), @CreateVariogram (Farith m) s main perp depth azi dp pw = Ok v -> lower s = "spherical"%string ->
  lm_sin m (Flit 0 0) = Flit 0 0 ->
  (azi = Flit 0 0 /\ exists b, perp = B754_zero b) \/ (dp = Flit 0 0 /\ exists b, depth = B754_zero b) ->
  forall x y z, @GetCorr1 (Farith m) v x = Flit 0 0 /\ @GetCorr2 (Farith m) v x y = Flit 0 0 /\ @GetCorr3 (Farith m) v x y z = Flit 0 0.
Proof. exact zero_everywhere. Qed.
Print Assumptions C35_zero_everywhere_refuted.
(** For the exponential, gaussian and Matern types every correlation is then NaN (given exp(NaN) = NaN). *)
Theorem C35_zero_nan_refuted : forall m s n t main perp depth azi dp pw (v : variogram (Farith m)), @CreateVariogram (Farith m) s main perp depth azi dp pw = Ok v ->
  In (n, t) documented -> lower s = n -> ~ In t [CONSTANT; SPHERICAL; GENERAL_EXPONENTIAL] -> lm_sin m (Flit 0 0) = Flit 0 0 -> lm_exp m B754_nan = B754_nan ->
  (azi = Flit 0 0 /\ exists b, perp = B754_zero b) \/ (dp = Flit 0 0 /\ exists b, depth = B754_zero b) ->
  forall x y z, @GetCorr1 (Farith m) v x = B754_nan /\ @GetCorr2 (Farith m) v x y = B754_nan /\ @GetCorr3 (Farith m) v x y z = B754_nan.
Proof. exact nan_everywhere. Qed.
Print Assumptions C35_zero_nan_refuted.
(** variogram('spherical', 300, 0) *)
Example C35_zero_case : exists m, lm_sin m (Flit 0 0) = Flit 0 0 /\
  exists v : variogram (Farith m), @CreateVariogram (Farith m) "spherical"%string (Flit 300 0) (Flit 0 0) (Flit (-1) 0) (Flit 0 0) (Flit 0 0) (Flit 15 1) = Ok v /\
  @GetCorr1 (Farith m) v (Flit 100 0) = Flit 0 0.
Proof.
  exists (mkLibm (fun x => x) (fun x => x) (fun x => x) (fun _ => Flit 1 0) (fun x _ => x)). split; [reflexivity|].
  assert (Ha : is_ascii "spherical"%string) by (cbn; repeat constructor).
  match goal with |- context[Farith ?M] => set (m := M) end.
  destruct (names_documented (A := Farith m) "spherical"%string "spherical"%string SPHERICAL (Flit 300 0) (Flit 0 0) (Flit (-1) 0) (Flit 0 0) (Flit 0 0) (Flit 15 1) ltac:(cbn; tauto) eq_refl Ha) as (v & Ev & _).
  exists v. split; [exact Ev|].
  refine (proj1 (zero_everywhere m _ _ _ _ _ _ _ v Ev eq_refl eq_refl _ (Flit 100 0) (Flit 0 0) (Flit 0 0))). left. split; [reflexivity|]. exists false. exact zero_lit.
Qed.
(** variogram('gaussian', 300, 0) *)
Example C35_nan_case : exists m, lm_sin m (Flit 0 0) = Flit 0 0 /\ lm_exp m B754_nan = B754_nan /\
  exists v : variogram (Farith m), @CreateVariogram (Farith m) "gaussian"%string (Flit 300 0) (Flit 0 0) (Flit (-1) 0) (Flit 0 0) (Flit 0 0) (Flit 15 1) = Ok v /\
  @GetCorr1 (Farith m) v (Flit 0 0) = B754_nan.
Proof.
  exists (mkLibm (fun x => x) (fun x => x) (fun x => x) (fun _ => Flit 1 0) (fun x _ => x)). split; [reflexivity|]. split; [reflexivity|].
  assert (Ha : is_ascii "gaussian"%string) by (cbn; repeat constructor).
  match goal with |- context[Farith ?M] => set (m := M) end.
  destruct (names_documented (A := Farith m) "gaussian"%string "gaussian"%string GAUSSIAN (Flit 300 0) (Flit 0 0) (Flit (-1) 0) (Flit 0 0) (Flit 0 0) (Flit 15 1) ltac:(cbn; tauto) eq_refl Ha) as (v & Ev & _).
  exists v. split; [exact Ev|].
  refine (proj1 (nan_everywhere m _ "gaussian"%string GAUSSIAN _ _ _ _ _ _ v Ev ltac:(cbn; tauto) eq_refl _ eq_refl eq_refl _ (Flit 0 0) (Flit 0 0) (Flit 0 0))); [cbn; intuition discriminate|].
  left. split; [reflexivity|]. exists false. exact zero_lit.
Qed.
(** corr(variogram('gaussian', 300), nan) *)
Example C98_lag_case : exists m, lm_exp m B754_nan = B754_nan /\
  exists v : variogram (Farith m), @CreateVariogram (Farith m) "gaussian"%string (Flit 300 0) (Flit (-1) 0) (Flit (-1) 0) (Flit 0 0) (Flit 0 0) (Flit 15 1) = Ok v /\
  @GetCorr1 (Farith m) v B754_nan = B754_nan.
Proof.
  exists (mkLibm (fun x => x) (fun x => x) (fun x => x) (fun _ => Flit 1 0) (fun x _ => x)). split; [reflexivity|].
  assert (Ha : is_ascii "gaussian"%string) by (cbn; repeat constructor).
  match goal with |- context[Farith ?M] => set (m := M) end.
  destruct (names_documented (A := Farith m) "gaussian"%string "gaussian"%string GAUSSIAN (Flit 300 0) (Flit (-1) 0) (Flit (-1) 0) (Flit 0 0) (Flit 0 0) (Flit 15 1) ltac:(cbn; tauto) eq_refl Ha) as (v & Ev & _).
  exists v. split; [exact Ev|].
  refine (proj1 (proj2 (lag_all m _ "gaussian"%string GAUSSIAN _ _ _ _ _ _ v Ev ltac:(cbn; tauto) eq_refl eq_refl B754_nan B754_nan B754_nan (or_introl eq_refl)) _)). cbn; intuition discriminate.
Qed.
