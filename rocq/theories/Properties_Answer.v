(** C97: which calls have an answer. Vocabulary: S_Answer.v, S_SizeF.v; [Flib m f o cl] is IEEE-754 binary64 with the math functions m, the
    transforms f, and the conversions o and logarithms cl of the size search. *)
From Coq Require Import ZArith Bool Lia Reals Lra List String.
From Flocq Require Import Core IEEE754.BinarySingleNaN.
From Verif Require Import Base Arith FloatArith M_Variogram M_Padding M_FftSize M_Dsfmt M_Random M_Field M_Api S_Api S_Vario S_Sizes S_Room S_CorrF S_FieldF S_CovGrid S_Damp S_SizeF S_Answer P_Base P_Sim P_VarioNames P_CorrF P_FftSize P_SizeF P_SizeF2 P_Answer2 P_Answer3 P_NotNum3.
Import ListNotations.
Open Scope R_scope.
Local Opaque new_generator genrand_uint32 init_gen_rand gen_rand_all.

(** ** C97 *)
(** Up to 2^30 cells a direction and ranges up to 2^27 cells: simulation_size returns, in any state. (C20_doubles_partial goes on from there
    for simulations.) *)
Theorem C97_answers_partial : forall (m : libm) (f : fftlib) (o : Z -> outcome Z) (cl : Z -> Z -> Z), let L := Flib m f o cl in
  forall s main perp depth azi dp pw (v : variogram (Farith m)), @CreateVariogram (Farith m) s main perp depth azi dp pw = Ok v -> sensible_power pw ->
  positive main -> positive (or_main64 main perp) -> positive (or_main64 main depth) ->
  forall (d : dims L), accepted (CSize (L := L) v d) ->
  (forall i, (i < directions d)%nat -> plain_step (step64 d i) /\ (cells d i <= 2 ^ 30)%Z /\
    longest (B2R main) (B2R (or_main64 main perp)) (B2R (or_main64 main depth)) (directions d) i <= bpow radix2 27 * B2R (step64 d i)) ->
  forall rec fuel now st, exists ns, fst (step rec fuel now (CSize (L := L) v d) st) = Ok (VSizes ns).
Proof. exact answers. Qed.
Print Assumptions C97_answers_partial.
(** Simulations, in terms of the arguments alone: when cells, ranges and given padding stay so small that no direction can need more than B
    nodes (B below 2^29, and as far as the logarithms are good), every call of advanced.simulate returns a field (NoFuel: a rejection loop
    of the normal sampler runs too long). Without padding and smoothing this is simulate (C22). *)
Theorem C97_fields_partial : forall (m : libm) (f : fftlib) (o : Z -> outcome Z) (cl : Z -> Z -> Z), let L := Flib m f o cl in
  fft_sizes L -> forall B, good_lib L B -> (B < 2 ^ 29)%Z ->
  forall s main perp depth azi dp pw (v : variogram (Farith m)), @CreateVariogram (Farith m) s main perp depth azi dp pw = Ok v -> sensible_power pw ->
  positive main -> positive (or_main64 main perp) -> positive (or_main64 main depth) -> plain_azimuth azi ->
  forall (d : dims L) (a : adv L), accepted (CAdvanced (L := L) v d a) ->
  (forall i, (i < directions d)%nat -> plain_step (step64 d i) /\ (1 <= cells d i <= B)%Z /\ exists K,
    range_cells (B2R main) (B2R (or_main64 main perp)) (B2R (or_main64 main depth)) (directions d) i (B2R (step64 d i)) K /\ (can_need (cells d i) K (pad_given a i) <= B)%Z) ->
  forall rec fuel now st, ok_or_nofuel (fst (step rec fuel now (CAdvanced (L := L) v d a) st)).
Proof. exact fields_made. Qed.
Print Assumptions C97_fields_partial.
(** A main range of 2^31 cells or more: undefined behaviour, in simulation_size and in every simulation, even with the padding given. *)
Theorem C97_long_range_refuted : forall (m : libm) (f : fftlib) (o : Z -> outcome Z) (cl : Z -> Z -> Z), let L := Flib m f o cl in
  forall s main perp depth azi dp pw (v : variogram (Farith m)), @CreateVariogram (Farith m) s main perp depth azi dp pw = Ok v ->
  positive main -> positive (or_main64 main perp) -> forall (d : dims L), positive (d_dx d) -> bpow radix2 31 * B2R (d_dx d) <= B2R main ->
  forall c, needs_padding v d c -> accepted c -> forall rec fuel now st, fst (step rec fuel now c st) = UB FloatToInt.
Proof. exact long_stops. Qed.
Print Assumptions C97_long_range_refuted.
(** The other ranges: undefined behaviour when the perpendicular range has 2^31 cells or more of the x or the y direction in 2D or 3D, or the
    depth range in 3D. *)
Theorem C97_other_ranges_refuted : forall (m : libm) (f : fftlib) (o : Z -> outcome Z) (cl : Z -> Z -> Z), let L := Flib m f o cl in
  forall s main perp depth azi dp pw (v : variogram (Farith m)), @CreateVariogram (Farith m) s main perp depth azi dp pw = Ok v ->
  positive main -> positive (or_main64 main perp) -> forall (d : dims L),
  ((2 <= dim_asked d)%nat /\ exists i, (i < 2)%nat /\ positive (step64 d i) /\ bpow radix2 31 * B2R (step64 d i) <= B2R (or_main64 main perp)) \/
  (dim_asked d = 3%nat /\ positive (step64 d 2) /\ bpow radix2 31 * B2R (step64 d 2) <= B2R (or_main64 main depth)) ->
  forall c, needs_padding v d c -> accepted c -> forall rec fuel now st, exists u, fst (step rec fuel now c st) = UB u.
Proof. exact long_others. Qed.
Print Assumptions C97_other_ranges_refuted.
(** The same with 2^32 or more cells in x, when the ranges are short. *)
Theorem C97_many_cells_refuted : forall (m : libm) (f : fftlib) (o : Z -> outcome Z) (cl : Z -> Z -> Z), let L := Flib m f o cl in
  forall s main perp depth azi dp pw (v : variogram (Farith m)), @CreateVariogram (Farith m) s main perp depth azi dp pw = Ok v -> sensible_power pw ->
  positive main -> positive (or_main64 main perp) -> forall (d : dims L), positive (d_dx d) -> (2 ^ 32 <= d_nx d)%Z ->
  Rmax (B2R main) (B2R (or_main64 main perp)) <= bpow radix2 27 * B2R (d_dx d) ->
  forall c, needs_padding v d c -> accepted c -> forall rec fuel now st, fst (step rec fuel now c st) = UB FloatToInt.
Proof. exact many_stop. Qed.
Print Assumptions C97_many_cells_refuted.
(** And with 2^32 or more cells in y (1) or z (2), when that direction counts. *)
Theorem C97_other_cells_refuted : forall (m : libm) (f : fftlib) (o : Z -> outcome Z) (cl : Z -> Z -> Z), let L := Flib m f o cl in
  forall s main perp depth azi dp pw (v : variogram (Farith m)), @CreateVariogram (Farith m) s main perp depth azi dp pw = Ok v -> sensible_power pw ->
  positive main -> positive (or_main64 main perp) -> positive (or_main64 main depth) ->
  forall (d : dims L) i, (0 < i < dim_asked d)%nat -> positive (step64 d i) -> (2 ^ 32 <= cells d i)%Z ->
  longest (B2R main) (B2R (or_main64 main perp)) (B2R (or_main64 main depth)) (dim_asked d) i <= bpow radix2 27 * B2R (step64 d i) ->
  forall c, needs_padding v d c -> accepted c -> forall rec fuel now st, exists u, fst (step rec fuel now c st) = UB u.
Proof. exact many_others. Qed.
Print Assumptions C97_other_cells_refuted.

(** ** the hypotheses can be met *)
(** variogram('spherical', 300): 12 x 12 cells of 100 get an answer, 5000000000 cells do not; nor does variogram('spherical', 3e9) with
    12 cells of 1, with a padding of 10 given. *)
Example C97_case : forall m f o cl rec fuel now st, let L := Flib m f o cl in
  exists v w : variogram (Farith m),
  @CreateVariogram (Farith m) "spherical"%string (Flit 300 0) (Flit (-1) 0) (Flit (-1) 0) (Flit 0 0) (Flit 0 0) (Flit 15 1) = Ok v /\
  @CreateVariogram (Farith m) "spherical"%string (Flit 3000000000 0) (Flit (-1) 0) (Flit (-1) 0) (Flit 0 0) (Flit 0 0) (Flit 15 1) = Ok w /\
  (exists ns, fst (step rec fuel now (CSize (L := L) v (@mkDims L 12 (Flit 100 0) (Some 12%Z) (Some (Flit 100 0)) None None)) st) = Ok (VSizes ns)) /\
  fst (step rec fuel now (CSize (L := L) v (@mkDims L 5000000000 (Flit 100 0) None None None None)) st) = UB FloatToInt /\
  fst (step rec fuel now (CAdvanced (L := L) w (@mkDims L 12 (Flit 1 0) None None None None) (@mkAdv L (Some 10%Z) None None None None None)) st) = UB FloatToInt.
Proof.
  intros m f o cl rec fuel now st L.
  assert (Ha : is_ascii "spherical"%string) by (cbn; repeat constructor).
  assert (Hp : sensible_power (Flit 15 1)) by (destruct r15 as [A B]; split; [exact A|rewrite B; lra]).
  destruct (names_documented (A := Farith m) "spherical"%string "spherical"%string SPHERICAL (Flit 300 0) (Flit (-1) 0) (Flit (-1) 0) (Flit 0 0) (Flit 0 0) (Flit 15 1) ltac:(cbn; tauto) eq_refl Ha) as (v & Ev & _).
  destruct (names_documented (A := Farith m) "spherical"%string "spherical"%string SPHERICAL (Flit 3000000000 0) (Flit (-1) 0) (Flit (-1) 0) (Flit 0 0) (Flit 0 0) (Flit 15 1) ltac:(cbn; tauto) eq_refl Ha) as (w & Ew & _).
  exists v, w. split; [exact Ev|]. split; [exact Ew|].
  pose proof (pos_z 300 _ e300 eq_refl) as P3. pose proof (pos_z 3000000000 _ e3g eq_refl) as PG. pose proof (pos_z 100 _ v100 eq_refl) as P1. pose proof (pos_z 1 _ e1 eq_refl) as PO.
  assert (T8 : 100 <= bpow radix2 800) by (apply Rle_trans with (bpow radix2 7); [change (bpow radix2 7) with 128; lra|apply bpow_le; lia]).
  split.
  { apply (answers m f o cl "spherical"%string (Flit 300 0) (Flit (-1) 0) (Flit (-1) 0) (Flit 0 0) (Flit 0 0) (Flit 15 1) v Ev Hp P3); rewrite ?or_neg; try exact P3.
    - cbn [accepted]. unfold dims_ok, given, size_ok. cbn [d_nx d_ny d_nz]. repeat split; try discriminate; try lia; match goal with X : Some _ = Some _ |- _ => injection X as <- end; lia.
    - change (directions _) with 2%nat. intros i Hi. assert (S : step64 (@mkDims L 12 (Flit 100 0) (Some 12%Z) (Some (Flit 100 0)) None None) i = Flit 100 0) by (destruct i as [|[|i]]; [reflexivity|reflexivity|lia]). rewrite S.
      destruct v100 as [_ V1]. destruct e300 as [_ V3]. split; [split; [exact P1|rewrite V1; exact T8]|]. split; [destruct i as [|[|i]]; [discriminate|discriminate|lia]|].
      change (bpow radix2 27) with 134217728. rewrite V1. replace (longest _ _ _ 2 i) with 300; [lra|]. destruct i as [|[|i]]; [..|lia]; cbn [longest Nat.eqb]; rewrite V3, Rmax_left; lra. }
  split.
  { apply (many_stop m f o cl "spherical"%string (Flit 300 0) (Flit (-1) 0) (Flit (-1) 0) (Flit 0 0) (Flit 0 0) (Flit 15 1) v Ev Hp P3) with (d := @mkDims L 5000000000 (Flit 100 0) None None None None); rewrite ?or_neg; try assumption.
    - cbn [d_nx]. lia.
    - cbn [d_dx]. destruct v100 as [_ ->]. destruct e300 as [_ ->]. rewrite Rmax_left by lra. change (bpow radix2 27) with 134217728. lra.
    - left. reflexivity.
    - cbn [accepted]. unfold dims_ok, given, size_ok. cbn [d_nx d_ny d_nz]. repeat split; try discriminate; try lia; match goal with X : Some _ = Some _ |- _ => injection X as <- end; lia. }
  apply (long_stops m f o cl "spherical"%string (Flit 3000000000 0) (Flit (-1) 0) (Flit (-1) 0) (Flit 0 0) (Flit 0 0) (Flit 15 1) w Ew PG) with (d := @mkDims L 12 (Flit 1 0) None None None None); rewrite ?or_neg; try assumption.
  - cbn [d_dx]. destruct e1 as [_ ->]. destruct e3g as [_ ->]. change (bpow radix2 31) with 2147483648. lra.
  - right. right. eexists. reflexivity.
  - cbn [accepted a_padx a_pady a_padz]. unfold dims_ok, given, size_ok, int_ok. cbn [d_nx d_ny d_nz]. repeat split; try discriminate; try lia; match goal with X : Some _ = Some _ |- _ => injection X as <- end; lia.
Qed.
(** variogram('spherical', 300) and 12 x 12 cells of 100: a range is 3 cells, no direction needs more than 25 nodes, and every call returns. *)
Example C97_fields_case : forall m f, let L := Flib m f (fun _ => Ok 0%Z) clog in fft_sizes L ->
  exists v : variogram (Farith m),
  @CreateVariogram (Farith m) "spherical"%string (Flit 300 0) (Flit (-1) 0) (Flit (-1) 0) (Flit 0 0) (Flit 0 0) (Flit 15 1) = Ok v /\
  forall rec fuel now st, ok_or_nofuel (fst (step rec fuel now (CAdvanced (L := L) v (@mkDims L 12 (Flit 100 0) (Some 12%Z) (Some (Flit 100 0)) None None) (@mkAdv L None None None None None None)) st)).
Proof.
  intros m f L HL.
  assert (Ha : is_ascii "spherical"%string) by (cbn; repeat constructor).
  assert (Hp : sensible_power (Flit 15 1)) by (destruct r15 as [A B]; split; [exact A|rewrite B; lra]).
  destruct (names_documented (A := Farith m) "spherical"%string "spherical"%string SPHERICAL (Flit 300 0) (Flit (-1) 0) (Flit (-1) 0) (Flit 0 0) (Flit 0 0) (Flit 15 1) ltac:(cbn; tauto) eq_refl Ha) as (v & Ev & _).
  exists v. split; [exact Ev|]. pose proof (pos_z 300 _ e300 eq_refl) as P3. pose proof (pos_z 100 _ v100 eq_refl) as P1.
  assert (T8 : 100 <= bpow radix2 800) by (apply Rle_trans with (bpow radix2 7); [change (bpow radix2 7) with 128; lra|apply bpow_le; lia]).
  assert (PA : plain_azimuth (Flit 0 0)) by (destruct l0 as [A B]; split; [exact A|left; exact B]).
  apply (fields_made m f (fun _ => Ok 0%Z) clog HL 25) with (s := "spherical"%string) (main := Flit 300 0) (perp := Flit (-1) 0) (depth := Flit (-1) 0) (azi := Flit 0 0) (dp := Flit 0 0) (pw := Flit 15 1); rewrite ?or_neg; try assumption.
  - split; [intros x _; left; reflexivity|intros k Hk; apply exact_logs_good; lia].
  - lia.
  - cbn [accepted a_padx a_pady a_padz]. unfold dims_ok, given, size_ok, int_ok. cbn [d_nx d_ny d_nz]. repeat split; try discriminate; try lia; match goal with X : Some _ = Some _ |- _ => injection X as <- end; lia.
  - change (directions _) with 2%nat. intros i Hi. assert (S : step64 (@mkDims L 12 (Flit 100 0) (Some 12%Z) (Some (Flit 100 0)) None None) i = Flit 100 0) by (destruct i as [|[|i]]; [reflexivity|reflexivity|lia]). rewrite S.
    destruct v100 as [_ V1]. destruct e300 as [_ V3]. split; [split; [exact P1|rewrite V1; exact T8]|]. split; [destruct i as [|[|i]]; [split; discriminate|split; discriminate|lia]|].
    exists 3%Z. split; [|destruct i as [|[|i]]; [discriminate|discriminate|lia]]. split; [lia|]. rewrite V1. replace (longest _ _ _ 2 i) with 300; [lra|]. destruct i as [|[|i]]; [..|lia]; cbn [longest Nat.eqb]; rewrite V3, Rmax_left; lra.
Qed.
(** simulate(variogram('spherical', 300, perp_range=3e9), 12, 100, 12, 1) *)
Example C97_other_case : forall m f o cl rec fuel now st, let L := Flib m f o cl in
  exists w : variogram (Farith m), @CreateVariogram (Farith m) "spherical"%string (Flit 300 0) (Flit 3000000000 0) (Flit (-1) 0) (Flit 0 0) (Flit 0 0) (Flit 15 1) = Ok w /\
  exists u, fst (step rec fuel now (CSimulate (L := L) w (@mkDims L 12 (Flit 100 0) (Some 12%Z) (Some (Flit 1 0)) None None)) st) = UB u.
Proof.
  intros m f o cl rec fuel now st L. assert (Ha : is_ascii "spherical"%string) by (cbn; repeat constructor).
  destruct (names_documented (A := Farith m) "spherical"%string "spherical"%string SPHERICAL (Flit 300 0) (Flit 3000000000 0) (Flit (-1) 0) (Flit 0 0) (Flit 0 0) (Flit 15 1) ltac:(cbn; tauto) eq_refl Ha) as (w & Ew & _).
  exists w. split; [exact Ew|]. assert (O : or_main64 (Flit 300 0) (Flit 3000000000 0) = Flit 3000000000 0) by (apply B2SF_inj; vm_compute; reflexivity).
  pose proof (pos_z 300 _ e300 eq_refl) as P3. pose proof (pos_z 3000000000 _ e3g eq_refl) as PG. pose proof (pos_z 1 _ e1 eq_refl) as PO.
  apply (long_others m f o cl _ _ _ _ _ _ _ w Ew P3 ltac:(rewrite O; exact PG) (@mkDims L 12 (Flit 100 0) (Some 12%Z) (Some (Flit 1 0)) None None)); [|right; left; reflexivity|].
  - left. split; [vm_compute; lia|]. exists 1%nat. split; [lia|]. change (step64 _ 1) with (Flit 1 0). split; [exact PO|]. rewrite O. destruct e1 as [_ ->]. destruct e3g as [_ ->]. change (bpow radix2 31) with 2147483648. lra.
  - cbn [accepted]. unfold dims_ok, given, size_ok. cbn [d_nx d_ny d_nz]. repeat split; try discriminate; try (intros; match goal with X : Some _ = Some _ |- _ => injection X as <- end); try lia.
Qed.
(** simulation_size(variogram('spherical', 300), 12, 100, 5000000000, 100) *)
Example C97_other_cells_case : forall m f o cl rec fuel now st, let L := Flib m f o cl in
  exists v : variogram (Farith m), @CreateVariogram (Farith m) "spherical"%string (Flit 300 0) (Flit (-1) 0) (Flit (-1) 0) (Flit 0 0) (Flit 0 0) (Flit 15 1) = Ok v /\
  exists u, fst (step rec fuel now (CSize (L := L) v (@mkDims L 12 (Flit 100 0) (Some 5000000000%Z) (Some (Flit 100 0)) None None)) st) = UB u.
Proof.
  intros m f o cl rec fuel now st L. assert (Ha : is_ascii "spherical"%string) by (cbn; repeat constructor).
  assert (Hp : sensible_power (Flit 15 1)) by (destruct r15 as [A B]; split; [exact A|rewrite B; lra]).
  destruct (names_documented (A := Farith m) "spherical"%string "spherical"%string SPHERICAL (Flit 300 0) (Flit (-1) 0) (Flit (-1) 0) (Flit 0 0) (Flit 0 0) (Flit 15 1) ltac:(cbn; tauto) eq_refl Ha) as (v & Ev & _).
  exists v. split; [exact Ev|]. pose proof (pos_z 300 _ e300 eq_refl) as P3. pose proof (pos_z 100 _ v100 eq_refl) as P1.
  apply (many_others m f o cl _ _ _ _ _ _ _ v Ev Hp P3 ltac:(rewrite or_neg; exact P3) ltac:(rewrite or_neg; exact P3) (@mkDims L 12 (Flit 100 0) (Some 5000000000%Z) (Some (Flit 100 0)) None None) 1);
    [vm_compute; lia|exact P1|discriminate| |left; reflexivity|].
  - rewrite or_neg. cbn [longest]. change (step64 _ 1) with (Flit 100 0). destruct v100 as [_ ->]. destruct e300 as [_ ->]. change (bpow radix2 27) with 134217728. rewrite Rmax_left; lra.
  - cbn [accepted]. unfold dims_ok, given, size_ok. cbn [d_nx d_ny d_nz]. repeat split; try discriminate; try (intros; match goal with X : Some _ = Some _ |- _ => injection X as <- end); try lia.
Qed.
