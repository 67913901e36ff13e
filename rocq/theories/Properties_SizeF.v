(** simulation_size in double precision, and what follows for calls of simulate. Vocabulary: S_SizeF.v, S_Room.v, S_Sizes.v, S_FieldH.v;
    [Flib m f o cl] is IEEE-754 binary64 with the math functions m, the transforms f, and the conversions o and logarithms cl of the size search. *)
From Coq Require Import ZArith Bool Lia Reals Lra String List.
From Flocq Require Import Core IEEE754.BinarySingleNaN.
From Verif Require Import Base Arith RealArith FloatArith M_Variogram M_Padding M_FftSize M_CovGrid M_Dsfmt M_Random M_Field M_Api
  S_Api S_CovGrid S_Sizes S_Room S_Vario S_Random S_Normal S_CorrF S_Accur S_FieldF S_FieldH S_Damp S_SizeF P_Base P_NormF P_FieldF P_Sim P_FieldL P_SizeF P_SizeF2 P_SizeF3.
Import ListNotations.
Open Scope R_scope.
Local Opaque new_generator genrand_uint32 init_gen_rand gen_rand_all.

(** ** C17 *)
(** The rule of C17_size_rule holds in doubles with every operation rounded to nearest; the size exceeds the number of cells by more than
    the rounded number of cells in a range, and by at most 2^31. *)
Theorem C17_doubles : forall (m : libm) (f : fftlib) (o : Z -> outcome Z) (cl : Z -> Z -> Z) s n t main perp depth azi dp pw (v : variogram (Farith m)),
  @CreateVariogram (Farith m) s main perp depth azi dp pw = Ok v -> In (n, t) documented -> lower s = n ->
  positive main -> positive (or_main64 main perp) -> positive (or_main64 main depth) -> plain_azimuth azi ->
  forall rec fuel now (d : dims (Flib m f o cl)) st ns,
  (forall i, (i < List.length ns)%nat -> positive (step64 d i) /\ (cells d i < 2 ^ 63)%Z) ->
  fst (step rec fuel now (CSize (L := Flib m f o cl) v d) st) = Ok (VSizes ns) ->
  List.length ns = (if (opt (d_ny d) 1 <=? 1)%Z then 1 else if (opt (d_nz d) 1 <=? 1)%Z then 2 else 3)%nat /\
  forall i, (i < List.length ns)%nat ->
    size_rule64 (ratio64 t (B2R pw)) (room_range (B2R main) (B2R (or_main64 main perp)) (B2R (or_main64 main depth)) (B2R azi) (List.length ns) i)
      (B2R (step64 d i)) (cells d i) (nth i ns 0%Z).
Proof. exact size_doc. Qed.
Print Assumptions C17_doubles.

(** ** C20 *)
(** In doubles, with positive ranges and cell sizes and padded sizes up to 2^29 (and as far as the logarithms are good): no call reads or
    writes out of bounds or fails, with padding left out, negative or given. *)
Theorem C20_doubles_partial : forall (m : libm) (f : fftlib) (o : Z -> outcome Z) (cl : Z -> Z -> Z), let L := Flib m f o cl in fft_sizes L ->
  forall B, good_lib L B -> (B < 2 ^ 29)%Z ->
  forall s main perp depth azi dp pw (v : variogram (Farith m)), @CreateVariogram (Farith m) s main perp depth azi dp pw = Ok v ->
  positive main -> positive (or_main64 main perp) -> positive (or_main64 main depth) ->
  forall rec fuel t (d : dims L) (a : adv L) st ns, accepted (CAdvanced (L := L) v d a) ->
  fst (step rec fuel t (CSize (L := L) v d) st) = Ok (VSizes ns) -> List.length ns = dim_asked d ->
  (forall i, (i < dim_asked d)%nat -> positive (step64 d i) /\ (1 <= cells d i <= B)%Z /\ (requested d a ns i <= B)%Z) ->
  ok_or_nofuel (fst (step rec fuel t (CAdvanced (L := L) v d a) st)).
Proof.
  intros m f o cl L HL B HG HB s main perp depth azi dp pw v HC P1 P2 P3 rec fuel t d a st ns Ha Hs Hl HA.
  assert (HB' : (B < 2 ^ 63)%Z) by (apply Z.lt_trans with (2 ^ 29)%Z; [exact HB|reflexivity]).
  exact (sim_runs (L := L) rec fuel HL t v d a ns B st HG HB Hs Hl Ha (room_F m f o cl s main perp depth azi dp pw v HC P1 P2 P3 rec fuel t d a st ns B HB' Hs Hl HA)).
Qed.
Print Assumptions C20_doubles_partial.

(** ** C85 *)
(** The results of advanced.simulate in 2D and 3D again, without a word on the size of the padded grid: it is large enough whenever
    simulation_size (or cells plus given padding) is at most 2^25 in 2D and 2^16 in 3D, and at least 2 in x. *)
Theorem C85_fields_2d_partial : forall (m : libm) (f : fftlib) o cl o' cl' (eps dl : R), let L := Flib m f o cl in
  rounds_well m -> accurate eps f -> fft_sizes L -> bpow radix2 (-53) <= eps -> eps + dl <= 1 / 1000000 -> good_lib L (2 ^ 25) ->
  forall (v : variogram (Farith m)) (w : variogram Rarith), same_call m dl v w ->
  forall rec fuel, is_build rec -> log_sane m ->
  forall t (d : dims L) (a : adv L) st ns l st', dim_asked d = 2%nat -> a_sx a = None -> a_sy a = None ->
  fst (step rec fuel t (CSize (L := L) v d) st) = Ok (VSizes ns) -> List.length ns = 2%nat ->
  (forall i, (i < 2)%nat -> cell (step64 d i) /\ (1 <= cells d i <= 2 ^ 25)%Z /\ (requested d a ns i <= 2 ^ 25)%Z) -> (2 <= requested d a ns 0)%Z ->
  step rec fuel t (CAdvanced (L := L) v d a) st = (Ok (VArray l), st') ->
  let seed := fst (genrand_uint32 rec (gen (ensure_init rec t st))) in no_two_halves (Unif01 (A := Farith m) rec) (init_gen_rand seed) ->
  exists zx zy xs noise end_, let nx := Z.to_nat zx in let ny := Z.to_nat zy in
    grid_used d a ns 0 = Ok zx /\ grid_used d a ns 1 = Ok zy /\
    draws (Unif01 (A := Farith m) rec) fuel (nx * ny) (init_gen_rand seed) = Ok (xs, end_) /\
    (forall i j c, (i < nx)%nat -> (j < ny)%nat -> nth (i + j * nx) noise c = nth (i * ny + j) xs c) /\
    near_field (fuzz eps dl noise) (Ok l)
      (@field2d (Rlib o' cl') w (Z.to_nat (cells d 0)) (Z.to_nat (cells d 1)) nx ny (B2R (step64 d 0)) (B2R (step64 d 1)) 1 1 (vals noise)).
Proof.
  intros m f o cl o' cl' eps dl L HM HA HS He Hd HG v w HV rec fuel HB HLog t d a st ns l st' D A1 A2 Hs Hl HC H2 H seed HN.
  destruct (HC 0%nat ltac:(lia)) as (C0 & N0 & _). destruct (HC 1%nat ltac:(lia)) as (C1 & N1 & _).
  apply (roomy2 m f o cl o' cl' eps dl HM HA HS He Hd v w HV rec fuel HB HLog t d a st ns l st' D A1 A2 C0 C1); try assumption; [exact (Z.lt_le_trans 0 1 _ eq_refl (proj1 N0))|exact (Z.lt_le_trans 0 1 _ eq_refl (proj1 N1))|].
  apply (call_room m f o cl dl v w HV rec fuel t d a st ns (2 ^ 25) eq_refl Hs (eq_trans Hl (eq_sym D))). intros i Hi. apply HC. exact (eq_ind _ (fun k => (i < k)%nat) Hi _ D).
Qed.
Print Assumptions C85_fields_2d_partial.
Theorem C85_fields_3d_partial : forall (m : libm) (f : fftlib) o cl o' cl' (eps dl : R), let L := Flib m f o cl in
  rounds_well m -> accurate eps f -> fft_sizes L -> bpow radix2 (-53) <= eps -> eps + dl <= 1 / 1000000 -> good_lib L (2 ^ 16) ->
  forall (v : variogram (Farith m)) (w : variogram Rarith), same_call m dl v w ->
  forall rec fuel, is_build rec -> log_sane m ->
  forall t (d : dims L) (a : adv L) st ns l st', dim_asked d = 3%nat -> a_sx a = None -> a_sy a = None -> a_sz a = None ->
  fst (step rec fuel t (CSize (L := L) v d) st) = Ok (VSizes ns) -> List.length ns = 3%nat ->
  (forall i, (i < 3)%nat -> cell (step64 d i) /\ (1 <= cells d i <= 2 ^ 16)%Z /\ (requested d a ns i <= 2 ^ 16)%Z) -> (2 <= requested d a ns 0)%Z ->
  step rec fuel t (CAdvanced (L := L) v d a) st = (Ok (VArray l), st') ->
  let g := gen (ensure_init rec t st) in reachable rec g -> no_two_halves (Unif01 (A := Farith m) rec) g ->
  exists zx zy zz xs noise, let nx := Z.to_nat zx in let ny := Z.to_nat zy in let nz := Z.to_nat zz in
    grid_used d a ns 0 = Ok zx /\ grid_used d a ns 1 = Ok zy /\ grid_used d a ns 2 = Ok zz /\
    draws (Unif01 (A := Farith m) rec) fuel (nx * ny * nz) g = Ok (xs, gen st') /\
    (forall i j k c, (i < nx)%nat -> (j < ny)%nat -> (k < nz)%nat -> nth (i + j * nx + k * nx * ny) noise c = nth ((i * ny + j) * nz + k) xs c) /\
    near_field (fuzz eps dl noise) (Ok l)
      (@field3d (Rlib o' cl') w (Z.to_nat (cells d 0)) (Z.to_nat (cells d 1)) (Z.to_nat (cells d 2)) nx ny nz
         (B2R (step64 d 0)) (B2R (step64 d 1)) (B2R (step64 d 2)) 1 1 1 (vals noise)).
Proof.
  intros m f o cl o' cl' eps dl L HM HA HS He Hd HG v w HV rec fuel HB HLog t d a st ns l st' D A1 A2 A3 Hs Hl HC H2 H g Hg HN.
  destruct (HC 0%nat ltac:(lia)) as (C0 & N0 & _). destruct (HC 1%nat ltac:(lia)) as (C1 & N1 & _). destruct (HC 2%nat ltac:(lia)) as (C2 & N2 & _).
  apply (roomy3 m f o cl o' cl' eps dl HM HA HS He Hd v w HV rec fuel HB HLog t d a st ns l st' D A1 A2 A3 C0 C1 C2); try assumption;
    [exact (Z.lt_le_trans 0 1 _ eq_refl (proj1 N0))|exact (Z.lt_le_trans 0 1 _ eq_refl (proj1 N1))|exact (Z.lt_le_trans 0 1 _ eq_refl (proj1 N2))|].
  apply (call_room m f o cl dl v w HV rec fuel t d a st ns (2 ^ 16) eq_refl Hs (eq_trans Hl (eq_sym D))). intros i Hi. apply HC. exact (eq_ind _ (fun k => (i < k)%nat) Hi _ D).
Qed.
Print Assumptions C85_fields_3d_partial.

(** ** the hypotheses can be met *)
(** variogram('spherical', 300) and 12 cells of 100, for any libm: simulation_size is 16; all that is asked is met. *)
Example SizeF_case : forall m f rec fuel t st, let L := Flib m f (fun _ => Ok 0%Z) clog in let d := @mkDims L 12 (Flit 100 0) None None None None in
  exists v : variogram L, @CreateVariogram (Farith m) "spherical"%string (Flit 300 0) (Flit (-1) 0) (Flit (-1) 0) (Flit 0 0) (Flit 0 0) (Flit 15 1) = Ok v /\
  fst (step rec fuel t (CSize (L := L) v d) st) = Ok (@VSizes L [16%Z]) /\
  In ("spherical"%string, SPHERICAL) documented /\ positive (Flit 300 0) /\ positive (or_main64 (Flit 300 0) (Flit (-1) 0)) /\ plain_azimuth (Flit 0 0) /\
  good_lib L (2 ^ 28) /\ dim_asked d = 1%nat /\ positive (step64 d 0) /\ cells d 0 = 12%Z /\
  accepted (CAdvanced (L := L) v d (@mkAdv L None None None None None None)) /\ requested d (@mkAdv L None None None None None None) [16%Z] 0 = 16%Z.
Proof. exact size_case. Qed.
