(** C88-C91: how the arguments act. *)
From Coq Require Import ZArith List Bool String Reals Lra Lia.
From Flocq Require Import Core IEEE754.BinarySingleNaN.
From Verif Require Import Base Arith RealArith FloatArith M_Variogram M_Padding S_Vario S_Grow P_Vario P_VarioNames P_VarioMore P_Args P_Grow.
Import ListNotations.
Open Scope R_scope.

(** ** C88 *)
(** Under any other name the power changes nothing, in any arithmetic: it is the same object (or the same error). *)
Theorem C88_ignored : forall (A : Arith) s main perp depth azi dp (p p' : num A), lower s <> "general_exponential"%string ->
  CreateVariogram s main perp depth azi dp p = CreateVariogram s main perp depth azi dp p'.
Proof. exact power_ignored. Qed.
Print Assumptions C88_ignored.
(** For the general exponential a larger power raises every correlation within one range, lowers every one beyond it, and changes none
    at lag zero or at exactly one range. *)
Theorem C88_effect : forall s main perp depth azi dp p p' v v', lower s = "general_exponential"%string ->
  @CreateVariogram Rarith s main perp depth azi dp p = Ok v -> @CreateVariogram Rarith s main perp depth azi dp p' = Ok v' ->
  0 < main -> perp <> 0 -> depth <> 0 -> 0 < p < p' -> forall x y z,
  let d := ndist main (or_main main perp) (or_main main depth) (radians azi) (radians dp) (x, y, z) in
  (0 < d < 1 -> @GetCorr3 Rarith v x y z < @GetCorr3 Rarith v' x y z) /\
  (1 < d -> @GetCorr3 Rarith v' x y z < @GetCorr3 Rarith v x y z) /\
  (d = 0 \/ d = 1 -> @GetCorr3 Rarith v x y z = @GetCorr3 Rarith v' x y z).
Proof. exact c88_effect. Qed.
Print Assumptions C88_effect.
Example C88_case : lower "Gaussian" <> "general_exponential"%string /\ lower "GENERAL_Exponential" = "general_exponential"%string /\
  exists v v', @CreateVariogram Rarith "GENERAL_Exponential" 100 50 (-1) 30 0 1 = Ok v /\
    @CreateVariogram Rarith "GENERAL_Exponential" 100 50 (-1) 30 0 (3 / 2) = Ok v'.
Proof. split; [discriminate|]. split; [reflexivity|]. eexists. eexists. split; reflexivity. Qed.

(** ** C89 *)
(** The azimuth [90 - a] is the azimuth [a] with the two horizontal axes swapped. *)
Theorem C89_swap : forall s main perp depth azi azi' dp p v v', radians azi + radians azi' = PI / 2 ->
  @CreateVariogram Rarith s main perp depth azi dp p = Ok v -> @CreateVariogram Rarith s main perp depth azi' dp p = Ok v' ->
  0 < main -> perp <> 0 -> depth <> 0 -> 0 < p -> forall x y z, @GetCorr3 Rarith v' x y z = @GetCorr3 Rarith v y x z.
Proof. exact c89_swap. Qed.
Print Assumptions C89_swap.
(** With it the main range lies along the compass direction [th] (clockwise from the second axis), and the other one across it. *)
Theorem C89_compass : forall s main perp depth azi th p v, radians azi = PI / 2 - th ->
  @CreateVariogram Rarith s main perp depth azi 0 p = Ok v -> 0 < main -> perp <> 0 -> depth <> 0 -> 0 < p -> forall t, 0 <= t ->
  @GetCorr3 Rarith v (t * sin th) (t * cos th) 0 = corr_fun (vt v) p (t / main) /\
  @GetCorr3 Rarith v (t * cos th) (- (t * sin th)) 0 = corr_fun (vt v) p (t / or_main main perp).
Proof. exact c89_compass. Qed.
Print Assumptions C89_compass.
(** The degrees of the code: off by at most 10^-20 radians per degree. *)
Theorem C89_degrees : forall x, Rabs (radians x - x * (PI / 180)) <= Rabs x / 10 ^ 20.
Proof. exact radians_near. Qed.
Print Assumptions C89_degrees.
(** The sizes do not follow: azimuth 0 is treated apart, so the mirrored problem (same cells and spacings both ways) has another size. *)
Theorem C89_size_refuted : forall m : libm,
  (let* v := CreateVariogram (A := Farith m) "spherical" (d64 100) (d64 10) (d64 5) (d64 0) (d64 0) (d64 1) in
   FindGridSizeAfterPadding v 10 (d64 1) 10 (d64 1) 1 (d64 1)) = Ok [193; 21]%Z /\
  (let* v := CreateVariogram (A := Farith m) "spherical" (d64 100) (d64 10) (d64 5) (d64 90) (d64 0) (d64 1) in
   FindGridSizeAfterPadding v 10 (d64 1) 10 (d64 1) 1 (d64 1)) = Ok [193; 193]%Z.
Proof. exact mirror_size. Qed.
Print Assumptions C89_size_refuted.
Example C89_case : exists azi azi' v v', radians azi + radians azi' = PI / 2 /\ azi = 30 /\
  @CreateVariogram Rarith "spherical" 100 50 (-1) azi 10 1 = Ok v /\ @CreateVariogram Rarith "spherical" 100 50 (-1) azi' 10 1 = Ok v'.
Proof.
  exists 30, (PI / 2 / @Degree Rarith - 30). eexists. eexists. split; [|split; [reflexivity|split; reflexivity]].
  assert (D : @Degree Rarith <> 0).
  { unfold Degree. cbn [lit Rarith]. change (10 ^ 23)%Z with 100000000000000000000000%Z. lra. }
  unfold radians. set (g := @Degree Rarith) in *. clearbody g. field. exact D.
Qed.

(** ** C90 *)
(** Longer ranges never lower a correlation. *)
Theorem C90_ranges : forall s main perp depth main' perp' depth' azi dp p v v',
  @CreateVariogram Rarith s main perp depth azi dp p = Ok v -> @CreateVariogram Rarith s main' perp' depth' azi dp p = Ok v' ->
  0 < main <= main' -> 0 < or_main main perp <= or_main main' perp' -> 0 < or_main main depth <= or_main main' depth' -> 0 < p ->
  forall x y z, @GetCorr3 Rarith v x y z <= @GetCorr3 Rarith v' x y z.
Proof. exact c90_ranges. Qed.
Print Assumptions C90_ranges.
Example C90_case : exists v v', @CreateVariogram Rarith "matern52" 100 50 (-1) 30 10 1 = Ok v /\
  @CreateVariogram Rarith "matern52" 120 (-1) 130 30 10 1 = Ok v' /\
  0 < 100 <= 120 /\ 0 < or_main 100 50 <= or_main 120 (-1) /\ 0 < or_main 100 (-1) <= or_main 120 130.
Proof.
  eexists. eexists. split; [reflexivity|]. split; [reflexivity|]. unfold or_main.
  destruct (Rlt_dec 50 0), (Rlt_dec (-1) 0), (Rlt_dec 130 0); lra.
Qed.

(** ** C91 *)
(** In double precision: more cells, longer ranges and smaller spacings never give a smaller size in any direction, when both calls return. *)
Theorem C91_grows : forall (m : libm) s main perp depth azi dp p nx dx ny dy nz dz main' perp' depth' dp' nx' dx' ny' dy' nz' dz'
    (v v' : variogram (Farith m)) l l',
  CreateVariogram (A := Farith m) s main perp depth azi dp p = Ok v -> CreateVariogram (A := Farith m) s main' perp' depth' azi dp' p = Ok v' ->
  FindGridSizeAfterPadding v nx dx ny dy nz dz = Ok l -> FindGridSizeAfterPadding v' nx' dx' ny' dy' nz' dz' = Ok l' ->
  longer main main' -> longer (given main perp) (given main' perp') -> longer (given main depth) (given main' depth') ->
  more nx nx' -> more ny ny' -> more nz nz' ->
  longer dx' dx -> ((1 < ny)%Z -> longer dy' dy) -> ((1 < nz)%Z -> longer dz' dz) -> fits_in l l'.
Proof. exact grow. Qed.
Print Assumptions C91_grows.
Example C91_case : forall m : libm, (exists v,
    CreateVariogram (A := Farith m) "spherical" (d64 100) (d64 10) (d64 5) (d64 0) (d64 0) (d64 1) = Ok v /\
    FindGridSizeAfterPadding v 10 (d64 1) 10 (d64 1) 1 (d64 1) = Ok [193; 21]%Z /\
    FindGridSizeAfterPadding v 30 (d64 1) 30 (d64 1) 2 (d64 1) = Ok [193; 41; 10]%Z) /\
  longer (d64 100) (d64 100) /\ longer (d64 1) (d64 1) /\ more 10 30 /\ more 1 2.
Proof.
  intros m. split; [exact (grow_case m)|]. split; [apply d64_longer; lia|]. split; [apply d64_longer; lia|]. unfold more. lia.
Qed.
