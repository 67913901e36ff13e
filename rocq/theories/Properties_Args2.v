(** C41 with rotation, C92, C93. *)
From Coq Require Import ZArith List Bool String Reals Lra Lia.
From Flocq Require Import Core IEEE754.BinarySingleNaN.
From Verif Require Import Base Arith RealArith FloatArith M_Variogram M_Grid M_CovGrid M_Padding S_CovGrid S_Vario S_Reach S_Mirror
  P_Vario P_VarioMore P_Args P_Args2 P_Reach P_Mirror.
Import ListNotations.
Open Scope R_scope.

(** ** C41, any angles: each parameter is the factor at one reach along its grid axis, and acts as a power of the squared lag. The reach is
    that of the largest projected axis, up to a thousandth of the other ranges (1.57 stands for a quarter turn in the code). *)
Theorem C41_rotated_partial : forall s main perp depth azi dp pw v, @CreateVariogram Rarith s main perp depth azi dp pw = Ok v ->
  0 < main -> perp <> 0 -> depth <> 0 -> 0 < pw ->
  let p := or_main main perp in let q := or_main main depth in let a := radians azi in let d := radians dp in
  exists rx ry rz, 0 < rx /\ 0 < ry /\ 0 < rz /\
    Rabs (rx - reach_x main p q a d) <= (p + q) / 1000 /\ Rabs (ry - reach_y main p q a d) <= (p + q) / 1000 /\ Rabs (rz - reach_z main q d) <= q / 1000 /\
    forall nx dx ny dy nz dz sx sy sz, 0 < sx -> 0 < sy -> 0 < sz ->
    (forall t t1 i e, @FFTCovGrid1D Rarith v nx dx sx = Ok t -> @FFTCovGrid1D Rarith v nx dx 1 = Ok t1 -> (i < nx)%nat ->
       nth i t e = nth i t1 e * damp sx rx (@lag1 Rarith nx i dx)) /\
    (forall t t1 i j e, @FFTCovGrid2D Rarith v nx dx ny dy sx sy = Ok t -> @FFTCovGrid2D Rarith v nx dx ny dy 1 1 = Ok t1 -> (i < nx)%nat -> (j < ny)%nat ->
       nth (i + nx * j) t e = nth (i + nx * j) t1 e * damp sx rx (@lag Rarith nx i dx) * damp sy ry (@lag Rarith ny j dy)) /\
    (forall t t1 i j k e, @FFTCovGrid3D Rarith v nx dx ny dy nz dz sx sy sz = Ok t -> @FFTCovGrid3D Rarith v nx dx ny dy nz dz 1 1 1 = Ok t1 ->
       (i < nx)%nat -> (j < ny)%nat -> (k < nz)%nat ->
       nth (i + nx * j + nx * ny * k) t e = nth (i + nx * j + nx * ny * k) t1 e * damp sx rx (@lag Rarith nx i dx) * damp sy ry (@lag Rarith ny j dy) * damp sz rz (@lag Rarith nz k dz)).
Proof. exact c41_rotated. Qed.
Print Assumptions C41_rotated_partial.
Example C41_rotated_case : (exists v, @CreateVariogram Rarith "gaussian" 100 50 (-1) 30 10 1 = Ok v) /\ damp (1 / 2) 100 200 = 1 / 16.
Proof.
  split; [eexists; reflexivity|]. unfold damp. destruct (Rlt_dec (1 / 2) (99999 / 100000)); [|lra].
  replace ((200 / 100) ^ 2) with (INR 4) by (cbn; lra). rewrite Rpower_pow by lra. cbn. lra.
Qed.

(** ** C92 *)
(** With all ranges equal, the correlation is a function of the distance alone, whatever the angles. *)
Theorem C92_any_direction : forall s r perp depth azi dp p v, @CreateVariogram Rarith s r perp depth azi dp p = Ok v ->
  0 < r -> or_main r perp = r -> or_main r depth = r -> perp <> 0 -> depth <> 0 -> 0 < p ->
  forall x y z, @GetCorr3 Rarith v x y z = corr_fun (vt v) p (sqrt (x ^ 2 + y ^ 2 + z ^ 2) / r).
Proof. exact c92_corr. Qed.
Print Assumptions C92_any_direction.
(** With equal horizontal ranges the angles do not change the size, in any arithmetic. *)
Theorem C92_size : forall (A : Arith) s (r depth azi dp azi' dp' p : num A) v v' nx dx ny dy nz dz,
  CreateVariogram s r r depth azi dp p = Ok v -> CreateVariogram s r r depth azi' dp' p = Ok v' ->
  FindGridSizeAfterPadding v nx dx ny dy nz dz = FindGridSizeAfterPadding v' nx dx ny dy nz dz.
Proof. exact c92_size. Qed.
Print Assumptions C92_size.
Example C92_case : exists v, @CreateVariogram Rarith "matern32" 100 100 (-1) 30 10 1 = Ok v /\ or_main 100 100 = 100 /\ or_main 100 (-1) = 100.
Proof. eexists. split; [reflexivity|]. unfold or_main. destruct (Rlt_dec 100 0), (Rlt_dec (-1) 0); lra. Qed.

(** ** C93, in double precision *)
(** The opposite azimuth mirrors the second axis: the same number, for every lag. *)
Theorem C93_azimuth : forall m, mirrored m -> forall s main perp depth azi dp p v,
  CreateVariogram (A := Farith m) s main perp depth azi dp p = Ok v ->
  exists v', CreateVariogram (A := Farith m) s main perp depth (Bopp azi) dp p = Ok v' /\ forall x y z,
  same (GetCorr3 v' x (Bopp y) z) (GetCorr3 v x y z) /\ same (GetCorr2 v' x (Bopp y)) (GetCorr2 v x y).
Proof. exact c93_azimuth. Qed.
Print Assumptions C93_azimuth.
(** The opposite dip mirrors the third axis. *)
Theorem C93_dip : forall m, mirrored m -> forall s main perp depth azi dp p v,
  CreateVariogram (A := Farith m) s main perp depth azi dp p = Ok v ->
  exists v', CreateVariogram (A := Farith m) s main perp depth azi (Bopp dp) p = Ok v' /\ forall x y z,
  same (GetCorr3 v' x y (Bopp z)) (GetCorr3 v x y z) /\ GetCorr2 v' x y = GetCorr2 v x y.
Proof. exact c93_dip. Qed.
Print Assumptions C93_dip.
Example C93_case : mirrored ex_mirror.
Proof. exact ex_mirrored. Qed.
