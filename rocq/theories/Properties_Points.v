(** C67: covariances and semivariograms of the C++ variogram objects. *)
From Coq Require Import ZArith List Bool Lia Reals Lra.
From Verif Require Import Base Arith RealArith M_Variogram M_Points S_Vario S_Points P_Points.
Import ListNotations.
Open Scope R_scope.

(** For an object made by Create and then changed by any setter calls (some of which may throw): with s the standard deviation given
    last and rho the correlation function for the ranges and angles the object reports, GetStdDev is |s|, GetCov is s^2 rho and
    GetVariogram is s^2 (1 - rho), in 3D, 2D and 1D. *)
Theorem C67_values : forall t power rx ry rz azi dp std v0 os v,
  @Create Rarith t power rx ry rz azi dp std = Ok v0 -> 0 < rx -> 0 < ry -> 0 < rz -> 0 < power -> v = fold_left object os v0 ->
  let s := last_std std os in
  let rho x y z := corr_fun t power (ndist (range_x v) (range_y v) (range_z v) (azimuth v) (dip v) (x, y, z)) in
  @eq R (GetStdDev v) (Rabs s) /\
  forall x y z : R,
  @eq R (@GetCov3 Rarith v x y z) (s ^ 2 * rho x y z) /\ @eq R (@GetCov2 Rarith v x y) (s ^ 2 * rho x y 0) /\
  @eq R (@GetCov1 Rarith v x) (s ^ 2 * rho x 0 0) /\
  @eq R (@GetVariogram3 Rarith v x y z) (s ^ 2 * (1 - rho x y z)) /\ @eq R (@GetVariogram2 Rarith v x y) (s ^ 2 * (1 - rho x y 0)) /\
  @eq R (@GetVariogram1 Rarith v x) (s ^ 2 * (1 - rho x 0 0)).
Proof.
  exact (fun t pw rx ry rz a d std v0 os v E X Y Z P H =>
    Logic.conj (c67_std t pw rx ry rz a d std v0 v os E X Y Z H) (c67_values t pw rx ry rz a d std v0 v os E X Y Z H)).
Qed.
Print Assumptions C67_values.

(** The semivariogram is 0 at lag 0 and lies between 0 and s^2; the covariance is s^2 at lag 0 and lies between 0 and s^2. *)
Theorem C67_bounds : forall t power rx ry rz azi dp std v0 os v,
  @Create Rarith t power rx ry rz azi dp std = Ok v0 -> 0 < rx -> 0 < ry -> 0 < rz -> 0 < power -> v = fold_left object os v0 ->
  let s := last_std std os in
  forall x y z : R, @eq R (@GetVariogram3 Rarith v 0 0 0) 0 /\ 0 <= @GetVariogram3 Rarith v x y z <= s ^ 2 /\
    0 <= @GetCov3 Rarith v x y z <= s ^ 2 /\ @eq R (@GetCov3 Rarith v 0 0 0) (s ^ 2).
Proof. exact (fun t pw rx ry rz a d std v0 os v E X Y Z P H => c67_bounds t pw rx ry rz a d std v0 v os E X Y Z P H). Qed.
Print Assumptions C67_bounds.

(** The functions of two points are those of the difference, in either order; points without the last coordinates lie at 0 there. *)
Theorem C67_points : forall t power rx ry rz azi dp std v0 os v,
  @Create Rarith t power rx ry rz azi dp std = Ok v0 -> 0 < rx -> 0 < ry -> 0 < rz -> 0 < power -> v = fold_left object os v0 ->
  forall x1 y1 z1 x2 y2 z2 : R,
  @eq R (@GetCovpoint3 Rarith v x1 y1 z1 x2 y2 z2) (@GetCov3 Rarith v (x1 - x2) (y1 - y2) (z1 - z2)) /\
  @eq R (@GetCovpoint3 Rarith v x1 y1 z1 x2 y2 z2) (@GetCov3 Rarith v (x2 - x1) (y2 - y1) (z2 - z1)) /\
  @eq R (@GetCovpoint2 Rarith v x1 y1 x2 y2) (@GetCovpoint3 Rarith v x1 y1 0 x2 y2 0) /\
  @eq R (@GetCovpoint1 Rarith v x1 x2) (@GetCovpoint3 Rarith v x1 0 0 x2 0 0) /\
  @eq R (@GetCovpoint3 Rarith v x1 y1 z1 x2 y2 z2) (last_std std os ^ 2 * @GetCorrpoint3 Rarith v x1 y1 z1 x2 y2 z2) /\
  @eq R (@GetCorrpoint2 Rarith v x1 y1 x2 y2) (@GetCorrpoint3 Rarith v x1 y1 0 x2 y2 0) /\
  @eq R (@GetCorrpoint1 Rarith v x1 x2) (@GetCorrpoint3 Rarith v x1 0 0 x2 0 0).
Proof. exact (fun t pw rx ry rz a d std v0 os v E X Y Z P H => c67_points t pw rx ry rz a d std v0 v os E X Y Z H). Qed.
Print Assumptions C67_points.

(** an object whose standard deviation is set to -2 and then whose main range is set to -1 (refused) and 5 *)
Example C67_example : exists v0, @Create Rarith GAUSSIAN (3 / 2) 1 2 3 0 0 1 = Ok v0 /\
  let os := [OStd (-2 : num Rarith); OX (-1 : num Rarith); OX (5 : num Rarith)] in
  last_std 1 os = -2 /\ @eq R (range_x (fold_left object os v0)) 5.
Proof.
  exists (@new_variogram Rarith GAUSSIAN (lit Rarith 0 0) 1 2 3 0 0 1). split; [reflexivity|]. split; [reflexivity|].
  cbn [fold_left]. unfold object at 2. cbn [set1]. unfold object at 2. cbn [set1 SetStdDev]. unfold object, set1, SetRangeX.
  assert (A : fle Rarith (-1) (lit Rarith 0 0) = true).
  { change (Rleb (-1) (0 / 1) = true). unfold Rleb. destruct (Rle_dec (-1) (0 / 1)); [reflexivity|lra]. }
  assert (B : fle Rarith 5 (lit Rarith 0 0) = false).
  { change (Rleb 5 (0 / 1) = false). unfold Rleb. destruct (Rle_dec 5 (0 / 1)); [lra|reflexivity]. }
  rewrite A, B. reflexivity.
Qed.
