(** Specification of variograms, in exact arithmetic. *)
From Coq Require Import ZArith List Bool String Ascii Reals.
From Verif Require Import Base Arith RealArith M_Variogram.
Import ListNotations.
Open Scope R_scope.

(** the range meant by an argument: a negative one stands for the main range *)
Definition or_main (main r : R) : R := if Rlt_dec r 0 then main else r.

(** degrees to radians, with the constant of the code (pi/180 to 22 decimals) *)
Definition radians (x : R) : R := x * @Degree Rarith.

(** Orthonormal axes: the main direction, the horizontal perpendicular, and the third axis. *)
Definition dot (u h : R * R * R) : R := let '(a, b, c) := u in let '(x, y, z) := h in a * x + b * y + c * z.
Definition main_axis (azi dp : R) : R * R * R := (cos dp * cos azi, cos dp * sin azi, sin dp).
Definition perp_axis (azi : R) : R * R * R := (- sin azi, cos azi, 0).
Definition third_axis (azi dp : R) : R * R * R := (- (sin dp * cos azi), - (sin dp * sin azi), cos dp).
Definition scale (k : R) (h : R * R * R) : R * R * R := let '(x, y, z) := h in (k * x, k * y, k * z).
Definition plus3 (h g : R * R * R) : R * R * R := let '(x, y, z) := h in let '(x', y', z') := g in (x + x', y + y', z + z').

(** The normalised distance: coordinates along the three axes divided by the ranges. *)
Definition ndist (main perp depth azi dp : R) (h : R * R * R) : R :=
  sqrt ((dot (main_axis azi dp) h / main) ^ 2 + (dot (perp_axis azi) h / perp) ^ 2 + (dot (third_axis azi dp) h / depth) ^ 2).

(** The correlation functions of the documented types, of the normalised distance. *)
Definition corr_fun (t : vtype) (power d : R) : R :=
  match t with
  | CONSTANT => 1
  | EXPONENTIAL => exp (- 3 * d)
  | SPHERICAL => if Rlt_dec d 1 then 1 - 3 / 2 * d + 1 / 2 * d ^ 3 else 0
  | GAUSSIAN => exp (- 3 * d ^ 2)
  | GENERAL_EXPONENTIAL => exp (- 3 * Rpow d power)
  | MATERN32 => let s := 4744 / 1000 * d in exp (- s) * (1 + s)
  | MATERN52 => let s := 5918 / 1000 * d in exp (- s) * (1 + s + s ^ 2 / 3)
  | MATERN72 => let s := 6877 / 1000 * d in exp (- s) * (1 + s + 2 / 5 * s ^ 2 + s ^ 3 / 15)
  | N_TYPES => 0
  end.

(** The documented names. *)
Definition documented : list (string * vtype) :=
  [("gaussian", GAUSSIAN); ("exponential", EXPONENTIAL); ("general_exponential", GENERAL_EXPONENTIAL); ("spherical", SPHERICAL);
   ("matern32", MATERN32); ("matern52", MATERN52); ("matern72", MATERN72); ("constant", CONSTANT)]%string.
(** lower case of the letters A-Z *)
Definition lower_char (a : ascii) : ascii :=
  let n := nat_of_ascii a in if ((65 <=? n) && (n <=? 90))%nat then ascii_of_nat (n + 32) else a.
Fixpoint lower (s : string) : string := match s with EmptyString => EmptyString | String a s => String (lower_char a) (lower s) end.
Fixpoint is_ascii (s : string) : Prop :=
  match s with EmptyString => True | String a s => (nat_of_ascii a < 128)%nat /\ is_ascii s end.

(** ** setter calls of the C++ class *)
Section Setters.
Context {A : Arith}.
Inductive setter :=
| OAngles (a d : num A) | ORotate (a d : num A) | OStd (s : num A) | ORanges (x y z : num A)
| OX (r : num A) | OY (r : num A) | OZ (r : num A) | OLimX (l : num A) | OLimY (l : num A) | OLimZ (l : num A).
Definition set1 (v : variogram A) (o : setter) : outcome (variogram A) :=
  match o with
  | OAngles a d => SetAngles v a d | ORotate a d => RotateAngles v a d | OStd s => SetStdDev v s | ORanges x y z => SetRanges v x y z
  | OX r => SetRangeX v r | OY r => SetRangeY v r | OZ r => SetRangeZ v r
  | OLimX l => LimitRangeX v l | OLimY l => LimitRangeY v l | OLimZ l => LimitRangeZ v l
  end.
(** the object after the call: a throwing call leaves it as it was *)
Definition object (v : variogram A) (o : setter) : variogram A := match set1 v o with Ok v' => v' | _ => v end.

End Setters.
Arguments setter A : clear implicits.

(** the index of the opposite lag *)
Definition mirror (n i : nat) : nat := ((n - i) mod n)%nat.

(** ** the smoothing kernel: the range along a grid axis is the largest projection of the three ranges onto it *)
Definition axis_x (main perp depth azi dp : R) : R :=
  Rmax (Rmax (Rabs (main * cos dp * cos azi)) (Rabs (perp * sin azi))) (Rabs (depth * sin dp * cos azi)).
Definition axis_y (main perp depth azi dp : R) : R :=
  Rmax (Rmax (Rabs (main * cos dp * sin azi)) (Rabs (perp * cos azi))) (Rabs (depth * sin dp * sin azi)).
Definition axis_z (main perp depth azi dp : R) : R :=
  Rmax (Rabs (main * sin dp)) (Rabs (depth * cos dp)).
