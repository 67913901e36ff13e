(** Model of src/nrlib/variogram/variogram.{hpp,cpp}, variogramtypes.{hpp,cpp},
    src/gaussfft.cpp CreateVariogram, and Uppercase of src/nrlib/iotools/stringtools.cpp. *)
From Coq Require Import ZArith List String Ascii Bool.
From Verif Require Import Base Arith.
Open Scope num_scope.

(** variogram.hpp:39, enum Type (N_TYPES, which names no variogram, is kept as [N_TYPES]). *)
Inductive vtype : Set :=
| CONSTANT | EXPONENTIAL | SPHERICAL | GAUSSIAN | GENERAL_EXPONENTIAL
| MATERN32 | MATERN52 | MATERN72 | N_TYPES.

Section Variogram.
Context {A : Arith}.
Notation num := (num A).
Notation lit := (lit A).

(** variogram.hpp:128-142, members of Variogram; [vt] stands for the dynamic class and
    [vpower] for GenExpVario::power_ (variogramtypes.hpp:186; meaningless in the other classes). *)
Record variogram := mkVariogram {
  vt : vtype;
  vpower : num;
  range_x : num; range_y : num; range_z : num;
  azimuth : num; dip : num;
  var : num;
  txx : num; tyy : num; tzz : num; txy : num; txz : num; tyz : num
}.

(** variogram.cpp:239-269, Variogram::EstimateFactors. The order of the operations is that of the source
    (C++ evaluates a*b*c as (a*b)*c). *)
Definition EstimateFactors (v : variogram) : variogram :=
  let cosRot := fcos A (azimuth v) in
  let sinRot := fsin A (azimuth v) in
  let cosDip := fcos A (dip v) in
  let sinDip := fsin A (dip v) in
  let fac1 := lit 1 0 / (range_x v * range_x v) in
  let fac2 := lit 1 0 / (range_y v * range_y v) in
  let fac3 := lit 1 0 / (range_z v * range_z v) in
  {| vt := vt v; vpower := vpower v;
     range_x := range_x v; range_y := range_y v; range_z := range_z v;
     azimuth := azimuth v; dip := dip v; var := var v;
     txx := cosRot*cosRot*cosDip*cosDip*fac1
            + sinRot*sinRot*fac2
            + cosRot*cosRot*sinDip*sinDip*fac3;
     tyy := sinRot*sinRot*cosDip*cosDip*fac1
            + cosRot*cosRot*fac2
            + sinRot*sinRot*sinDip*sinDip*fac3;
     tzz := sinDip*sinDip*fac1 + cosDip*cosDip*fac3;
     txy := lit 2 0 * (cosDip*cosDip*cosRot*sinRot*fac1
            - sinRot*cosRot*fac2
            + sinDip*sinDip*cosRot*sinRot*fac3);
     txz := lit 2 0 * (cosRot*cosDip*sinDip*fac1
            - cosRot*cosDip*sinDip*fac3);
     tyz := lit 2 0 * (sinRot*cosDip*sinDip*fac1
            - sinRot*cosDip*sinDip*fac3) |}.

(** variogram.cpp:32-46 constructor, via the class constructors variogramtypes.cpp:26-124. The
    anisotropy members are uninitialised before EstimateFactors; they are overwritten, so zeros stand in. *)
Definition new_variogram (t : vtype) (power rx ry rz azi dp std : num) : variogram :=
  let z := lit 0 0 in
  EstimateFactors
    {| vt := t; vpower := power; range_x := rx; range_y := ry; range_z := rz;
       azimuth := azi; dip := dp; var := std * std;
       txx := z; tyy := z; tzz := z; txy := z; txz := z; tyz := z |}.

(** variogram.cpp:61-90, Variogram::Create. power is passed to GenExpVario only
    (variogram.cpp:74-75); the other classes have no such member, which the model fills with 0. *)
Definition Create (t : vtype) (power rx ry rz azi dp std : num) : outcome variogram :=
  match t with
  | EXPONENTIAL => Ok (new_variogram EXPONENTIAL (lit 0 0) rx ry rz azi dp std)
  | SPHERICAL => Ok (new_variogram SPHERICAL (lit 0 0) rx ry rz azi dp std)
  | GAUSSIAN => Ok (new_variogram GAUSSIAN (lit 0 0) rx ry rz azi dp std)
  | GENERAL_EXPONENTIAL => Ok (new_variogram GENERAL_EXPONENTIAL power rx ry rz azi dp std)
  | CONSTANT => Ok (new_variogram CONSTANT (lit 0 0) rx ry rz azi dp std)
  | MATERN32 => Ok (new_variogram MATERN32 (lit 0 0) rx ry rz azi dp std)
  | MATERN52 => Ok (new_variogram MATERN52 (lit 0 0) rx ry rz azi dp std)
  | MATERN72 => Ok (new_variogram MATERN72 (lit 0 0) rx ry rz azi dp std)
  | N_TYPES => Throw UnknownType
  end.

(** variogram.hpp:118-126, Distance in 3D, 2D, 1D *)
Definition Distance3 (v : variogram) (dx dy dz : num) : num :=
  fsqrt A (txx v*dx*dx + tyy v*dy*dy + tzz v*dz*dz + txy v*dx*dy
           + txz v*dx*dz + tyz v*dy*dz).
Definition Distance2 (v : variogram) (dx dy : num) : num :=
  fsqrt A (txx v*dx*dx + tyy v*dy*dy + txy v*dx*dy).
Definition Distance1 (v : variogram) (dx : num) : num :=
  fsqrt A (txx v*dx*dx).

(** variogramtypes.hpp Corr1D: 58 (Const), 87-88 (Exp), 116-120 (Sph), 149-150 (Gau), 182-183 (GenExp),
    212-215, 243-246, 274-277 (Matern). *)
Definition Corr1D (v : variogram) (dist : num) : num :=
  match vt v with
  | CONSTANT => lit 1 0
  | EXPONENTIAL => fexp A (lit (-3) 0 * dist)
  | SPHERICAL =>
      if dist <? lit 1 0
      then lit 1 0 - dist * (lit 15 1 - (lit 5 1 * dist * dist))
      else lit 0 0
  | GAUSSIAN => fexp A (lit (-3) 0 * dist * dist)
  | GENERAL_EXPONENTIAL => fexp A (lit (-3) 0 * fpow A dist (vpower v))
  | MATERN32 =>
      let sd := lit 4744 3 * dist in
      fexp A (- sd) * (lit 1 0 + sd)
  | MATERN52 =>
      let sd := lit 5918 3 * dist in
      fexp A (- sd) * (lit 1 0 + sd + sd * sd / lit 3 0)
  | MATERN72 =>
      let sd := lit 6877 3 * dist in
      fexp A (- sd) * (lit 1 0 + sd + lit 2 0 / lit 5 0 * fpow A sd (lit 2 0)
                       + fpow A sd (lit 3 0) / lit 15 0)
  | N_TYPES => lit 0 0   (* no such object exists *)
  end.

(** variogramtypes.hpp:56,85,114,147,180,210,241,272 GetMinimumRangeToGridRatio *)
Definition GetMinimumRangeToGridRatio (v : variogram) : num :=
  match vt v with
  | CONSTANT => lit 1 0
  | EXPONENTIAL => lit 233 2
  | SPHERICAL => lit 192 2
  | GAUSSIAN => lit 667 2
  | GENERAL_EXPONENTIAL => lit 4 0 + (vpower v - lit 15 1) * lit 534 2
  | MATERN32 => lit 4 0
  | MATERN52 => lit 476 2
  | MATERN72 => lit 526 2
  | N_TYPES => lit 0 0   (* no such object exists *)
  end.

(** variogram.cpp:203-221 *)
Definition GetCorr3 v dx dy dz := Corr1D v (Distance3 v dx dy dz).
Definition GetCorr2 v dx dy := Corr1D v (Distance2 v dx dy).
Definition GetCorr1 v dx := Corr1D v (Distance1 v dx).

(** variogram.hpp:95-100 *)
Definition GetCov3 v dx dy dz := var v * GetCorr3 v dx dy dz.
Definition GetCov2 v dx dy := var v * GetCorr2 v dx dy.
Definition GetCov1 v dx := var v * GetCorr1 v dx.

(** variogram.cpp:224-237 *)
Definition GetVariogram3 v dx dy dz := var v * (lit 1 0 - GetCorr3 v dx dy dz).
Definition GetVariogram2 v dx dy := var v * (lit 1 0 - GetCorr2 v dx dy).
Definition GetVariogram1 v dx := var v * (lit 1 0 - GetCorr1 v dx).

(** variogram.hpp:60 *)
Definition GetStdDev v := fsqrt A (var v).

(** ** Setters, variogram.cpp:103-200. A setter either throws, leaving the object as it was, or
    yields the new object. *)
Definition set_params (v : variogram) (rx ry rz azi dp va : num) : variogram :=
  {| vt := vt v; vpower := vpower v; range_x := rx; range_y := ry; range_z := rz;
     azimuth := azi; dip := dp; var := va;
     txx := txx v; tyy := tyy v; tzz := tzz v; txy := txy v; txz := txz v; tyz := tyz v |}.

(** 103-108 *)
Definition SetAngles v azi dp : outcome variogram :=
  Ok (EstimateFactors (set_params v (range_x v) (range_y v) (range_z v) azi dp (var v))).
(** 116-120 *)
Definition RotateAngles v azi dp : outcome variogram :=
  Ok (EstimateFactors (set_params v (range_x v) (range_y v) (range_z v)
                                  (azimuth v + azi) (dip v + dp) (var v))).
(** 129-131 *)
Definition SetStdDev v std : outcome variogram :=
  Ok (set_params v (range_x v) (range_y v) (range_z v) (azimuth v) (dip v) (std * std)).
(** 147-155 *)
Definition SetRanges v rx ry rz : outcome variogram :=
  if (rx <=? lit 0 0) || (ry <=? lit 0 0) || (rz <=? lit 0 0) then Throw NegativeRange
  else Ok (EstimateFactors (set_params v rx ry rz (azimuth v) (dip v) (var v))).
(** 157-164 *)
Definition SetRangeX v r : outcome variogram :=
  if r <=? lit 0 0 then Throw NegativeRange
  else Ok (EstimateFactors (set_params v r (range_y v) (range_z v) (azimuth v) (dip v) (var v))).
(** 166-173 *)
Definition SetRangeY v r : outcome variogram :=
  if r <=? lit 0 0 then Throw NegativeRange
  else Ok (EstimateFactors (set_params v (range_x v) r (range_z v) (azimuth v) (dip v) (var v))).
(** 175-182 *)
Definition SetRangeZ v r : outcome variogram :=
  if r <=? lit 0 0 then Throw NegativeRange
  else Ok (EstimateFactors (set_params v (range_x v) (range_y v) r (azimuth v) (dip v) (var v))).
(** 184-200 *)
Definition LimitRangeX v limit : outcome variogram :=
  if fgt (range_x v) limit then SetRangeX v limit else Ok v.
Definition LimitRangeY v limit : outcome variogram :=
  if fgt (range_y v) limit then SetRangeY v limit else Ok v.
Definition LimitRangeZ v limit : outcome variogram :=
  if fgt (range_z v) limit then SetRangeZ v limit else Ok v.

End Variogram.
Arguments variogram A : clear implicits.

(** ** Type names *)

(** toupper of <cctype> in the "C" locale, on char codes 0..127. Codes of 128 and more are
    negative chars on the platforms built for, for which toupper(int) is undefined. *)
Definition toupper (c : ascii) : outcome ascii :=
  let n := nat_of_ascii c in
  if (128 <=? n)%nat then UB BadChar
  else if ((97 <=? n) && (n <=? 122))%nat then Ok (ascii_of_nat (n - 32))
  else Ok c.

(** stringtools.cpp Uppercase: toupper on every character. *)
Fixpoint Uppercase (s : string) : outcome string :=
  match s with
  | EmptyString => Ok EmptyString
  | String c s =>
      let* c' := toupper c in
      let* s' := Uppercase s in
      Ok (String c' s')
  end.

(** gaussfft.cpp:71-90 *)
Definition type_of_name (utype : string) : vtype :=
  if String.eqb utype "CONSTANT" then CONSTANT
  else if String.eqb utype "EXPONENTIAL" then EXPONENTIAL
  else if String.eqb utype "GAUSSIAN" then GAUSSIAN
  else if String.eqb utype "GENERAL_EXPONENTIAL" then GENERAL_EXPONENTIAL
  else if String.eqb utype "MATERN32" then MATERN32
  else if String.eqb utype "MATERN52" then MATERN52
  else if String.eqb utype "MATERN72" then MATERN72
  else if String.eqb utype "SPHERICAL" then SPHERICAL
  else SPHERICAL.

(** src/nrlib/math/constants.cpp: Degree = 0.01745329251994329576924 *)
Definition Degree {A : Arith} : num A := lit A 1745329251994329576924 23.

(** gaussfft.cpp:55-93, GaussFFT::CreateVariogram *)
Definition CreateVariogram {A : Arith} (type : string)
    (range_x range_y range_z azimuth_angle dip_angle power : num A) : outcome (variogram A) :=
  let range_y := if range_y <? lit A 0 0 then range_x else range_y in
  let range_z := if range_z <? lit A 0 0 then range_x else range_z in
  let azimuth_angle := azimuth_angle * Degree in
  let dip_angle := dip_angle * Degree in
  let* utype := Uppercase type in
  Create (type_of_name utype) power range_x range_y range_z azimuth_angle dip_angle (lit A 1 0).
