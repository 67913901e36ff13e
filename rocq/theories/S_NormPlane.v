(** Vocabulary for areas of parts of the unit disc, in polar coordinates. *)
From Coq Require Import Reals.
From Coquelicot Require Import Coquelicot.
Open Scope R_scope.

(** The points (r, t) of E with a direction t between t1 and t2 take up the fraction a of the area of the unit disc: in each direction
    they fill, up to end points, the radii between lo t and hi t. *)
Definition share (E : R -> R -> Prop) (t1 t2 a : R) : Prop :=
  exists lo hi : R -> R,
    (forall t, t1 <= t <= t2 -> 0 <= lo t <= hi t /\ hi t <= 1 /\ forall r, 0 < r < 1 -> (lo t < r < hi t -> E r t) /\ (E r t -> lo t <= r <= hi t)) /\
    is_RInt (fun t => (hi t ^ 2 - lo t ^ 2) / 2 / PI) t1 t2 a.
