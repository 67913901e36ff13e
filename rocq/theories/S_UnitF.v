(** What is said about the unit of length in double precision. *)
From Coq Require Import ZArith List Bool Reals.
From Flocq Require Import Core IEEE754.BinarySingleNaN.
From Verif Require Import Base Arith FloatArith M_Variogram M_Api S_FieldF.
Import ListNotations.
Open Scope R_scope.

(** a length in other units, as a program would compute it: the double product *)
Definition rescale (k x : b64) : b64 := Bmult mode_NE k x.
(** a range or spacing between 2^-64 and 2^64, of either sign *)
Definition tame (x : b64) : Prop := is_finite x = true /\ bpow radix2 (-64) <= Rabs (B2R x) <= bpow radix2 64.
Definition tame_opt (x : option b64) : Prop := forall r, x = Some r -> tame r.
(** a lag: such a length, or zero *)
Definition tame_lag (x : b64) : Prop := is_finite x = true /\ (B2R x = 0 \/ bpow radix2 (-64) <= Rabs (B2R x) <= bpow radix2 64).
(** a sine or cosine as libm returns it: at most 1 in absolute value, and zero or not below 2^-100 *)
Definition tame_ratio (x : b64) : Prop := is_finite x = true /\ (B2R x = 0 \/ bpow radix2 (-100) <= Rabs (B2R x) <= 1).
(** the sines and cosines of an angle in degrees *)
Definition tame_angle (m : libm) (a : option b64) : Prop :=
  let x := Bmult mode_NE (opt a (Flit 0 0)) (@Degree (Farith m)) in tame_ratio (lm_sin m x) /\ tame_ratio (lm_cos m x).
(** the power, used by general_exponential only *)
Definition tame_power (p : option b64) : Prop := forall r, p = Some r -> is_finite r = true /\ bpow radix2 (-100) <= Rabs (B2R r) <= bpow radix2 100.

Section S.
Context {m : libm} {f : fftlib} {o : Z -> outcome Z} {cl : Z -> Z -> Z}.
Notation L := (Flib m f o cl).
(** the same grid, the same variogram in other units *)
Definition dims_in_unit (k : b64) (d : dims L) : dims L :=
  @mkDims L (d_nx d) (rescale k (d_dx d)) (d_ny d) (option_map (rescale k) (d_dy d)) (d_nz d) (option_map (rescale k) (d_dz d)).
Definition call_in_unit (k : b64) (c : call L) : call L :=
  match c with
  | CVariogram s main perp depth azi dp pw => @CVariogram L s (rescale k main) (option_map (rescale k) perp) (option_map (rescale k) depth) azi dp pw
  | _ => c
  end.
Definition tame_dims (d : dims L) : Prop := tame (d_dx d) /\ tame_opt (d_dy d) /\ tame_opt (d_dz d).
(** smoothing is off: every smoothing argument is left out or at least 0.99999 *)
Definition smoothing_off (a : adv L) : Prop :=
  forall s : b64, In (Some s) [a_sx a; a_sy a; a_sz a] -> is_finite s = true /\ 99999 / 100000 <= B2R s.
End S.
