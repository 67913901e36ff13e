(** A variogram made in doubles and the one made from the same arguments in exact arithmetic; the size of the rounding errors of fields. *)
From Coq Require Import ZArith Bool String List Reals.
From Flocq Require Import Core IEEE754.BinarySingleNaN.
From Verif Require Import Base Arith RealArith FloatArith M_Variogram S_Vario S_CorrF S_Accur S_FieldF.
Open Scope R_scope.

(** a math library whose functions round correctly *)
Definition rounds_well (m : libm) : Prop := fair m /\ trig_rounded m /\ exp_rounded m /\ pow_rounded m.
(** [v] and [w] are made by the same call of variogram(), in doubles and in exact arithmetic. Its ranges are of ordinary size, its
    power at most 2. [dl] is how far apart their correlations can be: 2^-46 if the angles are 0; otherwise, for angles of at most
    two turns and ranges of which none is more than k times another, k^2 * 2^-39. *)
Definition same_call (m : libm) (dl : R) (v : variogram (Farith m)) (w : variogram Rarith) : Prop :=
  exists (s : string) (main perp depth azi dp power : b64),
    @CreateVariogram (Farith m) s main perp depth azi dp power = Ok v /\
    @CreateVariogram Rarith s (B2R main) (B2R perp) (B2R depth) (B2R azi) (B2R dp) (B2R power) = Ok w /\
    is_finite power = true /\ 0 < B2R power <= 2 /\ ordinary main /\ ordinary_arg perp /\ ordinary_arg depth /\
    ((azi = Flit 0 0 /\ dp = Flit 0 0 /\ dl = bpow radix2 (-46)) \/
     (angle azi /\ angle dp /\
      exists k, 1 <= k <= 262144 /\ ratio_at_most k (B2R main) (or_main (B2R main) (B2R perp)) (or_main (B2R main) (B2R depth)) /\
        dl = k ^ 2 * bpow radix2 (-39))).
(** a cell size between 2^-100 and 2^60 *)
Definition cell (d : b64) : Prop := is_finite d = true /\ bpow radix2 (-100) <= B2R d <= bpow radix2 60.
(** how far the field of the noise [x] in doubles can be from the exact one, when the transforms have relative error [eps] and the
    table of covariances has error [dl]: about 2 * sqrt (N * (eps + dl)) times the length of the noise, N its number of cells *)
Definition fuzz (eps dl : R) (x : list b64) : R := 2 * (sqrt (INR (length x) * (eps + dl)) * len (vals x)) + bpow radix2 (-700).
