(** Vocabulary for special variograms and changes of units. *)
From Coq Require Import ZArith List Bool Reals.
From Verif Require Import Base Arith RealArith M_Variogram M_FftSize M_Dsfmt M_Random M_Field M_Api S_Api S_Sizes.
Import ListNotations.
Open Scope R_scope.

Definition total (xs : list R) : R := fold_right Rplus 0 xs.

(** No smoothing: every smoothing argument is left out or at least 0.99999. *)
Definition unsmoothed {o cl} (a : adv (Rlib o cl)) : Prop :=
  forall s : R, In (Some s) [a_sx a; a_sy a; a_sz a] -> 99999 / 100000 <= s.

(** In every direction the padded grid has room for the cells asked for. *)
Definition grid_fits {L : Lib} (d : dims L) (a : adv L) (ns : list Z) : Prop :=
  forall i, (i < dim_asked d)%nat -> exists n, grid_used d a ns i = Ok n /\ (0 < n)%Z /\ (cells d i <= n)%Z.

(** The padded grid: its sizes in the directions asked for, 1 in the others. *)
Definition padded {L : Lib} (d : dims L) (a : adv L) (ns : list Z) (i : nat) : nat :=
  if (i <? dim_asked d)%nat then match grid_used d a ns i with Ok n => Z.to_nat n | _ => 0%nat end else 1%nat.
Definition padded_cells {L : Lib} (d : dims L) (a : adv L) (ns : list Z) : nat :=
  (padded d a ns 0 * padded d a ns 1 * padded d a ns 2)%nat.

(** The generator a simulation draws from: in 3D the process-wide one, in 1D and 2D a new one seeded from it. *)
Definition source {L : Lib} (rec : recursion) (d : dims L) (g : dsfmt) : dsfmt :=
  if (dim_asked d =? 3)%nat then g else init_gen_rand (fst (genrand_uint32 rec g)).

(** The spacing in a direction (-1 when left out). *)
Definition step_of {o cl} (d : dims (Rlib o cl)) (i : nat) : R := nth i [d_dx d; opt (d_dy d) (-1); opt (d_dz d) (-1)] 0.

(** The same grid in other units of length. *)
Definition scale_dims {o cl} (k : R) (d : dims (Rlib o cl)) : dims (Rlib o cl) :=
  @mkDims (Rlib o cl) (d_nx d) (k * d_dx d) (d_ny d) (option_map (Rmult k) (d_dy d)) (d_nz d) (option_map (Rmult k) (d_dz d)).
(** A spacing is given in every direction with more than one cell. *)
Definition spaced {L : Lib} (d : dims L) : Prop :=
  ((opt (d_ny d) 1 <= 1)%Z \/ d_dy d <> None) /\ ((opt (d_nz d) 1 <= 1)%Z \/ d_dz d <> None).

(** variogram(type, k*main, k*perp, k*depth, ...) for variogram(type, main, perp, depth, ...) *)
Definition scale_call {o cl} (k : R) (c : call (Rlib o cl)) : call (Rlib o cl) :=
  match c with
  | CVariogram s main perp depth azi dp pw => @CVariogram (Rlib o cl) s (k * main) (option_map (Rmult k) perp) (option_map (Rmult k) depth) azi dp pw
  | _ => c
  end.
