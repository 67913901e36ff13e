(** The variance of simulated 1D fields, in exact arithmetic. Expectations and white noise: S_Spectrum.v. *)
From Coq Require Import ZArith Bool String Reals Lra List.
From Verif Require Import Base Arith RealArith M_Variogram M_Dsfmt M_Random M_Field M_Api S_Api S_Spectrum P_UnitVar.
Import ListNotations.
Open Scope R_scope.

(** ** C81 *)
(** Variance one in every cell, whatever the padding. Missing from the full claim: the other types of variogram, for which it is false
    (below), and fields of two and three dimensions, for which C29 gives the excess as the clipped part of the spectrum. *)
Theorem C81_variance_1d_partial : forall (o : Z -> outcome Z) (cl : Z -> Z -> Z) (v : variogram (Rlib o cl)) (s : string) (main perp depth azi dp pw : R) nx n (dx sx : R),
  @CreateVariogram Rarith s main perp depth azi dp pw = Ok v -> 0 < main -> perp <> 0 -> depth <> 0 -> 0 < pw ->
  (vt v = EXPONENTIAL \/ vt v = SPHERICAL \/ vt v = CONSTANT \/ vt v = GENERAL_EXPONENTIAL /\ pw <= 1) ->
  (0 < n)%nat -> (nx <= n)%nat -> 99999 / 100000 <= sx ->
  forall (W : Type) (E : (W -> R) -> R) (noise : W -> list R), expectation E -> white E n noise ->
  exists field : W -> list R, (forall w, @field1d (Rlib o cl) v nx n dx sx (noise w) = Ok (field w) /\ length (field w) = nx) /\
    forall i, (i < nx)%nat -> E (fun w => nth i (field w) 0 * nth i (field w) 0) = 1.
Proof. exact (fun o cl v s main perp depth azi dp pw nx n dx sx HC Hm Hp Hd Hw => c81_convex o cl v s main perp depth azi dp pw HC Hm Hp Hd Hw nx n dx sx). Qed.
Print Assumptions C81_variance_1d_partial.
(** variogram('gaussian', 0.5, 3.6, 0.5, azimuth=90): three cells of size 1 are padded to 4 by default, and every cell has a variance of
    at least 1.047. *)
Theorem C81_default_padding_refuted : forall (o : Z -> outcome Z) (cl : Z -> Z -> Z), exists v : variogram (Rlib o cl),
  @CreateVariogram Rarith "gaussian" (1 / 2) (18 / 5) (1 / 2) 90 0 1 = Ok v /\
  (forall rec fuel t st, exists d : dims (Rlib o cl), d_nx d = 3%Z /\ d_dx d = 1 /\ fst (step rec fuel t (CSize v d) st) = Ok (VSizes [4%Z])) /\
  forall (W : Type) (E : (W -> R) -> R) (noise : W -> list R), expectation E -> white E 4 noise ->
  exists field : W -> list R, (forall w, @field1d (Rlib o cl) v 3 4 1 1 (noise w) = Ok (field w) /\ length (field w) = 3%nat) /\
    forall i, (i < 3)%nat -> 1 + 47 / 1000 <= E (fun w => nth i (field w) 0 * nth i (field w) 0).
Proof. exact c81_refuted. Qed.
Print Assumptions C81_default_padding_refuted.
Example UnitVar_case : forall (o : Z -> outcome Z) (cl : Z -> Z -> Z), exists v : variogram (Rlib o cl),
  @CreateVariogram Rarith "exponential" 10 20 5 30 0 1 = Ok v /\ vt v = EXPONENTIAL.
Proof.
  intros o cl. unfold CreateVariogram. change (Uppercase "exponential") with (Ok "EXPONENTIAL"%string). cbn [bind].
  eexists. split; reflexivity.
Qed.
