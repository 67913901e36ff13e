(** A call that meets the hypotheses of Properties_SizeF.v. *)
From Coq Require Import ZArith Bool Lia Reals Lra List String.
From Flocq Require Import Core IEEE754.BinarySingleNaN.
From Verif Require Import Base Arith FloatArith RealArith M_Variogram M_Padding M_FftSize M_Dsfmt M_Random M_Field M_Api S_Api S_Vario S_Random S_Sizes S_Room S_CorrF S_FieldF S_Damp S_SizeF P_Base P_NormF P_CorrF P_FftSize P_SizeF P_SizeF2 P_UnitF4.
Import ListNotations.
Open Scope R_scope.
Local Opaque new_generator genrand_uint32 init_gen_rand gen_rand_all.

Lemma pos300 : positive (Flit 300 0). Proof. assert (E : exactly (Flit 300 0) 300) by lit_t. apply (positive_lit _ 300 E). lra. Qed.
Lemma pos100 : positive (Flit 100 0). Proof. apply (positive_lit _ 100 v100). lra. Qed.
Lemma or_300 : or_main64 (Flit 300 0) (Flit (-1) 0) = Flit 300 0.
Proof. unfold or_main64. replace (Bltb (Flit (-1) 0) (Flit 0 0)) with true by (vm_compute; reflexivity). reflexivity. Qed.
Lemma size_case : forall m f rec fuel t st, let L := Flib m f (fun _ => Ok 0%Z) clog in let d := @mkDims L 12 (Flit 100 0) None None None None in
  exists v : variogram L, @CreateVariogram (Farith m) "spherical"%string (Flit 300 0) (Flit (-1) 0) (Flit (-1) 0) (Flit 0 0) (Flit 0 0) (Flit 15 1) = Ok v /\
  fst (step rec fuel t (CSize (L := L) v d) st) = Ok (@VSizes L [16%Z]) /\
  In ("spherical"%string, SPHERICAL) documented /\ positive (Flit 300 0) /\ positive (or_main64 (Flit 300 0) (Flit (-1) 0)) /\ plain_azimuth (Flit 0 0) /\
  good_lib L (2 ^ 28) /\ dim_asked d = 1%nat /\ positive (step64 d 0) /\ cells d 0 = 12%Z /\
  accepted (CAdvanced (L := L) v d (@mkAdv L None None None None None None)) /\ requested d (@mkAdv L None None None None None None) [16%Z] 0 = 16%Z.
Proof.
  intros m f rec fuel t st L d. destruct (km_sizes m f (fun _ => Ok 0%Z) clog rec fuel t st) as (v & _ & H & _ & S & _). exists v.
  pose proof pos300 as P300. pose proof pos100 as P100.
  split.
  { cbn [step fst option_map opt] in H. unfold omap in H.
    apply bind_Ok in H as (u & E & H). apply (f_equal (fun x => match x with Ok (VVariogram z) => z | _ => u end)) in H. cbn beta iota in H. subst u. exact E. }
  split; [exact S|]. split; [cbn; tauto|]. split; [exact P300|]. split; [rewrite or_300; exact P300|].
  split; [destruct l0 as [A B]; split; [exact A|left; exact B]|].
  split; [split; [intros x _; left; reflexivity|intros k Hk; apply exact_logs_good; apply Z.le_trans with (2 ^ 28)%Z; [apply Hk|discriminate]]|].
  split; [reflexivity|]. split; [exact P100|]. split; [reflexivity|].
  split; [|reflexivity]. cbn [accepted a_padx a_pady a_padz]. unfold dims_ok, given, size_ok. unfold d. cbn [d_nx d_ny d_nz]. repeat split; try discriminate; lia.
Qed.
