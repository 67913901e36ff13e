(** simulation_size in terms of the arguments of variogram(). *)
From Coq Require Import ZArith Bool Lia Reals Lra String List.
From Verif Require Import Base Arith RealArith M_Variogram M_Padding M_FftSize M_Dsfmt M_Random M_Field M_Api
  S_Api S_Sizes S_Room S_Vario S_Special P_Base P_Padding P_Vario P_VarioNames P_Special2.
Import ListNotations.
Open Scope R_scope.

Lemma degree_nz : @Degree Rarith <> 0.
Proof. unfold Degree. cbn [lit Rarith]. apply Rmult_integral_contrapositive_currified; [|apply Rinv_neq_0_compat]; apply not_0_IZR; discriminate. Qed.

Lemma size_named : forall (o : Z -> outcome Z) (cl : Z -> Z -> Z) s n t main perp depth azi dp pw (v : variogram (Rlib o cl)),
  @CreateVariogram Rarith s main perp depth azi dp pw = Ok v -> In (n, t) documented -> lower s = n ->
  0 < main -> 0 < or_main main perp -> 0 < or_main main depth ->
  forall rec fuel now (d : dims (Rlib o cl)) st ns,
  (forall i, (i < List.length ns)%nat -> 0 < step_of d i /\ (cells d i < 2 ^ 63)%Z) ->
  fst (step rec fuel now (CSize v d) st) = Ok (VSizes ns) ->
  List.length ns = (if (opt (d_ny d) 1 <=? 1)%Z then 1 else if (opt (d_nz d) 1 <=? 1)%Z then 2 else 3)%nat /\
  forall i, (i < List.length ns)%nat ->
    size_rule (grid_ratio t pw) (room_range main (or_main main perp) (or_main main depth) azi (List.length ns) i) (step_of d i) (cells d i) (nth i ns 0%Z).
Proof.
  intros o cl s n t main perp depth azi dp pw v HC Hin Hl Hm Hp Hd rec fuel now d st ns Hs H.
  split; [exact (size_length rec fuel now v d st ns H)|].
  pose proof (created_type _ _ _ _ _ _ _ _ _ _ HC Hin Hl) as HT.
  destruct (created_new _ _ _ _ _ _ _ _ HC) as (t' & pw' & Ev & _ & Hpw & Ht & _). rewrite HT in Ht. subst t'.
  assert (R : @GetMinimumRangeToGridRatio Rarith v = grid_ratio t pw).
  { assert (VP : t = GENERAL_EXPONENTIAL -> @vpower Rarith v = pw) by (intros E; rewrite <- (Hpw E), Ev; reflexivity).
    unfold GetMinimumRangeToGridRatio. rewrite HT. clear - VP. destruct t; cbn; try lra. rewrite VP by reflexivity. lra. }
  intros i Hi.
  pose proof (size_exact o cl rec fuel now v d st ns) as S.
  assert (X : range_x v = main /\ range_y v = or_main main perp /\ range_z v = or_main main depth /\ azimuth v = radians azi)
    by (rewrite Ev; repeat split).
  destruct X as (X1 & X2 & X3 & X4). rewrite X1, X2, X3 in S. specialize (S Hm Hp Hd Hs H i Hi).
  change (@GetMinimumRangeToGridRatio (Rlib o cl) v) with (@GetMinimumRangeToGridRatio Rarith v) in S. rewrite R in S.
  assert (U : range_used o cl v (List.length ns) i = room_range main (or_main main perp) (or_main main depth) azi (List.length ns) i).
  { unfold range_used, room_range. rewrite X1, X2, X3, X4. destruct i as [|[|i]]; auto.
    destruct (Req_EM_T (radians azi) 0) as [E|E], (Req_EM_T azi 0) as [E'|E']; auto; exfalso.
    - unfold radians in E. apply Rmult_integral in E as [E|E]; [auto|apply (degree_nz E)].
    - apply E. rewrite E'. unfold radians. ring. }
  rewrite U in S. exact S.
Qed.
