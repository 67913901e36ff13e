(** When simulation_size and the simulations have an answer, as calls. *)
From Coq Require Import ZArith Bool Lia Reals Lra List String.
From Flocq Require Import Core IEEE754.BinarySingleNaN.
From Verif Require Import Base Arith FloatArith RealArith M_Variogram M_Padding M_FftSize M_Dsfmt M_Random M_Field M_Api S_Api S_Vario S_Random S_Sizes S_Room S_CorrF S_FieldF S_Damp S_SizeF S_Answer P_Base P_Api P_NormF P_FieldF P_CorrF P_Field P_Accur11 P_Args P_SizeF P_SizeF2 P_Answer.
Import ListNotations.
Open Scope R_scope.
Local Opaque new_generator genrand_uint32 init_gen_rand gen_rand_all.
Lemma bind_ex {A B} (x : outcome A) (k : A -> outcome B) a : x = Ok a -> (exists l, k a = Ok l) -> exists l, bind x k = Ok l.
Proof. intros ->. exact (fun H => H). Qed.
Section A.
Variables (m : libm) (f : fftlib) (o : Z -> outcome Z) (cl : Z -> Z -> Z).
Notation F := (Farith m).
Notation L := (Flib m f o cl).
Lemma made s main perp depth azi dp pw (v : variogram F) : @CreateVariogram F s main perp depth azi dp pw = Ok v ->
  range_x v = main /\ range_y v = or_main64 main perp /\ range_z v = or_main64 main depth /\ (sensible_power pw -> within (-8) 8 (@GetMinimumRangeToGridRatio F v)).
Proof.
  intros HC. destruct (created_F m s main perp depth azi dp pw v HC) as (pw' & Ev & NT & _ & _ & G).
  fold (or_main64 main perp) in Ev. fold (or_main64 main depth) in Ev.
  split; [rewrite Ev; reflexivity|]. split; [rewrite Ev; reflexivity|]. split; [rewrite Ev; reflexivity|].
  clear Ev. intros P. apply ratio_in; [exact NT|]. intros T. rewrite (G T). exact P.
Qed.
Lemma answers s main perp depth azi dp pw (v : variogram F) : @CreateVariogram F s main perp depth azi dp pw = Ok v -> sensible_power pw ->
  positive main -> positive (or_main64 main perp) -> positive (or_main64 main depth) ->
  forall (d : dims L), accepted (CSize (L := L) v d) ->
  (forall i, (i < directions d)%nat -> plain_step (step64 d i) /\ (cells d i <= 2 ^ 30)%Z /\
    longest (B2R main) (B2R (or_main64 main perp)) (B2R (or_main64 main depth)) (directions d) i <= bpow radix2 27 * B2R (step64 d i)) ->
  forall rec fuel now st, exists ns, fst (step rec fuel now (CSize (L := L) v d) st) = Ok (VSizes ns).
Proof.
  intros HC Hpw Hm Hp Hd d HA HI rec fuel now st. destruct (made _ _ _ _ _ _ _ _ HC) as (X1 & X2 & X3 & HR). specialize (HR Hpw). destruct (max_F m _ _ Hm Hp) as [PM VM].
  cbn [accepted] in HA. apply args_ok in HA as [x Ex]. cbn [step fst]. rewrite Ex. apply args_inv in Ex as [-> (S0 & S1 & S2)]. unfold size_ok in *. cbn [bind].
  assert (P : exists l, @FindNDimPadding F v (d_nx d) (d_dx d) (opt (d_ny d) 1%Z) (opt (d_dy d) (Flit (-1) 0)) (opt (d_nz d) 1%Z) (opt (d_dz d) (Flit (-1) 0)) = Ok l).
  { assert (PY : forall b : bool, positive (if b then or_main64 main perp else @fmax F main (or_main64 main perp)) /\
      B2R (if b then or_main64 main perp else @fmax F main (or_main64 main perp)) <= Rmax (B2R main) (B2R (or_main64 main perp))).
    { intros []; (split; [assumption|]); [apply Rmax_r|rewrite VM; apply Rle_refl]. }
    assert (CN : forall i, (0 <= cells d i)%Z) by (intros [|[|[|i]]]; unfold cells; cbn [nth]; [lia|lia|lia|destruct i; lia]).
    assert (Q : forall i r, (i < directions d)%nat -> positive r -> B2R r <= longest (B2R main) (B2R (or_main64 main perp)) (B2R (or_main64 main depth)) (directions d) i ->
      exists p, @FindGaussianFieldPadding F v (cells d i) r (step64 d i) = Ok p).
    { intros i r Hi Pr Hr. destruct (HI i Hi) as (A & B & C). specialize (CN i). apply (pad_ok m); [exact HR|exact Pr|exact A|lia|lra]. }
    clear HI CN. unfold FindNDimPadding. rewrite X1, X2, X3. generalize (feq F (azimuth v) (lit F 0 0)). intros b. destruct (PY b) as [PB VB].
    unfold directions in Q. destruct (opt (d_ny d) 1 <=? 1)%Z.
    - destruct (Q 0%nat main ltac:(lia) Hm (Rle_refl _)) as [p Ep]. cbn [cells step64 nth] in Ep. unfold cells, step64 in Ep. cbn [nth] in Ep. apply (bind_ex _ _ _ Ep). eauto.
    - destruct (opt (d_nz d) 1 <=? 1)%Z; cbv zeta.
      + destruct (Q 0%nat _ ltac:(lia) PM (Req_le _ _ VM)) as [p Ep]. destruct (Q 1%nat _ ltac:(lia) PB VB) as [q Eq]. unfold cells, step64 in Ep, Eq. cbn [nth] in Ep, Eq. apply (bind_ex _ _ _ Ep). apply (bind_ex _ _ _ Eq). eauto.
      + destruct (Q 0%nat _ ltac:(lia) PM (Req_le _ _ VM)) as [p Ep]. destruct (Q 1%nat _ ltac:(lia) PB VB) as [q Eq]. destruct (Q 2%nat _ ltac:(lia) Hd (Rle_refl _)) as [r Er]. unfold cells, step64 in Ep, Eq, Er. cbn [nth] in Ep, Eq, Er. apply (bind_ex _ _ _ Ep). apply (bind_ex _ _ _ Eq). apply (bind_ex _ _ _ Er). eauto. }
  destruct P as [l El]. unfold FindGridSizeAfterPadding. change (@FindNDimPadding L) with (@FindNDimPadding F). change (lit L (-1) 0) with (Flit (-1) 0). rewrite El. cbn [bind omap]. eauto.
Qed.
Lemma long_stops s main perp depth azi dp pw (v : variogram F) : @CreateVariogram F s main perp depth azi dp pw = Ok v ->
  positive main -> positive (or_main64 main perp) -> forall (d : dims L), positive (d_dx d) -> bpow radix2 31 * B2R (d_dx d) <= B2R main ->
  forall c, needs_padding v d c -> accepted c -> forall rec fuel now st, fst (step rec fuel now c st) = UB FloatToInt.
Proof.
  intros HC Hm Hp d Hx HL c HN HA. destruct (made _ _ _ _ _ _ _ _ HC) as (X1 & X2 & _). destruct (max_F m _ _ Hm Hp) as [PM VM].
  apply (calls_stop m f o cl v d c HN HA). intros ny dy nz dz _. apply ndim_x; [|intros _]; rewrite X1, ?X2; apply pad_long; try assumption.
  rewrite VM. pose proof (Rmax_l (B2R main) (B2R (or_main64 main perp))). lra.
Qed.
Lemma many_stop s main perp depth azi dp pw (v : variogram F) : @CreateVariogram F s main perp depth azi dp pw = Ok v -> sensible_power pw ->
  positive main -> positive (or_main64 main perp) -> forall (d : dims L), positive (d_dx d) -> (2 ^ 32 <= d_nx d)%Z ->
  Rmax (B2R main) (B2R (or_main64 main perp)) <= bpow radix2 27 * B2R (d_dx d) ->
  forall c, needs_padding v d c -> accepted c -> forall rec fuel now st, fst (step rec fuel now c st) = UB FloatToInt.
Proof.
  intros HC Hpw Hm Hp d Hx HL HM c HN HA. destruct (made _ _ _ _ _ _ _ _ HC) as (X1 & X2 & _ & HR). destruct (max_F m _ _ Hm Hp) as [PM VM].
  apply (calls_stop m f o cl v d c HN HA). intros ny dy nz dz _. apply ndim_x; [|intros _]; rewrite X1, ?X2; apply pad_many; auto; [|rewrite VM; exact HM].
  pose proof (Rmax_l (B2R main) (B2R (or_main64 main perp))). lra.
Qed.
End A.
Lemma pos_z z x : exactly x (IZR z) -> (0 < z)%Z -> positive x.
Proof. intros E H. apply (positive_lit _ _ E). apply (IZR_lt 0). exact H. Qed.
Lemma e1 : exactly (Flit 1 0) 1. Proof. exact l1. Qed.
Lemma e3g : exactly (Flit 3000000000 0) 3000000000. Proof. lit_t. Qed.
Lemma e300 : exactly (Flit 300 0) 300. Proof. lit_t. Qed.
Lemma or_neg (x : b64) : or_main64 x (Flit (-1) 0) = x.
Proof. unfold or_main64. replace (Bltb (Flit (-1) 0) (Flit 0 0)) with true by (vm_compute; reflexivity). reflexivity. Qed.
