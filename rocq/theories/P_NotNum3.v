(** Zero or NaN cell sizes in any direction. *)
From Coq Require Import ZArith Bool Lia Reals Lra List String.
From Flocq Require Import Core IEEE754.BinarySingleNaN.
From Verif Require Import Base Arith FloatArith RealArith M_Variogram M_Padding M_FftSize M_Dsfmt M_Random M_Field M_Api S_Api S_Vario S_Random S_Sizes S_Room S_CorrF S_FieldF S_Damp S_SizeF S_Answer S_NotNum P_Base P_Api P_Accur11 P_Field P_SizeF P_SizeF2 P_Answer P_Answer2 P_NotNum P_NormF.
Import ListNotations.
Open Scope R_scope.
Local Opaque new_generator genrand_uint32 init_gen_rand gen_rand_all.
Section A.
Variables (m : libm) (f : fftlib) (o : Z -> outcome Z) (cl : Z -> Z -> Z).
Notation F := (Farith m).
Notation L := (Flib m f o cl).
Definition stops {T} (x : outcome T) : Prop := exists u, x = UB u.
Lemma stops_bind {T U} (x : outcome T) (k : T -> outcome U) : stops x -> stops (bind x k).
Proof. intros [u ->]. exists u. reflexivity. Qed.
Lemma stops_or {T U} (x : outcome T) (k : T -> outcome U) : (exists p, x = Ok p) \/ stops x -> (forall p, stops (k p)) -> stops (bind x k).
Proof. intros [[p ->]|H] K; [exact (K p)|apply stops_bind, H]. Qed.
Lemma pad_or (v : variogram F) n (r s : b64) : (exists p, @FindGaussianFieldPadding F v n r s = Ok p) \/ stops (@FindGaussianFieldPadding F v n r s).
Proof.
  unfold FindGaussianFieldPadding. match goal with |- context[to_int ?x] => destruct (to_int_or m x) as [[a ->]| ->] end; [|right; eexists; reflexivity]. cbn [bind].
  match goal with |- context[to_int ?x] => destruct (to_int_or m x) as [[b ->]| ->] end; [|right; eexists; reflexivity]. cbn [bind].
  destruct (_ =? _)%Z; [right|left]; eexists; reflexivity.
Qed.
Lemma pad_bad (v : variogram F) n (r s : b64) : zero_or_nan s -> stops (@FindGaussianFieldPadding F v n r s).
Proof. intros H. exists FloatToInt. apply pad_nofin, div_bad, H. Qed.
Lemma ndim_bad (v : variogram F) nx dx ny dy nz dz : zero_or_nan dx \/ ((1 < ny)%Z /\ zero_or_nan dy) \/ ((1 < ny)%Z /\ (1 < nz)%Z /\ zero_or_nan dz) -> stops (@FindNDimPadding F v nx dx ny dy nz dz).
Proof.
  intros H. unfold FindNDimPadding. cbv zeta. destruct H as [H|[[N H]|(N & N' & H)]].
  - destruct (ny <=? 1)%Z; [|destruct (nz <=? 1)%Z]; apply stops_bind, pad_bad, H.
  - replace (ny <=? 1)%Z with false by lia. destruct (nz <=? 1)%Z; (apply stops_or; [apply pad_or|]; intros p; apply stops_bind, pad_bad, H).
  - replace (ny <=? 1)%Z with false by lia. replace (nz <=? 1)%Z with false by lia. apply stops_or; [apply pad_or|]. intros p. apply stops_or; [apply pad_or|]. intros q. apply stops_bind, pad_bad, H.
Qed.
Lemma calls_end (v : variogram F) (d : dims L) : let ny := opt (d_ny d) 1%Z in let dy := opt (d_dy d) (Flit (-1) 0) in let nz := opt (d_nz d) 1%Z in let dz := opt (d_dz d) (Flit (-1) 0) in
  (forall dim, dim_asked d = dim -> forall ny' dy' nz' dz', (dim = 2%nat -> (1 < ny')%Z /\ dy' = dy) -> (dim = 3%nat -> (1 < ny')%Z /\ dy' = dy /\ (1 < nz')%Z /\ dz' = dz) ->
    (dim = 2%nat -> ny' = ny) -> (dim = 3%nat -> ny' = ny /\ nz' = nz) -> stops (@FindNDimPadding F v (d_nx d) (d_dx d) ny' dy' nz' dz')) ->
  forall c, needs_padding v d c -> accepted c -> forall rec fuel now st, exists u, fst (step rec fuel now c st) = UB u.
Proof.
  intros ny dy nz dz H c HC HA rec fuel now st. specialize (H _ eq_refl).
  assert (HD : exists a, args d = Ok a) by (apply args_ok; destruct HC as [->|[->|[a ->]]]; cbn [accepted] in HA; tauto). destruct HD as [x Ex].
  pose proof Ex as Ex'. apply args_inv in Ex' as [-> _].
  change (opt (d_ny d) 1%Z) with ny in Ex. change (opt (d_dy d) (lit L (-1) 0)) with dy in Ex. change (opt (d_nz d) 1%Z) with nz in Ex. change (opt (d_dz d) (lit L (-1) 0)) with dz in Ex.
  rewrite <- (dim_args d _ _ _ _ _ _ Ex) in H.
  assert (HF : stops (@FindNDimPadding F v (d_nx d) (d_dx d) ny dy nz dz)).
  { apply H; unfold dimension; destruct (ny <=? 1)%Z eqn:E1, (flt L dy (lit L 0 0)), (nz <=? 1)%Z eqn:E2, (flt L dz (lit L 0 0)); cbn [orb]; intros Q; try discriminate Q; repeat split; lia. }
  assert (HS : forall px py pz (sx sy sz : b64), stops (fst (do_simulate rec fuel now (L := L) v (d_nx d) (d_dx d) ny dy nz dz px py pz sx sy sz st))).
  { intros. unfold do_simulate. assert (S : stops (SimulateAny rec fuel (L := L) v (d_nx d) (d_dx d) ny dy nz dz px py pz sx sy sz (ensure_init rec now st))).
    { unfold SimulateAny. unfold dimension in *. destruct ((ny <=? 1)%Z || flt L dy (lit L 0 0))%bool eqn:B1; [|destruct ((nz <=? 1)%Z || flt L dz (lit L 0 0))%bool eqn:B2].
      - unfold Simulate1D, sizes1. apply stops_bind, stops_bind. apply H; intros Q; discriminate Q.
      - apply orb_false_elim in B1 as [B1 _]. unfold Simulate2D, sizes2. apply stops_bind, stops_bind. apply H; intros Q; [split; [lia|reflexivity]|discriminate Q|reflexivity|discriminate Q].
      - unfold Simulate3D, sizes3. apply stops_bind, stops_bind. exact HF. }
    destruct S as [u ->]. exists u. reflexivity. }
  destruct HC as [->|[->|[a ->]]]; cbn [step fst]; rewrite Ex.
  - cbn [bind]. unfold FindGridSizeAfterPadding, omap. apply stops_bind, stops_bind. exact HF.
  - apply HS.
  - cbn [accepted] in HA. destruct HA as [_ HA]. apply adv_args_ok in HA as [y Ey]. rewrite Ey. destruct y as [[[[[px py] pz] sx] sy] sz]. apply HS.
Qed.
Lemma dim_123 (d : dims L) : dim_asked d = 1%nat \/ dim_asked d = 2%nat \/ dim_asked d = 3%nat.
Proof. unfold dim_asked. repeat match goal with |- context[if ?b then _ else _] => destruct b end; auto. Qed.
Lemma bad_cell (v : variogram F) (d : dims L) i : (i < dim_asked d)%nat -> zero_or_nan (step64 d i) ->
  forall c, needs_padding v d c -> accepted c -> forall rec fuel now st, exists u, fst (step rec fuel now c st) = UB u.
Proof.
  intros Hi HZ. apply (calls_end v d). intros dim <- ny dy nz dz H2 H3 _ _. apply ndim_bad.
  destruct i as [|[|[|i]]]; [left; exact HZ| | |destruct (dim_123 d) as [D|[D|D]]; lia].
  - right. left. destruct (dim_123 d) as [D|[D|D]]; [lia|destruct (H2 D) as (? & ->)|destruct (H3 D) as (? & -> & _)]; (split; [assumption|exact HZ]).
  - right. right. destruct (dim_123 d) as [D|[D|D]]; [lia|lia|]. destruct (H3 D) as (? & _ & ? & ->). split; [assumption|]. split; [assumption|exact HZ].
Qed.
Lemma pad_bad_range (v : variogram F) n (r s : b64) : nan_or_infinite r -> stops (@FindGaussianFieldPadding F v n r s).
Proof. intros H. exists FloatToInt. apply pad_nofin, bad_div, H. Qed.
Lemma max_inf (x : b64) : nan_or_infinite (@fmax F x (B754_infinity false)).
Proof. unfold fmax. change (flt F) with (@Bltb 53 1024). destruct x as [s|[]| |[] k e Hb]; cbn; [right|right|right|left|right|right]; reflexivity. Qed.
Lemma or_bad main (x : b64) : nan_or_infinite x -> or_main64 main x = x.
Proof. unfold or_main64. replace (Flit 0 0) with (B754_zero false : b64) by (apply B2SF_inj; vm_compute; reflexivity). intros [->| ->]; reflexivity. Qed.
Lemma bad_others s main perp depth azi dp pw (v : variogram F) : @CreateVariogram F s main perp depth azi dp pw = Ok v -> forall (d : dims L),
  ((2 <= dim_asked d)%nat /\ perp = B754_infinity false) \/ ((2 <= dim_asked d)%nat /\ perp = B754_nan /\ azi = Flit 0 0) \/ (dim_asked d = 3%nat /\ nan_or_infinite depth) ->
  forall c, needs_padding v d c -> accepted c -> forall rec fuel now st, exists u, fst (step rec fuel now c st) = UB u.
Proof.
  intros HC d HB. destruct (P_Accur11.created_F m _ _ _ _ _ _ _ v HC) as (q & E & _). set (t := vt v) in E. clearbody t. destruct (made m _ _ _ _ _ _ _ v HC) as (_ & Y & Z' & _).
  apply (calls_end v d). intros dim <- ny dy nz dz H2 H3 _ _.
  assert (N : (2 <= dim_asked d)%nat -> (ny <=? 1)%Z = false) by (intros G; destruct (dim_123 d) as [D|[D|D]]; [lia|destruct (H2 D)|destruct (H3 D)]; lia).
  unfold FindNDimPadding. cbv zeta. destruct HB as [[D ->]|[(D & -> & ->)|[D HB]]].
  - rewrite (N D). rewrite Y, (or_bad main (B754_infinity false)) by (right; reflexivity).
    destruct (nz <=? 1)%Z; apply stops_bind, pad_bad_range, max_inf.
  - rewrite (N D). rewrite Y, (or_bad main B754_nan) by (left; reflexivity).
    assert (A : feq F (azimuth v) (lit F 0 0) = true) by (rewrite E; vm_compute; reflexivity). rewrite A.
    destruct (nz <=? 1)%Z; (apply stops_or; [apply pad_or|]; intros p; apply stops_bind, pad_bad_range; left; reflexivity).
  - destruct (H3 D) as (_ & _ & Nz & _). rewrite N by lia. replace (nz <=? 1)%Z with false by lia.
    apply stops_or; [apply pad_or|]. intros p. apply stops_or; [apply pad_or|]. intros p'. apply stops_bind, pad_bad_range.
    rewrite Z', (or_bad main depth HB). exact HB.
Qed.
Lemma pad_too_long (v : variogram F) n (r s : b64) : positive s -> bpow radix2 31 * B2R s <= B2R r -> stops (@FindGaussianFieldPadding F v n r s).
Proof. intros P H. exists FloatToInt. apply pad_long; assumption. Qed.
Lemma long_others s main perp depth azi dp pw (v : variogram F) : @CreateVariogram F s main perp depth azi dp pw = Ok v -> positive main -> positive (or_main64 main perp) -> forall (d : dims L),
  ((2 <= dim_asked d)%nat /\ exists i, (i < 2)%nat /\ positive (step64 d i) /\ bpow radix2 31 * B2R (step64 d i) <= B2R (or_main64 main perp)) \/
  (dim_asked d = 3%nat /\ positive (step64 d 2) /\ bpow radix2 31 * B2R (step64 d 2) <= B2R (or_main64 main depth)) ->
  forall c, needs_padding v d c -> accepted c -> forall rec fuel now st, exists u, fst (step rec fuel now c st) = UB u.
Proof.
  intros HC Hm Hp d HB. destruct (made m _ _ _ _ _ _ _ v HC) as (X & Y & Z' & _). destruct (max_F m _ _ Hm Hp) as [PM VM].
  pose proof (Rmax_r (B2R main) (B2R (or_main64 main perp))) as MR.
  apply (calls_end v d). intros dim <- ny dy nz dz H2 H3 _ _.
  assert (N : (2 <= dim_asked d)%nat -> (ny <=? 1)%Z = false /\ dy = step64 d 1) by (intros G; destruct (dim_123 d) as [D|[D|D]]; [lia|destruct (H2 D)|destruct (H3 D) as (? & ? & _)]; (split; [lia|assumption])).
  unfold FindNDimPadding. cbv zeta. rewrite X, Y, Z'. destruct HB as [(D & i & Hi & Hs & HB)|(D & Hs & HB)].
  - destruct (N D) as [-> ->]. destruct i as [|[|i]]; [..|lia].
    + destruct (nz <=? 1)%Z; apply stops_bind, pad_too_long; try exact Hs; rewrite VM; change (step64 d 0) with (d_dx d) in HB; lra.
    + destruct (nz <=? 1)%Z; (apply stops_or; [apply pad_or|]; intros p; apply stops_bind, pad_too_long; [exact Hs|]; destruct (feq F _ _); [exact HB|rewrite VM; lra]).
  - destruct (H3 D) as (_ & _ & Nz & ->). destruct (N ltac:(lia)) as [-> _]. replace (nz <=? 1)%Z with false by lia.
    apply stops_or; [apply pad_or|]. intros p. apply stops_or; [apply pad_or|]. intros p'. apply stops_bind, pad_too_long; assumption.
Qed.
Lemma too_many (v : variogram F) n (r s : b64) : within (-8) 8 (@GetMinimumRangeToGridRatio F v) -> positive r -> positive s -> (2 ^ 32 <= n)%Z -> B2R r <= bpow radix2 27 * B2R s ->
  stops (@FindGaussianFieldPadding F v n r s).
Proof. intros H P Q N R. exists FloatToInt. apply pad_many; assumption. Qed.
Lemma many_others s main perp depth azi dp pw (v : variogram F) : @CreateVariogram F s main perp depth azi dp pw = Ok v -> sensible_power pw ->
  positive main -> positive (or_main64 main perp) -> positive (or_main64 main depth) -> forall (d : dims L) i, (0 < i < dim_asked d)%nat -> positive (step64 d i) -> (2 ^ 32 <= cells d i)%Z ->
  longest (B2R main) (B2R (or_main64 main perp)) (B2R (or_main64 main depth)) (dim_asked d) i <= bpow radix2 27 * B2R (step64 d i) ->
  forall c, needs_padding v d c -> accepted c -> forall rec fuel now st, exists u, fst (step rec fuel now c st) = UB u.
Proof.
  intros HC HW Hm Hp Hd d i Hi Hs HN HB. destruct (made m _ _ _ _ _ _ _ v HC) as (X & Y & Z' & HR). specialize (HR HW). destruct (max_F m _ _ Hm Hp) as [PM VM].
  pose proof (Rmax_r (B2R main) (B2R (or_main64 main perp))) as MR.
  apply (calls_end v d). intros dim <- ny dy nz dz H2 H3 E2 E3. unfold FindNDimPadding. cbv zeta. rewrite X, Y, Z'.
  assert (N : (ny <=? 1)%Z = false /\ dy = step64 d 1 /\ ny = cells d 1).
  { destruct (dim_123 d) as [D|[D|D]]; [lia|destruct (H2 D) as [G1 G2]; pose proof (E2 D) as G3|destruct (H3 D) as (G1 & G2 & _); destruct (E3 D) as [G3 _]]; (split; [apply Z.leb_gt; exact G1|split; [exact G2|exact G3]]). }
  destruct N as (-> & -> & ->). destruct i as [|[|[|i]]]; [lia| | |destruct (dim_123 d) as [D|[D|D]]; lia].
  - cbn [longest] in HB. destruct (nz <=? 1)%Z; (apply stops_or; [apply pad_or|]; intros p; apply stops_bind, too_many; try assumption; destruct (feq F _ _); try assumption; rewrite ?VM; lra).
  - assert (D : dim_asked d = 3%nat) by (destruct (dim_123 d) as [D|[D|D]]; lia). destruct (H3 D) as (_ & _ & Nz & ->). destruct (E3 D) as [_ ->].
    match goal with |- context[(?a <=? 1)%Z] => replace (a <=? 1)%Z with false by lia end.
    apply stops_or; [apply pad_or|]. intros p. apply stops_or; [apply pad_or|]. intros p'. apply stops_bind, too_many; assumption.
Qed.
End A.
