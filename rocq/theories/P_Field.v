(** Proofs about the simulate calls that hold for every arithmetic: lengths, order, padding and smoothing arguments. *)
From Coq Require Import ZArith List Bool Lia.
From Verif Require Import Base Arith M_Variogram M_Padding M_FftSize M_Grid M_CovGrid M_Fft M_Dsfmt M_Random M_Field M_Api
  S_Api P_Base P_Grid P_Api.
Import ListNotations.
Open Scope nat_scope.

Ltac ok H := apply bind_Ok in H.

Section P.
Context {L : Lib}.
Variable rec : recursion.
Variable fuel : nat.
Notation num := (num L).

(** ** Output stage *)
Lemma GetRealGrid2_spec ni nj nit (real out : list num) : GetRealGrid2 ni nj nit real = Ok out ->
  length out = ni * nj /\
  forall i j d, i < ni -> j < nj -> nth_error real (i + nit * j) = Some (nth (i + ni * j) out d).
Proof.
  unfold GetRealGrid2. intros H. apply bind_Ok in H as (ws & Hws & H).
  split.
  - rewrite (writes_length _ _ _ H), repeat_length. auto.
  - intros i j d Hi Hj. apply mapM_inv in Hws.
    assert (Hin : In (i, j) (list_prod (seq 0 ni) (seq 0 nj))) by (apply in_prod; apply in_seq; lia).
    apply In_nth_error in Hin as [n Hn].
    destruct (Forall2_nth _ _ _ _ _ Hws Hn) as ([ix x] & Hx & E). cbv beta iota in E.
    apply bind_Ok in E as (x' & E1 & E2). injection E2 as <- ->. apply rd_inv in E1. rewrite E1. f_equal.
    replace (i + ni * j) with (GetIndex2 ni i j) by (unfold GetIndex2; lia).
    destruct (writes_nth _ _ _ (GetIndex2 ni i j) d H) as [[Hn' _]|(a & Ha & E)].
    + destruct Hn'. apply nth_error_In in Hx. apply (in_map fst) in Hx. auto.
    + rewrite E. clear -Ha Hws Hi Hj E1.
      apply In_nth_error in Ha as [m Hm].
      assert (Hex : exists q, nth_error (list_prod (seq 0 ni) (seq 0 nj)) m = Some q).
      { pose proof (Forall2_len _ _ _ Hws) as Hl.
        assert (m < length ws) by (apply nth_error_Some; congruence).
        destruct (nth_error (list_prod (seq 0 ni) (seq 0 nj)) m) eqn:En; eauto.
        apply nth_error_None in En. lia. }
      destruct Hex as [[i' j'] Hq].
      destruct (Forall2_nth _ _ _ _ _ Hws Hq) as (y & Hy & Ey). rewrite Hm in Hy. injection Hy as <-.
      apply bind_Ok in Ey as (z & Ez & Ey). apply rd_inv in Ez.
      apply nth_error_In in Hq. apply in_prod_iff in Hq as [Q1 Q2]. apply in_seq in Q1, Q2.
      injection Ey as Eidx ->.
      apply GetIndex2_inj in Eidx; try lia. destruct Eidx as [-> ->]. congruence.
Qed.

Lemma GetRealGrid3_spec ni nj nk nit njt (real out : list num) : GetRealGrid3 ni nj nk nit njt real = Ok out ->
  length out = ni * nj * nk /\
  forall i j k d, i < ni -> j < nj -> k < nk ->
    nth_error real (i + nit * j + nit * njt * k) = Some (nth (i + ni * j + ni * nj * k) out d).
Proof.
  unfold GetRealGrid3. intros H. apply bind_Ok in H as (ws & Hws & H).
  split.
  - rewrite (writes_length _ _ _ H), repeat_length. auto.
  - intros i j k d Hi Hj Hk. apply mapM_inv in Hws.
    set (idx := list_prod (seq 0 ni) (list_prod (seq 0 nj) (seq 0 nk))) in *.
    assert (Hin : In (i, (j, k)) idx) by (repeat apply in_prod; apply in_seq; lia).
    apply In_nth_error in Hin as [n Hn].
    destruct (Forall2_nth _ _ _ _ _ Hws Hn) as ([ix x] & Hx & E). cbv beta iota in E.
    apply bind_Ok in E as (x' & E1 & E2). injection E2 as <- ->. apply rd_inv in E1. rewrite E1. f_equal.
    replace (i + ni * j + ni * nj * k) with (GetIndex3 ni nj i j k) by (unfold GetIndex3; lia).
    destruct (writes_nth _ _ _ (GetIndex3 ni nj i j k) d H) as [[Hn' _]|(a & Ha & E)].
    + destruct Hn'. apply nth_error_In in Hx. apply (in_map fst) in Hx. auto.
    + rewrite E. clear -Ha Hws Hi Hj E1.
      apply In_nth_error in Ha as [m Hm].
      assert (Hex : exists q, nth_error idx m = Some q).
      { pose proof (Forall2_len _ _ _ Hws) as Hl.
        assert (m < length ws) by (apply nth_error_Some; congruence).
        destruct (nth_error idx m) eqn:En; eauto.
        apply nth_error_None in En. lia. }
      destruct Hex as [[i' [j' k']] Hq].
      destruct (Forall2_nth _ _ _ _ _ Hws Hq) as (y & Hy & Ey). rewrite Hm in Hy. injection Hy as <-.
      apply bind_Ok in Ey as (z & Ez & Ey). apply rd_inv in Ez.
      apply nth_error_In in Hq. unfold idx in Hq. apply in_prod_iff in Hq as [Q1 Q2].
      apply in_prod_iff in Q2 as [Q2 Q3]. apply in_seq in Q1, Q2, Q3.
      injection Ey as Eidx ->.
      apply GetIndex3_inj in Eidx; try lia. destruct Eidx as (-> & -> & ->). congruence.
Qed.

(** ** C15 *)
Lemma field1d_length v nx nxp dx sx (noise out : list num) : field1d v nx nxp dx sx noise = Ok out -> length out = nx.
Proof.
  unfold field1d. intros H. ok H. destruct H as (? & _ & H). ok H. destruct H as (? & _ & H).
  ok H. destruct H as (? & _ & H). ok H. destruct H as (? & _ & H). ok H. destruct H as (? & _ & H).
  apply mapM_length in H. rewrite H, seq_length. auto.
Qed.
Lemma field2d_length v nx ny nxt nyt dx dy sx sy (noise out : list num) :
  field2d v nx ny nxt nyt dx dy sx sy noise = Ok out -> length out = nx * ny.
Proof.
  unfold field2d. intros H. ok H. destruct H as (? & _ & H). ok H. destruct H as (? & _ & H).
  do 5 (ok H; destruct H as (? & _ & H)).
  apply GetRealGrid2_spec in H. tauto.
Qed.
Lemma field3d_length v nx ny nz nxt nyt nzt dx dy dz sx sy sz (noise out : list num) :
  field3d v nx ny nz nxt nyt nzt dx dy dz sx sy sz noise = Ok out -> length out = nx * ny * nz.
Proof.
  unfold field3d. intros H. ok H. destruct H as (? & _ & H). ok H. destruct H as (? & _ & H).
  do 5 (ok H; destruct H as (? & _ & H)).
  apply GetRealGrid3_spec in H. tauto.
Qed.

Lemma sim_core_length (v : variogram L) nx dx ny dy nz dz px py pz sx sy sz d l d' k :
  sim_core rec fuel v nx dx ny dy nz dz px py pz sx sy sz d = Ok (l, d', k) ->
  length l = match dimension ny dy nz dz with
             | 1 => Z.to_nat nx
             | 2 => Z.to_nat nx * Z.to_nat ny
             | _ => Z.to_nat nx * Z.to_nat ny * Z.to_nat nz
             end.
Proof.
  unfold sim_core, SimulateAny.
  assert (Hdim : dimension ny dy nz dz = 1 \/ dimension ny dy nz dz = 2 \/ dimension ny dy nz dz = 3).
  { unfold dimension. destruct orb; auto. destruct orb; auto. }
  destruct Hdim as [-> | [-> | ->]].
  - intros H. unfold Simulate1D in H. rewrite new_generator_eq in H. ok H. destruct H as ([l1 st'] & H & E).
    ok H. destruct H as (? & _ & H). ok H. destruct H as (? & _ & H).
    ok H. destruct H as ([? ?] & _ & H). ok H. destruct H as (? & F & H).
    apply field1d_length in F. injection H as <- _. injection E as <- _ _. auto.
  - intros H. unfold Simulate2D in H. rewrite new_generator_eq in H. ok H. destruct H as ([l1 st'] & H & E).
    ok H. destruct H as ([? ?] & _ & H). ok H. destruct H as (? & _ & H). ok H. destruct H as (? & _ & H).
    ok H. destruct H as ([? ?] & _ & H). ok H. destruct H as (? & _ & H). ok H. destruct H as (? & F & H).
    apply field2d_length in F. injection H as <- _. injection E as <- _ _. auto.
  - intros H. unfold Simulate3D in H. ok H. destruct H as ([l1 st'] & H & E).
    ok H. destruct H as ([[? ?] ?] & _ & H). ok H. destruct H as (? & _ & H). ok H. destruct H as (? & _ & H).
    ok H. destruct H as (? & _ & H).
    ok H. destruct H as ([? ?] & _ & H). ok H. destruct H as (? & _ & H). ok H. destruct H as (? & F & H).
    apply field3d_length in F. injection H as <- _. injection E as <- _ _. auto.
Qed.

Lemma args_inv (d : dims L) x : args d = Ok x ->
  x = (d_nx d, d_dx d, opt (d_ny d) 1%Z, opt (d_dy d) (lit L (-1) 0), opt (d_nz d) 1%Z, opt (d_dz d) (lit L (-1) 0)) /\
  size_ok (d_nx d) /\ size_ok (opt (d_ny d) 1%Z) /\ size_ok (opt (d_nz d) 1%Z).
Proof.
  unfold args. intros H.
  apply bind_Ok in H as (? & H1 & H). apply bind_Ok in H as (? & H2 & H). apply bind_Ok in H as (? & H3 & H).
  apply as_size_inv in H1 as [? ->]. apply as_size_inv in H2 as [? ->]. apply as_size_inv in H3 as [? ->].
  injection H as <-. auto.
Qed.

Lemma adv_args_inv (a : adv L) x : adv_args a = Ok x ->
  x = (opt (a_padx a) (-1), opt (a_pady a) (-1), opt (a_padz a) (-1),
       opt (a_sx a) (lit L 1 0), opt (a_sy a) (lit L 1 0), opt (a_sz a) (lit L 1 0))%Z /\
  int_ok (opt (a_padx a) (-1)%Z) /\ int_ok (opt (a_pady a) (-1)%Z) /\ int_ok (opt (a_padz a) (-1)%Z).
Proof.
  unfold adv_args. intros H.
  apply bind_Ok in H as (? & H1 & H). apply bind_Ok in H as (? & H2 & H). apply bind_Ok in H as (? & H3 & H).
  apply as_int_inv in H1 as [? ->]. apply as_int_inv in H2 as [? ->]. apply as_int_inv in H3 as [? ->].
  injection H as <-. auto.
Qed.

Lemma result_length t (c : call L) st l s d : sim_dims c = Some d ->
  step rec fuel t c st = (Ok (VArray l), s) -> Z.of_nat (length l) = field_length d.
Proof.
  intros Hd H.
  assert (Hs : is_simulate c = true) by (destruct c; simpl in *; auto; discriminate).
  rewrite step_sim in H by auto.
  destruct (sim_args_cases c Hs) as [[x Hx]|Hx]; rewrite Hx in H; [|discriminate].
  destruct (sim_args_dim c x Hx) as (d0 & Hd0 & Hdim). rewrite Hd in Hd0. injection Hd0 as <-.
  destruct (run_core rec fuel x (gen (ensure_init rec t st))) as [[[l' d'] k]| | |] eqn:E; simpl in H; inversion H; subst.
  assert (Hx' : exists v pads, x = (v, (d_nx d, d_dx d, opt (d_ny d) 1%Z, opt (d_dy d) (lit L (-1) 0), opt (d_nz d) 1%Z,
                                 opt (d_dz d) (lit L (-1) 0)), pads) /\
             size_ok (d_nx d) /\ size_ok (opt (d_ny d) 1%Z) /\ size_ok (opt (d_nz d) 1%Z)).
  { destruct c; simpl in Hx, Hd; try discriminate; injection Hd as ->.
    - apply bind_Ok in Hx as (y & Hy & Ex). injection Ex as <-. apply args_inv in Hy as [-> ?]. eauto.
    - apply bind_Ok in Hx as (y & Hy & Ex). apply bind_Ok in Ex as (z & Hz & Ex). injection Ex as <-.
      apply args_inv in Hy as [-> ?]. eauto. }
  destruct Hx' as (v & [[[[[px py] pz] sx] sy] sz] & -> & H1 & H2 & H3).
  simpl in E, Hdim. apply sim_core_length in E. unfold field_length. rewrite Hdim in E.
  unfold size_ok in *. rewrite E.
  destruct (dim_asked d) as [|[|[|n]]]; cbn [Nat.eqb]; rewrite ?Nat2Z.inj_mul, ?Z2Nat.id by lia; lia.
Qed.

(** ** C16: the value of a cell does not depend on the extent of the returned grid *)
Lemma field1d_cells v nx1 nx2 nxp dx sx (noise l1 l2 : list num) i d :
  field1d v nx1 nxp dx sx noise = Ok l1 -> field1d v nx2 nxp dx sx noise = Ok l2 ->
  i < nx1 -> i < nx2 -> nth i l1 d = nth i l2 d.
Proof.
  unfold field1d. intros H1 H2 Hi1 Hi2.
  destruct FFTCovGrid1D; simpl in *; try discriminate.
  destruct (ComputeFFT1D a); simpl in *; try discriminate.
  destruct (ComputeFFT1D noise); simpl in *; try discriminate.
  destruct (mapM _ (seq 0 (length (map clip_sqrt a0)))); simpl in *; try discriminate.
  destruct (ComputeFFTInv1D a2); simpl in *; try discriminate.
  assert (E1 : nth_error (seq 0 nx1) i = Some i).
  { rewrite (nth_error_nth' _ 0) by (rewrite seq_length; auto). rewrite seq_nth; auto. }
  assert (E2 : nth_error (seq 0 nx2) i = Some i).
  { rewrite (nth_error_nth' _ 0) by (rewrite seq_length; auto). rewrite seq_nth; auto. }
  destruct (mapM_nth _ _ _ _ _ H1 E1) as (b1 & F1 & G1).
  destruct (mapM_nth _ _ _ _ _ H2 E2) as (b2 & F2 & G2).
  rewrite (nth_error_nth _ _ _ F1), (nth_error_nth _ _ _ F2). congruence.
Qed.

Lemma field2d_cells v nx1 ny1 nx2 ny2 nxt nyt dx dy sx sy (noise l1 l2 : list num) i j d :
  field2d v nx1 ny1 nxt nyt dx dy sx sy noise = Ok l1 -> field2d v nx2 ny2 nxt nyt dx dy sx sy noise = Ok l2 ->
  i < nx1 -> i < nx2 -> j < ny1 -> j < ny2 ->
  nth (i + nx1 * j) l1 d = nth (i + nx2 * j) l2 d.
Proof.
  unfold field2d. intros H1 H2 Hi1 Hi2 Hj1 Hj2.
  destruct FFTCovGrid2D; simpl in *; try discriminate.
  destruct (Initialize2 _ _ a); cbn [bind] in *; try discriminate.
  destruct (DoFFT2 _ _ _ a0); cbn [bind] in *; try discriminate.
  destruct (Initialize2 _ _ noise); cbn [bind] in *; try discriminate.
  destruct (DoFFT2 _ _ _ a2); cbn [bind] in *; try discriminate.
  destruct mapM; cbn [bind] in *; try discriminate.
  destruct DoInverseFFT2; cbn [bind] in *; try discriminate.
  apply GetRealGrid2_spec in H1 as [_ H1]. apply GetRealGrid2_spec in H2 as [_ H2].
  specialize (H1 i j d Hi1 Hj1). specialize (H2 i j d Hi2 Hj2). congruence.
Qed.

Lemma field3d_cells v nx1 ny1 nz1 nx2 ny2 nz2 nxt nyt nzt dx dy dz sx sy sz (noise l1 l2 : list num) i j k d :
  field3d v nx1 ny1 nz1 nxt nyt nzt dx dy dz sx sy sz noise = Ok l1 ->
  field3d v nx2 ny2 nz2 nxt nyt nzt dx dy dz sx sy sz noise = Ok l2 ->
  i < nx1 -> i < nx2 -> j < ny1 -> j < ny2 -> k < nz1 -> k < nz2 ->
  nth (i + nx1 * j + nx1 * ny1 * k) l1 d = nth (i + nx2 * j + nx2 * ny2 * k) l2 d.
Proof.
  unfold field3d. intros H1 H2 Hi1 Hi2 Hj1 Hj2 Hk1 Hk2.
  destruct FFTCovGrid3D; simpl in *; try discriminate.
  destruct (Initialize3 _ _ _ a); cbn [bind] in *; try discriminate.
  destruct (DoFFT3 _ _ _ _ a0); cbn [bind] in *; try discriminate.
  destruct (Initialize3 _ _ _ noise); cbn [bind] in *; try discriminate.
  destruct (DoFFT3 _ _ _ _ a2); cbn [bind] in *; try discriminate.
  destruct mapM; cbn [bind] in *; try discriminate.
  destruct DoInverseFFT3; cbn [bind] in *; try discriminate.
  apply GetRealGrid3_spec in H1 as [_ H1]. apply GetRealGrid3_spec in H2 as [_ H2].
  specialize (H1 i j k d Hi1 Hj1 Hk1). specialize (H2 i j k d Hi2 Hj2 Hk2). congruence.
Qed.


Lemma step_adv t (v : variogram L) (d : dims L) (a : adv L) st x y : args d = Ok x -> adv_args a = Ok y ->
  step rec fuel t (CAdvanced v d a) st =
  after_core (ensure_init rec t st) (run_core rec fuel (v, x, y) (gen (ensure_init rec t st))).
Proof. intros Hx Hy. rewrite step_sim by auto. simpl sim_args. rewrite Hx, Hy. reflexivity. Qed.
Lemma step_plain t (v : variogram L) (d : dims L) st x : args d = Ok x ->
  step rec fuel t (CSimulate v d) st =
  after_core (ensure_init rec t st)
    (run_core rec fuel (v, x, ((-1)%Z, (-1)%Z, (-1)%Z, lit L 1 0, lit L 1 0, lit L 1 0)) (gen (ensure_init rec t st))).
Proof. intros Hx. rewrite step_sim by auto. simpl sim_args. rewrite Hx. reflexivity. Qed.

Lemma step_adv_array t (v : variogram L) (d : dims L) (a : adv L) st l s : step rec fuel t (CAdvanced v d a) st = (Ok (VArray l), s) ->
  exists x y, args d = Ok x /\ adv_args a = Ok y.
Proof.
  rewrite step_sim by auto. simpl sim_args.
  destruct (args_cases d) as [[x ->]| ->]; simpl; [|discriminate].
  destruct (adv_args_cases a) as [[y ->]| ->]; simpl; [|discriminate]. eauto.
Qed.

Lemma desired_explicit p (l : list Z) i : (0 <= p)%Z -> desired p l i = Ok p.
Proof. intros H. unfold desired. destruct (Z.ltb_spec p 0); auto; lia. Qed.

Lemma cells_agree_3d t st (v : variogram L) nx1 nx2 dx ny1 ny2 dy nz1 nz2 dz px1 px2 py1 py2 pz1 pz2 sx sy sz l1 l2 s1 s2 :
  flt L dy (lit L 0 0) = false -> flt L dz (lit L 0 0) = false ->
  (1 < ny1 -> 1 < ny2 -> 1 < nz1 -> 1 < nz2 ->
   0 <= px1 -> 0 <= px2 -> 0 <= py1 -> 0 <= py2 -> 0 <= pz1 -> 0 <= pz2 ->
   nx1 + px1 = nx2 + px2 -> ny1 + py1 = ny2 + py2 -> nz1 + pz1 = nz2 + pz2 ->
   step rec fuel t (CAdvanced v (mkDims nx1 dx (Some ny1) (Some dy) (Some nz1) (Some dz))
                                (mkAdv (Some px1) (Some py1) (Some pz1) sx sy sz)) st = (Ok (VArray l1), s1) ->
   step rec fuel t (CAdvanced v (mkDims nx2 dx (Some ny2) (Some dy) (Some nz2) (Some dz))
                                (mkAdv (Some px2) (Some py2) (Some pz2) sx sy sz)) st = (Ok (VArray l2), s2) ->
   s1 = s2 /\
   forall i j k d,
     (0 <= i -> i < nx1 -> i < nx2 -> 0 <= j -> j < ny1 -> j < ny2 -> 0 <= k -> k < nz1 -> k < nz2 ->
      nth (Z.to_nat (i + nx1 * j + nx1 * ny1 * k)) l1 d = nth (Z.to_nat (i + nx2 * j + nx2 * ny2 * k)) l2 d))%Z.
Proof.
  intros Hdy Hdz Hny1 Hny2 Hnz1 Hnz2 ? ? ? ? ? ? Ex Ey Ez H1 H2.
  destruct (step_adv_array _ _ _ _ _ _ _ H1) as (x1 & y1 & A1 & B1).
  destruct (step_adv_array _ _ _ _ _ _ _ H2) as (x2 & y2 & A2 & B2).
  rewrite (step_adv _ _ _ _ _ _ _ A1 B1) in H1. rewrite (step_adv _ _ _ _ _ _ _ A2 B2) in H2.
  apply args_inv in A1 as [-> _]. apply args_inv in A2 as [-> _].
  apply adv_args_inv in B1 as [-> _]. apply adv_args_inv in B2 as [-> _].
  simpl in H1, H2. set (st0 := ensure_init rec t st) in *.
  unfold sim_core, SimulateAny, dimension in H1, H2. rewrite Hdy, Hdz in H1, H2.
  replace (ny1 <=? 1)%Z with false in H1 by lia. replace (nz1 <=? 1)%Z with false in H1 by lia.
  replace (ny2 <=? 1)%Z with false in H2 by lia. replace (nz2 <=? 1)%Z with false in H2 by lia.
  simpl in H1, H2. unfold Simulate3D, sizes3 in H1, H2.
  destruct (FindNDimPadding v nx1 dx ny1 dy nz1 dz); cbn [bind after_core] in H1; try discriminate.
  destruct (FindNDimPadding v nx2 dx ny2 dy nz2 dz); cbn [bind after_core] in H2; try discriminate.
  rewrite !desired_explicit in H1, H2 by auto. cbn [bind] in H1, H2. rewrite Ex, Ey, Ez in H1.
  destruct (FindNewSizeWithPadding _ _ (u64 (nx2 + px2)) _) as [nxt| | |]; simpl in H1, H2; try discriminate.
  destruct (FindNewSizeWithPadding _ _ (u64 (ny2 + py2)) _) as [nyt| | |]; simpl in H1, H2; try discriminate.
  destruct (FindNewSizeWithPadding _ _ (u64 (nz2 + pz2)) _) as [nzt| | |]; simpl in H1, H2; try discriminate.
  destruct (narrow nxt) as [mx| | |]; simpl in H1, H2; try discriminate.
  destruct (narrow nyt) as [my| | |]; simpl in H1, H2; try discriminate.
  destruct (narrow nzt) as [mz| | |]; simpl in H1, H2; try discriminate.
  destruct (draws (Unif01 rec) fuel (mx * my * mz) (gen st0)) as [[xs dd]| | |]; simpl in H1, H2; try discriminate.
  destruct (noise_grid3 mx my mz xs) as [ns| | |]; simpl in H1, H2; try discriminate.
  destruct field3d as [o1| | |] eqn:F1 in H1; simpl in H1; try discriminate.
  destruct field3d as [o2| | |] eqn:F2 in H2; simpl in H2; try discriminate.
  injection H1 as <- <-. injection H2 as <- <-. split; [reflexivity|].
  intros i j k d **.
  pose proof (field3d_cells _ _ _ _ _ _ _ _ _ _ _ _ _ _ _ _ _ _ _ (Z.to_nat i) (Z.to_nat j) (Z.to_nat k) d F1 F2) as C.
  replace (Z.to_nat (i + nx1 * j + nx1 * ny1 * k)) with
    (Z.to_nat i + Z.to_nat nx1 * Z.to_nat j + Z.to_nat nx1 * Z.to_nat ny1 * Z.to_nat k) by (zify; nia).
  replace (Z.to_nat (i + nx2 * j + nx2 * ny2 * k)) with
    (Z.to_nat i + Z.to_nat nx2 * Z.to_nat j + Z.to_nat nx2 * Z.to_nat ny2 * Z.to_nat k) by (zify; nia).
  apply C; lia.
Qed.

End P.
