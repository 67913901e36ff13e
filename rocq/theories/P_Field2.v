(** Proofs about the simulate calls that hold for every arithmetic, continued: cells in 1D and 2D (C16), explicit padding (C21),
    default and unused arguments (C22), noise draws (C14). *)
From Coq Require Import ZArith List Bool Lia Permutation.
From Verif Require Import Base Arith M_Variogram M_Padding M_FftSize M_Grid M_CovGrid M_Fft M_Dsfmt M_Random M_Field M_Api
  S_Api P_Base P_Grid P_Api P_Field.
Import ListNotations.
Open Scope nat_scope.

Local Opaque new_generator genrand_uint32 init_gen_rand.

Section P.
Context {L : Lib}.
Variable rec : recursion.
Variable fuel : nat.
Notation num := (num L).

Lemma cells_agree_2d t st (v : variogram L) nx1 nx2 dx ny1 ny2 dy nz1 nz2 dz1 dz2 px1 px2 py1 py2 pz1 pz2 sx sy sz1 sz2 l1 l2 s1 s2 :
  flt L dy (lit L 0 0) = false -> (nz1 <= 1)%Z \/ flt L dz1 (lit L 0 0) = true -> (nz2 <= 1)%Z \/ flt L dz2 (lit L 0 0) = true ->
  (1 < ny1 -> 1 < ny2 ->
   0 <= px1 -> 0 <= px2 -> 0 <= py1 -> 0 <= py2 ->
   nx1 + px1 = nx2 + px2 -> ny1 + py1 = ny2 + py2 ->
   step rec fuel t (CAdvanced v (mkDims nx1 dx (Some ny1) (Some dy) (Some nz1) (Some dz1))
                                (mkAdv (Some px1) (Some py1) pz1 sx sy sz1)) st = (Ok (VArray l1), s1) ->
   step rec fuel t (CAdvanced v (mkDims nx2 dx (Some ny2) (Some dy) (Some nz2) (Some dz2))
                                (mkAdv (Some px2) (Some py2) pz2 sx sy sz2)) st = (Ok (VArray l2), s2) ->
   s1 = s2 /\
   forall i j d,
     (0 <= i -> i < nx1 -> i < nx2 -> 0 <= j -> j < ny1 -> j < ny2 ->
      nth (Z.to_nat (i + nx1 * j)) l1 d = nth (Z.to_nat (i + nx2 * j)) l2 d))%Z.
Proof.
  intros Hdy Hz1 Hz2 Hny1 Hny2 ? ? ? ? Ex Ey H1 H2.
  destruct (step_adv_array _ _ _ _ _ _ _ _ _ H1) as (x1 & y1 & A1 & B1).
  destruct (step_adv_array _ _ _ _ _ _ _ _ _ H2) as (x2 & y2 & A2 & B2).
  rewrite (step_adv _ _ _ _ _ _ _ _ _ A1 B1) in H1. rewrite (step_adv _ _ _ _ _ _ _ _ _ A2 B2) in H2.
  apply args_inv in A1 as [-> _]. apply args_inv in A2 as [-> _].
  apply adv_args_inv in B1 as [-> _]. apply adv_args_inv in B2 as [-> _].
  cbn [run_core d_nx d_dx d_ny d_dy d_nz d_dz a_padx a_pady a_padz a_sx a_sy a_sz opt] in H1, H2.
  set (st0 := ensure_init rec t st) in *.
  unfold sim_core, SimulateAny, dimension in H1, H2. rewrite Hdy in H1, H2.
  replace (ny1 <=? 1)%Z with false in H1 by lia.
  replace (ny2 <=? 1)%Z with false in H2 by lia. cbn [orb] in H1, H2.
  replace ((nz1 <=? 1)%Z || flt L dz1 (lit L 0 0))%bool with true in H1
    by (destruct Hz1 as [Hz1|Hz1]; rewrite ?Hz1, ?orb_true_r; auto; replace (nz1 <=? 1)%Z with true by lia; auto).
  replace ((nz2 <=? 1)%Z || flt L dz2 (lit L 0 0))%bool with true in H2
    by (destruct Hz2 as [Hz2|Hz2]; rewrite ?Hz2, ?orb_true_r; auto; replace (nz2 <=? 1)%Z with true by lia; auto).
  unfold Simulate2D, sizes2 in H1, H2. rewrite new_generator_eq in H1, H2. cbn [gen] in H1, H2.
  destruct (FindNDimPadding v nx1 dx ny1 dy 1 (lit L (-1) 0)); cbn [bind after_core] in H1; try discriminate.
  destruct (FindNDimPadding v nx2 dx ny2 dy 1 (lit L (-1) 0)); cbn [bind after_core] in H2; try discriminate.
  rewrite !desired_explicit in H1, H2 by auto. cbn [bind] in H1, H2. rewrite Ex, Ey in H1.
  destruct (FindNewSizeWithPadding _ _ (u64 (nx2 + px2)) _) as [nxt| | |]; cbn [bind after_core] in H1, H2; try discriminate.
  destruct (FindNewSizeWithPadding _ _ (u64 (ny2 + py2)) _) as [nyt| | |]; cbn [bind after_core] in H1, H2; try discriminate.
  destruct (narrow nxt) as [mx| | |]; cbn [bind after_core] in H1, H2; try discriminate.
  destruct (narrow nyt) as [my| | |]; cbn [bind after_core] in H1, H2; try discriminate.
  destruct (draws (Unif01 rec) fuel (mx * my) _) as [[xs dd]| | |]; cbn [bind after_core] in H1, H2; try discriminate.
  destruct (noise_grid2 mx my xs) as [ns| | |]; cbn [bind after_core] in H1, H2; try discriminate.
  destruct field2d as [o1| | |] eqn:F1 in H1; cbn [bind after_core] in H1; try discriminate.
  destruct field2d as [o2| | |] eqn:F2 in H2; cbn [bind after_core] in H2; try discriminate.
  injection H1 as <- <-. injection H2 as <- <-. split; [reflexivity|].
  intros i j d **.
  pose proof (field2d_cells _ _ _ _ _ _ _ _ _ _ _ _ _ _ (Z.to_nat i) (Z.to_nat j) d F1 F2) as C.
  replace (Z.to_nat (i + nx1 * j)) with (Z.to_nat i + Z.to_nat nx1 * Z.to_nat j) by (zify; nia).
  replace (Z.to_nat (i + nx2 * j)) with (Z.to_nat i + Z.to_nat nx2 * Z.to_nat j) by (zify; nia).
  apply C; lia.
Qed.

Lemma cells_agree_1d t st (v : variogram L) nx1 nx2 dx ny1 ny2 dy1 dy2 nz1 nz2 dz1 dz2 px1 px2 py1 py2 pz1 pz2
    sx sy1 sy2 sz1 sz2 l1 l2 s1 s2 :
  (ny1 <= 1)%Z \/ flt L dy1 (lit L 0 0) = true -> (ny2 <= 1)%Z \/ flt L dy2 (lit L 0 0) = true ->
  (0 <= px1 -> 0 <= px2 -> nx1 + px1 = nx2 + px2 ->
   step rec fuel t (CAdvanced v (mkDims nx1 dx (Some ny1) (Some dy1) nz1 dz1)
                                (mkAdv (Some px1) py1 pz1 sx sy1 sz1)) st = (Ok (VArray l1), s1) ->
   step rec fuel t (CAdvanced v (mkDims nx2 dx (Some ny2) (Some dy2) nz2 dz2)
                                (mkAdv (Some px2) py2 pz2 sx sy2 sz2)) st = (Ok (VArray l2), s2) ->
   s1 = s2 /\
   forall i d, (0 <= i -> i < nx1 -> i < nx2 -> nth (Z.to_nat i) l1 d = nth (Z.to_nat i) l2 d))%Z.
Proof.
  intros Hz1 Hz2 ? ? Ex H1 H2.
  destruct (step_adv_array _ _ _ _ _ _ _ _ _ H1) as (x1 & y1 & A1 & B1).
  destruct (step_adv_array _ _ _ _ _ _ _ _ _ H2) as (x2 & y2 & A2 & B2).
  rewrite (step_adv _ _ _ _ _ _ _ _ _ A1 B1) in H1. rewrite (step_adv _ _ _ _ _ _ _ _ _ A2 B2) in H2.
  apply args_inv in A1 as [-> _]. apply args_inv in A2 as [-> _].
  apply adv_args_inv in B1 as [-> _]. apply adv_args_inv in B2 as [-> _].
  cbn [run_core d_nx d_dx d_ny d_dy d_nz d_dz a_padx a_pady a_padz a_sx a_sy a_sz opt] in H1, H2.
  set (st0 := ensure_init rec t st) in *.
  unfold sim_core, SimulateAny, dimension in H1, H2.
  replace ((ny1 <=? 1)%Z || flt L dy1 (lit L 0 0))%bool with true in H1
    by (destruct Hz1 as [Hz1|Hz1]; rewrite ?Hz1, ?orb_true_r; auto; replace (ny1 <=? 1)%Z with true by lia; auto).
  replace ((ny2 <=? 1)%Z || flt L dy2 (lit L 0 0))%bool with true in H2
    by (destruct Hz2 as [Hz2|Hz2]; rewrite ?Hz2, ?orb_true_r; auto; replace (ny2 <=? 1)%Z with true by lia; auto).
  unfold Simulate1D, sizes1 in H1, H2. rewrite new_generator_eq in H1, H2. cbn [gen] in H1, H2.
  destruct (FindNDimPadding v nx1 _ _ _ _ _); cbn [bind after_core] in H1; try discriminate.
  destruct (FindNDimPadding v nx2 _ _ _ _ _); cbn [bind after_core] in H2; try discriminate.
  rewrite !desired_explicit in H1, H2 by auto. cbn [bind] in H1, H2. rewrite Ex in H1.
  destruct (FindNewSizeWithPadding _ _ (u64 (nx2 + px2)) _) as [nxt| | |]; cbn [bind after_core] in H1, H2; try discriminate.
  destruct (narrow nxt) as [mx| | |]; cbn [bind after_core] in H1, H2; try discriminate.
  destruct (draws (Unif01 rec) fuel mx _) as [[xs dd]| | |]; cbn [bind after_core] in H1, H2; try discriminate.
  destruct field1d as [o1| | |] eqn:F1 in H1; cbn [bind after_core] in H1; try discriminate.
  destruct field1d as [o2| | |] eqn:F2 in H2; cbn [bind after_core] in H2; try discriminate.
  injection H1 as <- <-. injection H2 as <- <-. split; [reflexivity|].
  intros i d **.
  apply (field1d_cells _ _ _ _ _ _ _ _ _ (Z.to_nat i) d F1 F2); lia.
Qed.

(** ** C22 *)
Lemma adv_default t (v : variogram L) (d : dims L) st :
  step rec fuel t (CAdvanced v d (mkAdv None None None None None None)) st = step rec fuel t (CSimulate v d) st.
Proof.
  destruct (args_cases d) as [[x Hx]|Hx].
  - rewrite (step_adv _ _ _ _ _ _ _ _ (-1, -1, -1, lit L 1 0, lit L 1 0, lit L 1 0)%Z Hx) by reflexivity.
    rewrite (step_plain _ _ _ _ _ _ _ Hx). reflexivity.
  - simpl. rewrite Hx. reflexivity.
Qed.

(** not below the threshold, hence without effect *)
Definition no_smoothing (s : option num) : Prop := flt L (opt s (lit L 1 0)) (lit L 99999 5) = false.

Lemma apply_smoothing_false (s dd c : num) : apply_smoothing false s dd c = c.
Proof. reflexivity. Qed.

Lemma cov1_no (v : variogram L) n dx sx sx' : flt L sx (lit L 99999 5) = false -> flt L sx' (lit L 99999 5) = false ->
  FFTCovGrid1D v n dx sx = FFTCovGrid1D v n dx sx'.
Proof.
  intros H1 H2. unfold FFTCovGrid1D. rewrite H1, H2.
  destruct (FindSmoothingFactors v sx (lit L 1 0) (lit L 1 0)) as [[a b] c].
  destruct (FindSmoothingFactors v sx' (lit L 1 0) (lit L 1 0)) as [[a' b'] c']. reflexivity.
Qed.
Lemma cov2_no (v : variogram L) nx dx ny dy sx sx' sy sy' :
  flt L sx (lit L 99999 5) = false -> flt L sx' (lit L 99999 5) = false ->
  flt L sy (lit L 99999 5) = false -> flt L sy' (lit L 99999 5) = false ->
  FFTCovGrid2D v nx dx ny dy sx sy = FFTCovGrid2D v nx dx ny dy sx' sy'.
Proof.
  intros H1 H2 H3 H4. unfold FFTCovGrid2D. rewrite H1, H2, H3, H4.
  destruct (FindSmoothingFactors v sx sy (lit L 1 0)) as [[a b] c].
  destruct (FindSmoothingFactors v sx' sy' (lit L 1 0)) as [[a' b'] c']. reflexivity.
Qed.
Lemma cov3_no (v : variogram L) nx dx ny dy nz dz sx sx' sy sy' sz sz' :
  flt L sx (lit L 99999 5) = false -> flt L sx' (lit L 99999 5) = false ->
  flt L sy (lit L 99999 5) = false -> flt L sy' (lit L 99999 5) = false ->
  flt L sz (lit L 99999 5) = false -> flt L sz' (lit L 99999 5) = false ->
  FFTCovGrid3D v nx dx ny dy nz dz sx sy sz = FFTCovGrid3D v nx dx ny dy nz dz sx' sy' sz'.
Proof.
  intros H1 H2 H3 H4 H5 H6. unfold FFTCovGrid3D. rewrite H1, H2, H3, H4, H5, H6.
  destruct (FindSmoothingFactors v sx sy sz) as [[a b] c].
  destruct (FindSmoothingFactors v sx' sy' sz') as [[a' b'] c']. reflexivity.
Qed.

Definition with_smoothing (a : adv L) sx sy sz : adv L := mkAdv (a_padx a) (a_pady a) (a_padz a) sx sy sz.


Lemma bind_ext {A B} (m : outcome A) (k k' : A -> outcome B) : (forall a, k a = k' a) -> bind m k = bind m k'.
Proof. intros H. destruct m; simpl; auto. Qed.

Notation hi x := (flt L x (lit L 99999 5) = false).

Lemma field1d_no (v : variogram L) nx nxp dx sx sx' noise : hi sx -> hi sx' ->
  field1d v nx nxp dx sx noise = field1d v nx nxp dx sx' noise.
Proof. intros. unfold field1d. rewrite (cov1_no v nxp dx sx sx'); auto. Qed.
Lemma field2d_no (v : variogram L) nx ny nxt nyt dx dy sx sx' sy sy' noise : hi sx -> hi sx' -> hi sy -> hi sy' ->
  field2d v nx ny nxt nyt dx dy sx sy noise = field2d v nx ny nxt nyt dx dy sx' sy' noise.
Proof. intros. unfold field2d. rewrite (cov2_no v nxt dx nyt dy sx sx' sy sy'); auto. Qed.
Lemma field3d_no (v : variogram L) nx ny nz nxt nyt nzt dx dy dz sx sx' sy sy' sz sz' noise :
  hi sx -> hi sx' -> hi sy -> hi sy' -> hi sz -> hi sz' ->
  field3d v nx ny nz nxt nyt nzt dx dy dz sx sy sz noise = field3d v nx ny nz nxt nyt nzt dx dy dz sx' sy' sz' noise.
Proof. intros. unfold field3d. rewrite (cov3_no v nxt dx nyt dy nzt dz sx sx' sy sy' sz sz'); auto. Qed.

Lemma any_no (v : variogram L) nx dx ny dy nz dz px py pz sx sx' sy sy' sz sz' st :
  hi sx -> hi sx' -> hi sy -> hi sy' -> hi sz -> hi sz' ->
  SimulateAny rec fuel v nx dx ny dy nz dz px py pz sx sy sz st = SimulateAny rec fuel v nx dx ny dy nz dz px py pz sx' sy' sz' st.
Proof.
  intros. unfold SimulateAny. destruct (dimension ny dy nz dz) as [|[|[|n]]].
  1, 4: unfold Simulate3D; apply bind_ext; intros [[? ?] ?]; apply bind_ext; intros ?; apply bind_ext; intros ?; apply bind_ext;
      intros ?; apply bind_ext; intros [? ?]; apply bind_ext; intros ?; rewrite (field3d_no v _ _ _ _ _ _ _ _ _ sx sx' sy sy' sz sz') by auto; reflexivity.
  - unfold Simulate1D. apply bind_ext; intros ?; apply bind_ext; intros ?.
    destruct new_generator. apply bind_ext; intros [? ?]. rewrite (field1d_no v _ _ _ sx sx') by auto; reflexivity.
  - unfold Simulate2D. apply bind_ext; intros [? ?]; apply bind_ext; intros ?; apply bind_ext; intros ?.
    destruct new_generator. apply bind_ext; intros [? ?]. apply bind_ext; intros ?. rewrite (field2d_no v _ _ _ _ _ _ sx sx' sy sy') by auto; reflexivity.
Qed.

Lemma adv_args_pads (a : adv L) sx sy sz : adv_args (with_smoothing a sx sy sz) =
  match adv_args a with
  | Ok (px, py, pz, _, _, _) => Ok (px, py, pz, opt sx (lit L 1 0), opt sy (lit L 1 0), opt sz (lit L 1 0))
  | Throw e => Throw e | UB u => UB u | NoFuel => NoFuel
  end.
Proof.
  unfold adv_args, with_smoothing. simpl.
  destruct (as_int (opt (a_padx a) (-1)%Z)); simpl; auto.
  destruct (as_int (opt (a_pady a) (-1)%Z)); simpl; auto.
  destruct (as_int (opt (a_padz a) (-1)%Z)); simpl; auto.
Qed.

Lemma no_smoothing_effect t (v : variogram L) (d : dims L) (a : adv L) sx sy sz st :
  hi (lit L 1 0) -> no_smoothing sx -> no_smoothing sy -> no_smoothing sz ->
  step rec fuel t (CAdvanced v d (with_smoothing a sx sy sz)) st =
  step rec fuel t (CAdvanced v d (with_smoothing a None None None)) st.
Proof.
  intros H1 Hx Hy Hz. unfold no_smoothing in *.
  simpl. destruct (args d) as [[[[[[nx dx] ny] dy] nz] dz]| | |]; simpl; auto.
  rewrite !adv_args_pads. destruct (adv_args a) as [[[[[[px py] pz] ?] ?] ?]| | |]; simpl; auto.
  unfold do_simulate. erewrite any_no; eauto.
Qed.

(** ** Arguments of directions that are not simulated *)
Lemma unused1 t (v : variogram L) (d1 d2 : dims L) (a1 a2 : adv L) st :
  accepted (CAdvanced v d1 a1) -> accepted (CAdvanced v d2 a2) -> dim_asked d1 = 1 -> dim_asked d2 = 1 ->
  d_nx d1 = d_nx d2 -> d_dx d1 = d_dx d2 -> a_padx a1 = a_padx a2 -> a_sx a1 = a_sx a2 ->
  step rec fuel t (CAdvanced v d1 a1) st = step rec fuel t (CAdvanced v d2 a2) st.
Proof.
  intros [A1 B1] [A2 B2] D1 D2 E1 E2 E3 E4.
  apply args_ok in A1 as [x1 A1]. apply args_ok in A2 as [x2 A2].
  apply adv_args_ok in B1 as [y1 B1]. apply adv_args_ok in B2 as [y2 B2].
  simpl. rewrite A1, A2. simpl.
  pose proof A1 as A1'. pose proof A2 as A2'. apply args_inv in A1 as [-> _]. apply args_inv in A2 as [-> _].
  rewrite B1, B2. simpl.
  apply adv_args_inv in B1 as [-> _]. apply adv_args_inv in B2 as [-> _].
  rewrite E1, E2, E3, E4.
  apply dim_args in A1', A2'. rewrite D1 in A1'. rewrite D2 in A2'.
  unfold do_simulate, SimulateAny. rewrite A1', A2'. reflexivity.
Qed.
Lemma unused2 t (v : variogram L) (d1 d2 : dims L) (a1 a2 : adv L) st :
  accepted (CAdvanced v d1 a1) -> accepted (CAdvanced v d2 a2) -> dim_asked d1 = 2 -> dim_asked d2 = 2 ->
  d_nx d1 = d_nx d2 -> d_dx d1 = d_dx d2 -> d_ny d1 = d_ny d2 -> d_dy d1 = d_dy d2 ->
  a_padx a1 = a_padx a2 -> a_sx a1 = a_sx a2 -> a_pady a1 = a_pady a2 -> a_sy a1 = a_sy a2 ->
  step rec fuel t (CAdvanced v d1 a1) st = step rec fuel t (CAdvanced v d2 a2) st.
Proof.
  intros [A1 B1] [A2 B2] D1 D2 E1 E2 E3 E4 E5 E6 E7 E8.
  apply args_ok in A1 as [x1 A1]. apply args_ok in A2 as [x2 A2].
  apply adv_args_ok in B1 as [y1 B1]. apply adv_args_ok in B2 as [y2 B2].
  simpl. rewrite A1, A2. simpl.
  pose proof A1 as A1'. pose proof A2 as A2'. apply args_inv in A1 as [-> _]. apply args_inv in A2 as [-> _].
  rewrite B1, B2. simpl.
  apply adv_args_inv in B1 as [-> _]. apply adv_args_inv in B2 as [-> _].
  rewrite E1, E2, E3, E4, E5, E6, E7, E8 in *.
  apply dim_args in A1', A2'. rewrite D1 in A1'. rewrite D2 in A2'.
  unfold do_simulate, SimulateAny. rewrite A1', A2'. reflexivity.
Qed.
End P.
