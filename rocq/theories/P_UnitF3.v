(** Calls in units that differ by a power of two. *)
From Coq Require Import ZArith Bool Lia Reals Lra Psatz List String.
From Flocq Require Import Core IEEE754.BinarySingleNaN.
From Verif Require Import Base Arith FloatArith M_Variogram M_Padding M_FftSize M_Grid M_CovGrid M_Dsfmt M_Random M_Field M_Api S_Api S_CovGrid S_Random S_FieldF S_Special S_UnitF P_Base P_Bounds P_Grid P_Vario P_NormF P_FieldF P_Damp2 P_UnitF P_UnitF2.
Import ListNotations.
Open Scope R_scope.
Local Opaque new_generator genrand_uint32 init_gen_rand gen_rand_all.

Section A.
Variables (m : libm) (f : fftlib) (o : Z -> outcome Z) (cl : Z -> Z -> Z).
Notation F := (Farith m).
Notation L := (Flib m f o cl).
Variables (k : b64) (K : Z).
Hypotheses (HK : (-64 <= K <= 64)%Z) (Fk : fin k = true) (Vk : B2R k = bp K).

Lemma unit_rel lo hi (x : b64) : fin x = true -> (B2R x = 0 \/ bp lo <= Rabs (B2R x)) -> Rabs (B2R x) <= bp hi -> (-500 <= lo)%Z -> (-500 <= hi <= 500)%Z -> rel K lo hi x (rescale k x).
Proof.
  intros Fx A B H1 H2. unfold rescale.
  pose proof (Bmult_correct 53 1024 Hprec Hmax mode_NE k x) as C. change (SpecFloat.fexp 53 1024) with (FLT_exp (-1074) 53) in C. cbn [round_mode] in C.
  rewrite Vk, (Rmult_comm (bp K)) in C. rewrite (no_ovf (B2R x * bp K) (hi + K)) in C by (try (apply scaled_le; exact B); lia). destruct C as (V & G & S).
  rewrite Fk, Fx in G. cbn [andb] in G.
  destruct (rnd_rel (B2R x) K lo hi A B ltac:(lia) ltac:(lia) ltac:(lia)) as (R1 & _ & _). rewrite (round_generic radix2 (FLT_exp (-1074) 53) ZnearestE (B2R x)) in R1 by (apply valid_rnd_N || apply fin_fmt).
  unfold rel. rewrite G, V, R1. do 3 (split; auto). split; [|auto].
  rewrite S by (destruct (Bmult mode_NE k x); cbn in G |- *; congruence). replace (Bsign k) with false; [destruct (Bsign x); reflexivity|].
  destruct k as [s| | |s M e H]; try discriminate Fk; cbn in Vk.
  - pose proof (bpow_gt_0 radix2 K). lra.
  - destruct s; [|reflexivity]. exfalso. pose proof (bpow_gt_0 radix2 K). rewrite <- Vk in H0. apply (Rlt_not_le _ _ H0). left. apply F2R_lt_0. reflexivity.
Qed.
Lemma fair_long (x : b64) : tame x -> longr K x (rescale k x).
Proof.
  intros (Fx & A & B). split; [apply unit_rel; auto; lia|]. intros Z. rewrite Z, Rabs_R0 in A. pose proof (bpow_gt_0 radix2 (-64)). lra.
Qed.
Lemma fair_lagr (x : b64) : tame_lag x -> lagr K x (rescale k x).
Proof.
  intros (Fx & H). assert (A : B2R x = 0 \/ bp (-64) <= Rabs (B2R x)) by (destruct H as [H|[H _]]; auto).
  assert (B : Rabs (B2R x) <= bp 95) by (destruct H as [->|[_ H]]; [rewrite Rabs_R0; apply bpow_ge_0|eapply Rle_trans; [exact H|apply bpow_le; lia]]).
  apply unit_rel; auto; lia.
Qed.
Lemma fair_rat (x : b64) : tame_ratio x -> ratio x.
Proof.
  intros (Fx & H). apply rel_refl; [exact Fx| |]; destruct H as [H|[H1 H2]]; auto. rewrite H, Rabs_R0. apply bpow_ge_0.
Qed.
Lemma neg_unit (x : b64) : tame x -> Bltb (rescale k x) (Flit 0 0) = Bltb x (Flit 0 0).
Proof.
  intros H. destruct (fair_long x H) as [R _]. assert (Z : rel K 0 0 (Flit 0 0) (Flit 0 0)).
  { unfold rel. assert (V : B2R (Flit 0 0) = 0) by (vm_compute; reflexivity). rewrite V, Rabs_R0, Rmult_0_l. repeat split; auto; try (vm_compute; reflexivity). apply bpow_ge_0. }
  exact (rel_lt K _ _ _ _ _ _ _ _ R Z).
Qed.
(** a range: a negative one stands for the main range *)
Lemma range_unit (main : b64) (r : option b64) : tame main -> tame_opt r ->
  longr K (if flt F (opt r (Flit (-1) 0)) (lit F 0 0) then main else opt r (Flit (-1) 0))
          (if flt F (opt (option_map (rescale k) r) (Flit (-1) 0)) (lit F 0 0) then rescale k main else opt (option_map (rescale k) r) (Flit (-1) 0)).
Proof.
  intros HM HR. change (flt F) with (@Bltb 53 1024). change (lit F 0 0) with (Flit 0 0). destruct r as [r|]; cbn [opt option_map].
  - specialize (HR r eq_refl). rewrite neg_unit by exact HR. destruct (Bltb r (Flit 0 0)); apply fair_long; assumption.
  - replace (Bltb (Flit (-1) 0) (Flit 0 0)) with true by (vm_compute; reflexivity). apply fair_long; assumption.
Qed.
Lemma vario_moved s main perp depth azi dp pw (v v' : variogram L) rec fuel t0 st0 :
  tame main -> tame_opt perp -> tame_opt depth -> tame_angle m azi -> tame_angle m dp -> tame_power pw ->
  let c := @CVariogram L s main perp depth azi dp pw in
  fst (step rec fuel t0 c st0) = Ok (@VVariogram L v) -> fst (step rec fuel t0 (call_in_unit k c) st0) = Ok (@VVariogram L v') -> moved m K v v'.
Proof.
  intros HM HP HD HA HI HW c. unfold c. cbn [call_in_unit step fst]. unfold omap, CreateVariogram.
  pose proof (range_unit main perp HM HP) as RY. pose proof (range_unit main depth HM HD) as RZ. pose proof (fair_long main HM) as RX.
  destruct HA as [A1 A2]. destruct HI as [D1 D2]. apply fair_rat in A1, A2, D1, D2.
  assert (PW : rel 0 (-100) 100 (opt pw (lit L 15 1)) (opt pw (lit L 15 1))).
  { destruct pw as [p|]; cbn [opt].
    - destruct (HW p eq_refl) as (Fp & P1 & P2). apply rel_refl; auto.
    - assert (E : exactly (Flit 15 1) (3 / 2)) by lit_t. apply (rel_lit 0 (-100) 100 _ (3 / 2) E eq_refl); rewrite Rabs_pos_eq by lra.
      + apply Rle_trans with (bp 0); [apply bpow_le; lia|cbn [bpow]; lra].
      + apply Rle_trans with (bp 1); [change (bp 1) with 2; lra|apply bpow_le; lia]. }
  destruct (Uppercase s) as [u| | |]; cbn [bind]; try discriminate.
  unfold Create. destruct (type_of_name u); cbn [bind]; try discriminate; intros E E'; injection E as <-; injection E' as <-; unfold moved; do 11 eexists;
    (split; [reflexivity|split; [reflexivity|]]); repeat (split; [eassumption|]); intros HT; first [discriminate HT|exact PW].
Qed.
Section V.
Variables v v' : variogram L.
Hypothesis HV : moved m K v v'.
Variables (rec : recursion) (fuel : nat).
Lemma narrow_lt z n : narrow z = Ok n -> (Z.of_nat n < 2 ^ 31)%Z.
Proof. unfold narrow. destruct (Z.ltb_spec z (2 ^ 31)); [|discriminate]. intros [= <-]. lia. Qed.
Lemma sim1_moved nx (dx dx' : b64) padx sx st : longr K dx dx' -> off sx -> @Simulate1D L rec fuel v' nx dx' padx sx st = @Simulate1D L rec fuel v nx dx padx sx st.
Proof.
  intros D S. unfold Simulate1D, sizes1, field1d. pose proof (padding_moved m K HK v v' HV nx dx dx' 1 (lit F (-1) 0) (lit F (-1) 0) 1 (lit F (-1) 0) (lit F (-1) 0) D) as P.
  change (arith L) with F in *. rewrite P by (left; lia). destruct (bind (FindNDimPadding v nx dx 1 _ 1 _) _) as [z| | |]; cbn [bind]; [|reflexivity..].
  destruct (narrow z) as [n| | |] eqn:N; cbn [bind]; [|reflexivity..]. rewrite (table1_moved m K HK v v' HV n dx dx' sx D S (narrow_lt z n N)). reflexivity.
Qed.
Lemma sim2_moved nx (dx dx' : b64) ny (dy dy' : b64) padx pady sx sy st : longr K dx dx' -> longr K dy dy' -> off sx -> off sy -> 
  @Simulate2D L rec fuel v' nx dx' ny dy' padx pady sx sy st = @Simulate2D L rec fuel v nx dx ny dy padx pady sx sy st.
Proof.
  intros D D2 S S2. unfold Simulate2D, sizes2, field2d. pose proof (padding_moved m K HK v v' HV nx dx dx' ny dy dy' 1 (lit F (-1) 0) (lit F (-1) 0) D) as P.
  change (arith L) with F in *. rewrite P by (try (right; left; lia); right; assumption). destruct (bind (FindNDimPadding v nx dx ny dy 1 _) _) as [[z z']| | |]; cbn [bind]; [|reflexivity..].
  destruct (narrow z) as [n| | |] eqn:N; cbn [bind]; [|reflexivity..]. destruct (narrow z') as [n'| | |] eqn:N'; cbn [bind]; [|reflexivity..].
  rewrite (table2_moved m K HK v v' HV n n' dx dx' dy dy' sx sy D D2 S S2 (narrow_lt z n N) (narrow_lt z' n' N')). reflexivity.
Qed.
Lemma sim3_moved nx (dx dx' : b64) ny (dy dy' : b64) nz (dz dz' : b64) padx pady padz sx sy sz st : longr K dx dx' -> longr K dy dy' -> longr K dz dz' -> off sx -> off sy -> off sz ->
  @Simulate3D L rec fuel v' nx dx' ny dy' nz dz' padx pady padz sx sy sz st = @Simulate3D L rec fuel v nx dx ny dy nz dz padx pady padz sx sy sz st.
Proof.
  intros D D2 D3 S S2 S3. unfold Simulate3D, sizes3, field3d. pose proof (padding_moved m K HK v v' HV nx dx dx' ny dy dy' nz dz dz' D) as P.
  change (arith L) with F in *. rewrite P by (try (right; right; assumption); right; assumption). destruct (bind (FindNDimPadding v nx dx ny dy nz dz) _) as [[[z z'] z'']| | |]; cbn [bind]; [|reflexivity..].
  destruct (narrow z) as [n| | |] eqn:N; cbn [bind]; [|reflexivity..]. destruct (narrow z') as [n'| | |] eqn:N'; cbn [bind]; [|reflexivity..]. destruct (narrow z'') as [n''| | |] eqn:N''; cbn [bind]; [|reflexivity..].
  rewrite (table3_moved m K HK v v' HV n n' n'' dx dx' dy dy' dz dz' sx sy sz D D2 D3 S S2 S3 (narrow_lt z n N) (narrow_lt z' n' N') (narrow_lt z'' n'' N'')). reflexivity.
Qed.
Lemma lt0_unit (x : option b64) : tame_opt x -> flt L (opt (option_map (rescale k) x) (lit L (-1) 0)) (lit L 0 0) = flt L (opt x (lit L (-1) 0)) (lit L 0 0).
Proof. intros H. destruct x as [x|]; [|reflexivity]. exact (neg_unit x (H x eq_refl)). Qed.
Lemma any_moved nx (dx : b64) ny dy nz dz padx pady padz sx sy sz st : tame dx -> tame_opt dy -> tame_opt dz -> off sx -> off sy -> off sz ->
  @SimulateAny L rec fuel v' nx (rescale k dx) ny (opt (option_map (rescale k) dy) (lit L (-1) 0)) nz (opt (option_map (rescale k) dz) (lit L (-1) 0)) padx pady padz sx sy sz st
  = @SimulateAny L rec fuel v nx dx ny (opt dy (lit L (-1) 0)) nz (opt dz (lit L (-1) 0)) padx pady padz sx sy sz st.
Proof.
  intros HX HY HZ SX SY SZ. unfold SimulateAny. assert (N : flt L (lit L (-1) 0) (lit L 0 0) = true) by (vm_compute; reflexivity).
  unfold dimension. pose proof (lt0_unit dy HY) as Y. pose proof (lt0_unit dz HZ) as Z. pose proof (fair_long dx HX) as DX.
  destruct (flt L (opt dy (lit L (-1) 0)) (lit L 0 0)) eqn:EY; rewrite Y.
  { rewrite orb_true_r. apply sim1_moved; assumption. }
  destruct dy as [y|]; [|cbn [opt] in EY; congruence]. cbn [option_map opt]. pose proof (fair_long y (HY y eq_refl)) as DY.
  destruct (ny <=? 1)%Z; cbn [orb]; [apply sim1_moved; assumption|].
  destruct (flt L (opt dz (lit L (-1) 0)) (lit L 0 0)) eqn:EZ; rewrite Z.
  { rewrite orb_true_r. apply sim2_moved; assumption. }
  destruct dz as [z|]; [|cbn [opt] in EZ; congruence]. cbn [option_map opt]. pose proof (fair_long z (HZ z eq_refl)) as DZ.
  destruct (nz <=? 1)%Z; cbn [orb]; [apply sim2_moved; assumption|apply sim3_moved; assumption].
Qed.
Lemma off_one : off (Flit 1 0). Proof. vm_compute. reflexivity. Qed.
Lemma off_ge (s : b64) : fin s = true -> 99999 / 100000 <= B2R s -> off s.
Proof. intros Fs H. unfold off. destruct (Bltb s (Flit 99999 5)) eqn:E; [|reflexivity]. apply (test_on s Fs) in E. lra. Qed.
Lemma advanced_moved t (d : dims L) (a : adv L) st : tame_dims d -> smoothing_off a -> step rec fuel t (CAdvanced (v' : variogram L) (dims_in_unit k d) a) st = step rec fuel t (CAdvanced (v : variogram L) d a) st.
Proof.
  intros (HX & HY & HZ) HS. unfold step, args. cbn [dims_in_unit d_nx d_dx d_ny d_dy d_nz d_dz]. destruct (as_size (d_nx d)); cbn [bind]; [|reflexivity..].
  destruct (as_size (opt (d_ny d) 1%Z)); cbn [bind]; [|reflexivity..]. destruct (as_size (opt (d_nz d) 1%Z)); cbn [bind]; [|reflexivity..].
  assert (S : forall q, In q [a_sx a; a_sy a; a_sz a] -> off (opt q (lit L 1 0))).
  { intros [q|] Q; cbn [opt]; [destruct (HS q Q); apply off_ge; assumption|exact off_one]. }
  unfold adv_args. destruct (as_int _) as [px| | |]; cbn [bind]; [|reflexivity..]. destruct (as_int _) as [py| | |]; cbn [bind]; [|reflexivity..]. destruct (as_int _) as [pz| | |]; cbn [bind]; [|reflexivity..].
  unfold do_simulate. rewrite any_moved by (assumption || (apply S; cbn; auto)). reflexivity.
Qed.
Lemma simulate_moved t (d : dims L) st : tame_dims d -> step rec fuel t (CSimulate (v' : variogram L) (dims_in_unit k d)) st = step rec fuel t (CSimulate (v : variogram L) d) st.
Proof.
  intros (HX & HY & HZ). unfold step, args. cbn [dims_in_unit d_nx d_dx d_ny d_dy d_nz d_dz]. destruct (as_size (d_nx d)); cbn [bind]; [|reflexivity..].
  destruct (as_size (opt (d_ny d) 1%Z)); cbn [bind]; [|reflexivity..]. destruct (as_size (opt (d_nz d) 1%Z)); cbn [bind]; [|reflexivity..].
  unfold do_simulate. rewrite any_moved by (assumption || exact off_one). reflexivity.
Qed.
Lemma size_moved t (d : dims L) st : tame_dims d -> spaced d -> step rec fuel t (CSize (v' : variogram L) (dims_in_unit k d)) st = step rec fuel t (CSize (v : variogram L) d) st.
Proof.
  intros (HX & HY & HZ) [SY SZ]. unfold step, args. cbn [dims_in_unit d_nx d_dx d_ny d_dy d_nz d_dz].
  unfold as_size. destruct (fits_size (d_nx d)); cbn [bind]; [|reflexivity..].
  destruct (fits_size (opt (d_ny d) 1%Z)); cbn [bind]; [|reflexivity..]. destruct (fits_size (opt (d_nz d) 1%Z)); cbn [bind]; [|reflexivity..].
  f_equal. unfold FindGridSizeAfterPadding.
  match goal with |- context [@FindNDimPadding ?A v' ?a ?b ?c ?d' ?e ?f] => assert (P : @FindNDimPadding A v' a b c d' e f = @FindNDimPadding A v (d_nx d) (d_dx d) (opt (d_ny d) 1%Z) (opt (d_dy d) (lit A (-1) 0)) (opt (d_nz d) 1%Z) (opt (d_dz d) (lit A (-1) 0))) end.
  2: { rewrite P. reflexivity. }
  apply (padding_moved m K HK v v' HV).
  - apply fair_long; assumption.
  - destruct SY as [H|H]; [left; exact H|right]. destruct (d_dy d) as [y|]; [|contradiction]. cbn [opt option_map]. apply fair_long. apply HY. reflexivity.
  - right. destruct SZ as [H|H]; [left; exact H|right]. destruct (d_dz d) as [y|]; [|contradiction]. cbn [opt option_map]. apply fair_long. apply HZ. reflexivity.
Qed.
Lemma corr_units t st (x y z : b64) : tame_lag x -> tame_lag y -> tame_lag z ->
  step rec fuel t (@CCorr1 L v' (rescale k x)) st = step rec fuel t (@CCorr1 L v x) st /\
  step rec fuel t (@CCorr2 L v' (rescale k x) (rescale k y)) st = step rec fuel t (@CCorr2 L v x y) st /\
  step rec fuel t (@CCorr3 L v' (rescale k x) (rescale k y) (rescale k z)) st = step rec fuel t (@CCorr3 L v x y z) st.
Proof.
  intros X Y Z. apply fair_lagr in X, Y, Z. cbn [step]. unfold GetCorr1, GetCorr2, GetCorr3. change (arith L) with F.
  rewrite (dist1_moved m K HK v v' HV _ _ X), (dist2_moved m K HK v v' HV _ _ _ _ X Y), (dist3_moved m K HK v v' HV _ _ _ _ _ _ X Y Z).
  rewrite !(corr_moved m K v v' HV). auto.
Qed.
End V.
End A.
