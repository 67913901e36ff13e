(** Simulations have an answer. *)
From Coq Require Import ZArith Bool Lia Reals Lra List String.
From Flocq Require Import Core IEEE754.BinarySingleNaN.
From Verif Require Import Base Arith FloatArith RealArith M_Variogram M_Padding M_FftSize M_Dsfmt M_Random M_Field M_Api S_Api S_Vario S_Random S_Sizes S_Room S_CorrF S_FieldF S_CovGrid S_Damp S_SizeF S_Answer P_Base P_Api P_Bounds P_NormF P_FieldF P_CorrF P_Field P_Accur11 P_Args P_Padding P_Sim P_Sim2 P_SizeF P_SizeF2 P_Answer P_Answer2.
Import ListNotations.
Open Scope R_scope.
Local Opaque new_generator genrand_uint32 init_gen_rand gen_rand_all.

Lemma rule_le ratio r step n N K : -8 <= ratio <= 8 -> 0 < r -> 0 < step -> (0 <= n <= 2 ^ 30)%Z -> (0 <= K <= 2 ^ 27)%Z -> r <= IZR K * step ->
  size_rule64 ratio r step n N -> fmt (8 * r) -> (N <= Z.max (n + K) (8 * K) + 1)%Z.
Proof.
  intros HR Pr Ps Hn HK H (-> & _) F8.
  assert (Q : r / step <= IZR K) by (apply Rmult_le_reg_r with step; [exact Ps|]; unfold Rdiv; rewrite Rmult_assoc, Rinv_l by lra; lra).
  assert (A1 : nearest (r / step) <= IZR K) by (unfold nearest; apply round_le_generic; try typeclasses eauto; [exact (fmt_z K ltac:(lia))|exact Q]).
  assert (A2 : nearest (ratio * r) <= 8 * r) by (unfold nearest; apply round_le_generic; try typeclasses eauto; [exact F8|nra]).
  set (y := nearest (ratio * r)) in *.
  assert (A3 : nearest (y / step) <= IZR (8 * K)).
  { unfold nearest; apply round_le_generic; try typeclasses eauto; [exact (fmt_z (8 * K) ltac:(lia))|]. apply Rmult_le_reg_r with step; [exact Ps|]. unfold Rdiv. rewrite Rmult_assoc, Rinv_l by lra. rewrite mult_IZR. nra. }
  set (w := nearest (y / step)) in *.
  assert (A4 : nearest (IZR n) = IZR n) by (unfold nearest; apply round_generic; try typeclasses eauto; exact (fmt_z n ltac:(lia))).
  assert (A5 : nearest (w - nearest (IZR n)) <= IZR (8 * K - n)) by (unfold nearest at 1; apply round_le_generic; try typeclasses eauto; [exact (fmt_z (8 * K - n) ltac:(lia))|]; rewrite A4, minus_IZR; lra).
  apply Ztrunc_le in A1, A5. rewrite Ztrunc_IZR in A1, A5. lia.
Qed.
Section A.
Variables (m : libm) (f : fftlib) (o : Z -> outcome Z) (cl : Z -> Z -> Z).
Notation F := (Farith m).
Notation L := (Flib m f o cl).
Lemma step_nonneg (x : b64) : positive x -> flt F x (Flit 0 0) = false.
Proof. intros [Fx Px]. destruct l0 as [F0 V0]. change (flt F x (Flit 0 0)) with (@Bltb 53 1024 x (Flit 0 0)). rewrite (Bltb_correct 53 1024 x _ Fx F0), V0. apply Rlt_bool_false. lra. Qed.
Lemma same_dim (d : dims L) : (forall i, (i < directions d)%nat -> positive (step64 d i)) -> dim_asked d = directions d.
Proof.
  intros H. unfold dim_asked, wants. unfold directions in *. change (lit L 0 0) with (Flit 0 0). change (lit L (-1) 0) with (Flit (-1) 0). change (flt L) with (flt F).
  assert (W : forall n, (1 <? n)%Z = negb (n <=? 1)%Z) by (intros n; destruct (1 <? n)%Z eqn:A, (n <=? 1)%Z eqn:B; try reflexivity; lia). rewrite !W.
  destruct (opt (d_ny d) 1 <=? 1)%Z; [reflexivity|]. cbn [negb andb].
  assert (H1 : positive (opt (d_dy d) (Flit (-1) 0))) by (apply (H 1%nat); destruct (opt (d_nz d) 1 <=? 1)%Z; lia).
  rewrite (step_nonneg _ H1). destruct (opt (d_nz d) 1 <=? 1)%Z; [reflexivity|]. cbn [negb andb].
  assert (H2 : positive (opt (d_dz d) (Flit (-1) 0))) by (apply (H 2%nat); lia). rewrite (step_nonneg _ H2). reflexivity.
Qed.
Lemma fields_made : fft_sizes L -> forall B, good_lib L B -> (B < 2 ^ 29)%Z ->
  forall s main perp depth azi dp pw (v : variogram F), @CreateVariogram F s main perp depth azi dp pw = Ok v -> sensible_power pw ->
  positive main -> positive (or_main64 main perp) -> positive (or_main64 main depth) -> plain_azimuth azi ->
  forall (d : dims L) (a : adv L), accepted (CAdvanced (L := L) v d a) ->
  (forall i, (i < directions d)%nat -> plain_step (step64 d i) /\ (1 <= cells d i <= B)%Z /\ exists K,
    range_cells (B2R main) (B2R (or_main64 main perp)) (B2R (or_main64 main depth)) (directions d) i (B2R (step64 d i)) K /\ (can_need (cells d i) K (pad_given a i) <= B)%Z) ->
  forall rec fuel now st, ok_or_nofuel (fst (step rec fuel now (CAdvanced (L := L) v d a) st)).
Proof.
  intros HL B HG HB s main perp depth azi dp pw v HC Hpw Hm Hp Hd Haz d a HA HI rec fuel now st.
  assert (SD : dim_asked d = directions d) by (apply same_dim; intros i Hi; destruct (HI i Hi) as ((P & _) & _); exact P).
  destruct (answers m f o cl s main perp depth azi dp pw v HC Hpw Hm Hp Hd d ltac:(cbn [accepted] in *; tauto)) with (rec := rec) (fuel := fuel) (now := now) (st := st) as [ns Hs].
  { intros i Hi. destruct (HI i Hi) as (P & C & K & (KB & R) & _). split; [exact P|]. split; [lia|]. destruct P as [[_ P] _]. apply Rle_trans with (1 := R).
    apply Rmult_le_compat_r; [lra|]. change (bpow radix2 27) with (IZR (2 ^ 27)). apply IZR_le. lia. }
  pose proof (size_length (L := L) rec fuel now v d st ns Hs) as Hl. fold (directions d) in Hl.
  assert (HP : forall i, (i < List.length ns)%nat -> positive (step64 d i) /\ (cells d i < 2 ^ 63)%Z) by (intros i Hi; rewrite Hl in Hi; destruct (HI i Hi) as ((P & _) & C & _); split; [exact P|lia]).
  pose proof (size_named_F m f o cl s main perp depth azi dp pw v HC Hm Hp Hd Haz rec fuel now d st ns HP Hs) as SR.
  destruct (made m s main perp depth azi dp pw v HC) as (_ & _ & _ & HR). specialize (HR Hpw). destruct (created_F m s main perp depth azi dp pw v HC) as (_ & _ & NT & _).
  destruct HR as [FR VR]. rewrite (ratio_F m v FR NT) in VR.
  apply (sim_runs (L := L) rec fuel HL now v d a ns B st HG HB Hs (eq_trans Hl (eq_sym SD)) HA).
  apply (room_F m f o cl s main perp depth azi dp pw v HC Hm Hp Hd rec fuel now d a st ns B ltac:(lia) Hs (eq_trans Hl (eq_sym SD))).
  intros i Hi. rewrite SD in Hi. destruct (HI i Hi) as ((P & _) & C & K & (KB & R) & N). split; [exact P|]. split; [exact C|]. unfold requested.
  unfold can_need in N. destruct (pad_given a i); [exact N|]. apply Z.le_trans with (2 := N).
  specialize (SR i). rewrite Hl in SR. specialize (SR Hi).
  assert (E : exists r : b64, positive r /\ B2R r = room_range (B2R main) (B2R (or_main64 main perp)) (B2R (or_main64 main depth)) (B2R azi) (directions d) i).
  { destruct (max_F m _ _ Hm Hp) as [PM VM]. unfold room_range. destruct i as [|[|i]].
    - destruct (Nat.eqb (directions d) 1); eauto.
    - destruct (Req_EM_T (B2R azi) 0); eauto.
    - eauto. }
  destruct E as (r & [_ Pr] & Er). rewrite <- Er in SR. apply (rule_le (ratio64 (vt v) (B2R (vpower v))) (B2R r) (B2R (step64 d i))); [exact VR|exact Pr|exact (proj2 P)|lia|exact KB| |exact SR|apply fmt_8].
  apply Rle_trans with (2 := R). rewrite Er. unfold room_range, longest. destruct i as [|[|i]]; [apply Rle_refl| |apply Rle_refl]. destruct (Req_EM_T (B2R azi) 0); [apply Rmax_r|apply Rle_refl].
Qed.
End A.
