(** Ranges of zero in double precision. *)
From Coq Require Import ZArith Bool Lia Reals List String.
From Flocq Require Import Core IEEE754.BinarySingleNaN.
From Verif Require Import Base Arith FloatArith M_Variogram S_Vario S_Damp S_CorrF P_CorrF P_Accur8 P_Accur9 P_Accur10 P_Accur11 P_Args P_Answer2 P_SizeF2 P_NotNum.
Import ListNotations.
Notation zr := (B754_zero false : b64).
Lemma zero_lit : Flit 0 0 = zr. Proof. apply B2SF_inj. vm_compute. reflexivity. Qed.
Lemma inf_zero (s : bool) : @Bdiv 53 1024 Hprec Hmax mode_NE (Flit 1 0) (Bmult mode_NE (B754_zero s : b64) (B754_zero s)) = B754_infinity false.
Proof. apply B2SF_inj. destruct s; vm_compute; reflexivity. Qed.
Lemma zero_inf (x : b64) : Bmult mode_NE (Bmult mode_NE (Bmult mode_NE x zr) zr) (B754_infinity false) = @B754_nan 53 1024.
Proof. destruct x as [[]|[]| |[] k e H]; reflexivity. Qed.
Lemma or_zero main (s : bool) : or_main64 main (B754_zero s) = B754_zero s.
Proof. unfold or_main64. rewrite zero_lit. destruct s; reflexivity. Qed.
Lemma zero_deg : Bmult mode_NE zr degF = zr. Proof. apply B2SF_inj. vm_compute. reflexivity. Qed.
Section A.
Variable m : libm.
Notation F := (Farith m).
Lemma nv_nan t (pw rx ry rz azi dp sd : b64) : lm_sin m zr = zr -> (azi = zr /\ exists b, ry = B754_zero b) \/ (dp = zr /\ exists b, rz = B754_zero b) ->
  txx (@new_variogram F t pw rx ry rz azi dp sd) = @B754_nan 53 1024.
Proof.
  intros Hs H. cbn [new_variogram EstimateFactors txx range_x range_y range_z azimuth dip].
  change (mul F) with (@Bmult 53 1024 Hprec Hmax mode_NE). change (add F) with (@Bplus 53 1024 Hprec Hmax mode_NE). change (div F) with (@Bdiv 53 1024 Hprec Hmax mode_NE).
  change (lit F 1 0) with (Flit 1 0). change (fsin F) with (lm_sin m). change (fcos F) with (lm_cos m).
  destruct H as [[-> [b ->]]|[-> [b ->]]]; rewrite inf_zero, Hs.
  - replace (Bmult mode_NE (Bmult mode_NE zr zr) (B754_infinity false)) with (@B754_nan 53 1024) by reflexivity. rewrite add_nan_r. apply add_nan_l.
  - rewrite zero_inf. apply add_nan_r.
Qed.
Lemma txx_nan s main perp depth azi dp pw (v : variogram F) : @CreateVariogram F s main perp depth azi dp pw = Ok v -> lm_sin m (Flit 0 0) = Flit 0 0 ->
  (azi = Flit 0 0 /\ exists b, perp = B754_zero b) \/ (dp = Flit 0 0 /\ exists b, depth = B754_zero b) -> txx v = @B754_nan 53 1024.
Proof.
  intros HC Hs H. destruct (P_Accur11.created_F m _ _ _ _ _ _ _ v HC) as (q & E & _). set (t := vt v) in E. clearbody t.
  rewrite zero_lit in Hs. rewrite E. apply nv_nan; [exact Hs|].
  destruct H as [[-> [b ->]]|[-> [b ->]]]; [left|right]; (split; [rewrite zero_lit; exact zero_deg|exists b; exact (or_zero main b)]).
Qed.
Lemma zero_everywhere s main perp depth azi dp pw (v : variogram F) : @CreateVariogram F s main perp depth azi dp pw = Ok v -> lower s = "spherical"%string -> lm_sin m (Flit 0 0) = Flit 0 0 ->
  (azi = Flit 0 0 /\ exists b, perp = B754_zero b) \/ (dp = Flit 0 0 /\ exists b, depth = B754_zero b) ->
  forall x y z, @GetCorr1 F v x = Flit 0 0 /\ @GetCorr2 F v x y = Flit 0 0 /\ @GetCorr3 F v x y z = Flit 0 0.
Proof.
  intros HC Hl Hs H x y z. pose proof (named_type m s "spherical"%string SPHERICAL main perp depth azi dp pw v HC ltac:(cbn; tauto) Hl) as T.
  pose proof (txx_nan _ _ _ _ _ _ _ _ HC Hs H) as N. unfold GetCorr1, GetCorr2, GetCorr3.
  assert (D1 : @Distance1 F v x = nan). { unfold Distance1. rewrite N. change (mul F) with (@Bmult 53 1024 Hprec Hmax mode_NE). change (fsqrt F) with (@Bsqrt 53 1024 Hprec Hmax mode_NE). nans. }
  assert (D2 : @Distance2 F v x y = nan). { unfold Distance2. rewrite N. change (mul F) with (@Bmult 53 1024 Hprec Hmax mode_NE). change (add F) with (@Bplus 53 1024 Hprec Hmax mode_NE). change (fsqrt F) with (@Bsqrt 53 1024 Hprec Hmax mode_NE). nans. }
  assert (D3 : @Distance3 F v x y z = nan). { unfold Distance3. rewrite N. change (mul F) with (@Bmult 53 1024 Hprec Hmax mode_NE). change (add F) with (@Bplus 53 1024 Hprec Hmax mode_NE). change (fsqrt F) with (@Bsqrt 53 1024 Hprec Hmax mode_NE). nans. }
  rewrite D1, D2, D3. repeat split; exact (sph_nan m v T).
Qed.
Lemma corr_nan (v : variogram F) : lm_exp m nan = nan -> vt v <> N_TYPES -> ~ In (vt v) [CONSTANT; SPHERICAL; GENERAL_EXPONENTIAL] -> @Corr1D F v nan = nan.
Proof.
  intros He HN H. unfold Corr1D. change (mul F) with (@Bmult 53 1024 Hprec Hmax mode_NE). change (fexp F) with (lm_exp m). change (neg F) with (@Bopp 53 1024).
  destruct (vt v); try (exfalso; apply H; cbn; tauto); try congruence; cbv zeta; repeat (rewrite mul_nan_r || rewrite mul_nan_l); try exact He; try reflexivity; refine (eq_trans (f_equal (fun e => @Bmult 53 1024 Hprec Hmax mode_NE e _) He) (mul_nan_l _)).
Qed.
Lemma nan_everywhere s n t main perp depth azi dp pw (v : variogram F) : @CreateVariogram F s main perp depth azi dp pw = Ok v -> In (n, t) documented -> lower s = n ->
  ~ In t [CONSTANT; SPHERICAL; GENERAL_EXPONENTIAL] -> lm_sin m (Flit 0 0) = Flit 0 0 -> lm_exp m nan = nan ->
  (azi = Flit 0 0 /\ exists b, perp = B754_zero b) \/ (dp = Flit 0 0 /\ exists b, depth = B754_zero b) ->
  forall x y z, @GetCorr1 F v x = nan /\ @GetCorr2 F v x y = nan /\ @GetCorr3 F v x y z = nan.
Proof.
  intros HC Hin Hl Ht Hs He H x y z. pose proof (named_type m s n t main perp depth azi dp pw v HC Hin Hl) as T.
  assert (HN : vt v <> N_TYPES) by (destruct (P_Accur11.created_F m _ _ _ _ _ _ _ v HC) as (q & _ & N & _); exact N).
  rewrite <- T in Ht. pose proof (corr_nan v He HN Ht) as C.
  pose proof (txx_nan _ _ _ _ _ _ _ _ HC Hs H) as N. unfold GetCorr1, GetCorr2, GetCorr3.
  assert (D1 : @Distance1 F v x = nan). { unfold Distance1. rewrite N. change (mul F) with (@Bmult 53 1024 Hprec Hmax mode_NE). change (fsqrt F) with (@Bsqrt 53 1024 Hprec Hmax mode_NE). nans. }
  assert (D2 : @Distance2 F v x y = nan). { unfold Distance2. rewrite N. change (mul F) with (@Bmult 53 1024 Hprec Hmax mode_NE). change (add F) with (@Bplus 53 1024 Hprec Hmax mode_NE). change (fsqrt F) with (@Bsqrt 53 1024 Hprec Hmax mode_NE). nans. }
  assert (D3 : @Distance3 F v x y z = nan). { unfold Distance3. rewrite N. change (mul F) with (@Bmult 53 1024 Hprec Hmax mode_NE). change (add F) with (@Bplus 53 1024 Hprec Hmax mode_NE). change (fsqrt F) with (@Bsqrt 53 1024 Hprec Hmax mode_NE). nans. }
  rewrite D1, D2, D3. repeat split; exact C.
Qed.
Lemma lag_all s n t main perp depth azi dp pw (v : variogram F) : @CreateVariogram F s main perp depth azi dp pw = Ok v -> In (n, t) documented -> lower s = n -> lm_exp m nan = nan ->
  forall x y z, x = nan \/ y = nan \/ z = nan ->
  (t = CONSTANT -> @GetCorr1 F v nan = Flit 1 0 /\ @GetCorr2 F v x y = Flit 1 0 /\ @GetCorr3 F v x y z = Flit 1 0) /\
  (~ In t [CONSTANT; SPHERICAL; GENERAL_EXPONENTIAL] -> @GetCorr1 F v nan = nan /\ (x = nan \/ y = nan -> @GetCorr2 F v x y = nan) /\ @GetCorr3 F v x y z = nan).
Proof.
  intros HC Hin Hl He x y z H. pose proof (named_type m s n t main perp depth azi dp pw v HC Hin Hl) as T.
  assert (HN : vt v <> N_TYPES) by (destruct (P_Accur11.created_F m _ _ _ _ _ _ _ v HC) as (q & _ & N & _); exact N).
  unfold GetCorr1, GetCorr2, GetCorr3. split.
  - intros ->. unfold Corr1D. rewrite T. repeat split; reflexivity.
  - intros Ht. rewrite <- T in Ht. pose proof (corr_nan v He HN Ht) as C.
    assert (D1 : @Distance1 F v nan = nan). { unfold Distance1. change (mul F) with (@Bmult 53 1024 Hprec Hmax mode_NE). change (fsqrt F) with (@Bsqrt 53 1024 Hprec Hmax mode_NE). nans. }
    assert (D2 : x = nan \/ y = nan -> @Distance2 F v x y = nan).
    { intros G. unfold Distance2. change (mul F) with (@Bmult 53 1024 Hprec Hmax mode_NE). change (add F) with (@Bplus 53 1024 Hprec Hmax mode_NE). change (fsqrt F) with (@Bsqrt 53 1024 Hprec Hmax mode_NE). destruct G as [->| ->]; nans. }
    assert (D3 : @Distance3 F v x y z = nan).
    { unfold Distance3. change (mul F) with (@Bmult 53 1024 Hprec Hmax mode_NE). change (add F) with (@Bplus 53 1024 Hprec Hmax mode_NE). change (fsqrt F) with (@Bsqrt 53 1024 Hprec Hmax mode_NE). destruct H as [->|[->| ->]]; nans. }
    rewrite D1, D3. split; [exact C|]. split; [intros G; rewrite (D2 G)|]; exact C.
Qed.
End A.
