(** simulation_size in double precision: more cells, longer ranges and smaller spacings never give a smaller size. *)
From Coq Require Import ZArith Bool Lia Reals Lra String List.
From Flocq Require Import Core IEEE754.BinarySingleNaN.
From Verif Require Import Base Arith FloatArith M_Variogram M_Padding S_Random S_Normal S_Grow P_NormF S_CorrF P_CorrF S_Vario P_VarioNames.
Import ListNotations.
Open Scope R_scope.

(** ** finite results *)
Lemma over_not_fin (x : b64) s : B2SF x = binary_overflow 53 1024 mode_NE s -> fin x = false.
Proof. rewrite <- is_finite_SF_B2SF. intros ->. reflexivity. Qed.
Lemma fin_mult (x y : b64) : fin (Bm x y) = true -> fin x = true /\ fin y = true /\ B2R (Bm x y) = rnd (B2R x * B2R y).
Proof.
  intros H. pose proof (Bmult_correct 53 1024 Hprec Hmax mode_NE x y) as C. destruct (Rlt_bool _ _) in C.
  - destruct C as (V & Fi & _). rewrite H in Fi. symmetry in Fi. apply andb_true_iff in Fi as [A B]. auto.
  - apply over_not_fin in C. congruence.
Qed.
Lemma fin_div (x y : b64) : fin (Bdiv mode_NE x y) = true -> B2R y <> 0 -> fin x = true /\ B2R (Bdiv mode_NE x y) = rnd (B2R x / B2R y).
Proof.
  intros H N. pose proof (Bdiv_correct 53 1024 Hprec Hmax mode_NE x y N) as C. destruct (Rlt_bool _ _) in C.
  - destruct C as (V & Fi & _). rewrite H in Fi. auto.
  - apply over_not_fin in C. congruence.
Qed.
Lemma fin_minus (x y : b64) : fin (Bminus mode_NE x y) = true -> fin y = true -> fin x = true /\ B2R (Bminus mode_NE x y) = rnd (B2R x - B2R y).
Proof.
  intros H Y. assert (X : fin x = true) by (destruct x, y; try reflexivity; discriminate). split; [exact X|].
  pose proof (Bminus_correct 53 1024 Hprec Hmax mode_NE x y X Y) as C. destruct (Rlt_bool _ _) in C.
  - apply C.
  - destruct C as [C _]. apply over_not_fin in C. congruence.
Qed.
Lemma ofZ_exact n : (0 <= n < 2 ^ 53)%Z -> exactly (Fof n 0) (IZR n).
Proof.
  intros H. pose proof (binary_normalize_correct 53 1024 Hprec Hmax mode_NE n 0 false) as C. cbv zeta in C.
  assert (E : F2R (Float radix2 n 0) = IZR n) by (unfold F2R; simpl; ring). change {| Fnum := n; Fexp := 0 |} with (Float radix2 n 0) in C. rewrite E in C.
  assert (G : fmt (IZR n)) by (apply fmt_Z; lia). rewrite (rnd_id _ G) in C.
  destruct (Rlt_bool_spec (Rabs (IZR n)) (bpow radix2 1024)) as [L|L].
  - destruct C as (V & Fi & _). split; assumption.
  - exfalso. assert (IZR n < IZR (2 ^ 53)) by (apply IZR_lt; lia). assert (0 <= IZR n) by (apply IZR_le; lia).
    rewrite Rabs_pos_eq in L by assumption. change (IZR (2 ^ 53)) with (bpow radix2 53) in H0.
    pose proof (bpow_lt radix2 53 1024 ltac:(lia)). lra.
Qed.
Lemma to_int_F (m : libm) (x : b64) z : @to_int (Farith m) x = Ok z -> fin x = true /\ z = Ztrunc (B2R x) /\ (- 2 ^ 31 <= z < 2 ^ 31)%Z.
Proof.
  unfold to_int. cbn [ftrunc Farith]. destruct (is_finite x) eqn:Fi; [|discriminate]. destruct (fits_int (Btrunc x)) eqn:T; [|discriminate].
  intros E. injection E as <-. split; [reflexivity|]. split.
  - apply eq_IZR. rewrite Btrunc_correct by exact Hmax. unfold round, F2R, scaled_mantissa, cexp, FIX_exp. cbn [Fnum Fexp Z.opp bpow]. rewrite !Rmult_1_r. reflexivity.
  - unfold fits_int in T. apply andb_true_iff in T as [A B]. apply Z.leb_le in A. apply Z.ltb_lt in B. lia.
Qed.

(** subtracting a whole number from a larger double is exact *)
Lemma fmt_sub c n : fmt c -> (0 <= n)%Z -> IZR n <= c < IZR (2 ^ 53) -> fmt (c - IZR n).
Proof.
  intros Fc N [L U]. destruct (Req_dec c 0) as [Z|Z].
  { assert (n = 0)%Z as -> by (apply Z.le_antisymm; [apply le_IZR; lra|exact N]). rewrite Z, Rminus_0_r. apply generic_format_0. }
  assert (P : 0 < c) by (pose proof (IZR_le 0 n N); lra).
  set (e := cexp radix2 (SpecFloat.fexp 53 1024) c).
  assert (M : (mag radix2 c <= 53)%Z).
  { apply mag_le_bpow; [exact Z|]. rewrite Rabs_pos_eq by lra. exact U. }
  assert (E : (-1074 <= e <= 0)%Z) by (unfold e, cexp, SpecFloat.fexp, SpecFloat.emin; lia).
  set (k := Ztrunc (scaled_mantissa radix2 (SpecFloat.fexp 53 1024) c)).
  assert (Ec : c = IZR k * bpow radix2 e) by exact Fc.
  assert (En : IZR n = IZR (n * 2 ^ (- e)) * bpow radix2 e).
  { rewrite mult_IZR. change (2 ^ (- e))%Z with (radix2 ^ (- e))%Z. rewrite IZR_Zpower by lia. rewrite Rmult_assoc, <- bpow_plus.
    replace (- e + e)%Z with 0%Z by lia. cbn [bpow]. ring. }
  assert (K : (Z.abs k < 2 ^ 53)%Z).
  { apply lt_IZR. rewrite abs_IZR. apply Rmult_lt_reg_r with (bpow radix2 e); [apply bpow_gt_0|].
    rewrite <- (Rabs_pos_eq (bpow radix2 e)) at 1 by apply bpow_ge_0. rewrite <- Rabs_mult, <- Ec. rewrite Rabs_pos_eq by lra.
    change (IZR (2 ^ 53)) with (bpow radix2 53). rewrite <- bpow_plus.
    pose proof (bpow_mag_gt radix2 c) as G. rewrite Rabs_pos_eq in G by lra. eapply Rlt_le_trans; [exact G|]. apply bpow_le.
      unfold e, cexp, SpecFloat.fexp, SpecFloat.emin in *. lia. }
  assert (Kn : (0 <= n * 2 ^ (- e) <= k)%Z).
  { split; [apply Z.mul_nonneg_nonneg; [exact N|apply Z.pow_nonneg; lia]|]. apply le_IZR. apply Rmult_le_reg_r with (bpow radix2 e); [apply bpow_gt_0|].
    rewrite <- En, <- Ec. exact L. }
  apply generic_format_FLT. exists (Float radix2 (k - n * 2 ^ (- e)) e).
  - unfold F2R. cbn [Fnum Fexp]. rewrite minus_IZR, Rmult_minus_distr_r, <- En, <- Ec. reflexivity.
  - cbn [Fnum]. change (radix2 ^ 53)%Z with (2 ^ 53)%Z. lia.
  - cbn [Fexp]. clearbody e. change (SpecFloat.emin 53 1024) with (-1074)%Z. lia.
Qed.

Section Grow.
Context (m : libm).
Notation F := (Farith m).

(** one direction, for a given ratio *)
Definition pad_rule (ratio : b64) (n : Z) (range step : b64) : outcome Z :=
  let* a := @to_int F (Bminus mode_NE (Bdiv mode_NE (Bm ratio range) step) (Fof n 0)) in
  let* b := @to_int F (Bdiv mode_NE range step) in
  let k := Z.max a b in if (k =? 2 ^ 31 - 1)%Z then UB SignedOverflow else Ok (u64 (k + 1)).
Lemma pad_is (v : variogram F) n range step : FindGaussianFieldPadding v n range step = pad_rule (GetMinimumRangeToGridRatio v) n range step.
Proof. reflexivity. Qed.

(** what a padding says, with [c] the wanted number of cells *)
Lemma pad_facts ratio n range step p : pad_rule ratio n range step = Ok p -> longer range range -> longer step step -> (0 <= n <= 2 ^ 52)%Z ->
  exists c a b : Z, exists C : R,
    p = (Z.max a b + 1)%Z /\ fin ratio = true /\ C = rnd (rnd (B2R ratio * B2R range) / B2R step) /\
    b = Ztrunc (rnd (B2R range / B2R step)) /\ (0 <= b)%Z /\ (0 < p <= 2 ^ 31)%Z /\
    (IZR n <= C -> c = Ztrunc C /\ (n + a = c)%Z) /\ (C < IZR n -> (a <= 0)%Z).
Proof.
  intros H (R1 & _ & R2 & _) (S1 & _ & S2 & _) N. unfold pad_rule in H.
  destruct (@to_int F _) as [a| | |] eqn:A in H; cbn [bind] in H; try discriminate H.
  destruct (@to_int F _) as [b| | |] eqn:B in H; cbn [bind] in H; try discriminate H.
  apply to_int_F in A as (A1 & A2 & A3). apply to_int_F in B as (B1 & B2 & B3).
  destruct (ofZ_exact n ltac:(lia)) as [On1 On2].
  destruct (fin_minus _ _ A1 On1) as [A4 A5]. destruct (fin_div _ _ A4 ltac:(lra)) as [A6 A7]. destruct (fin_mult _ _ A6) as (A8 & _ & A9).
  destruct (fin_div _ _ B1 ltac:(lra)) as [_ B5].
  rewrite On2 in A5.
  set (C := B2R (Bdiv mode_NE (Bm ratio range) step)) in *.
  assert (Bp : (0 <= b)%Z).
  { rewrite B2, B5. rewrite Ztrunc_floor; [apply Zfloor_lub|]; rewrite <- (rnd_id 0 fmt_0); apply rnd_mono; apply Rlt_le, Rdiv_lt_0_compat; assumption. }
  cbv zeta in H. destruct (Z.eqb_spec (Z.max a b) (2 ^ 31 - 1)) as [Eq|Ne]; [discriminate H|]. injection H as <-.
  assert (U : u64 (Z.max a b + 1) = (Z.max a b + 1)%Z) by (unfold u64; apply Z.mod_small; lia). rewrite U.
  exists (Ztrunc C), a, b, C. split; [reflexivity|]. split; [exact A8|]. split; [rewrite <- A9; exact A7|]. split; [rewrite <- B5; exact B2|].
  split; [exact Bp|]. split; [lia|]. split.
  - intros L. split; [reflexivity|].
    assert (FC : fmt C) by apply generic_format_B2R.
    assert (U53 : C < IZR (2 ^ 53) \/ IZR (2 ^ 53) <= C) by (destruct (Rlt_le_dec C (IZR (2 ^ 53))); auto).
    destruct U53 as [U53|U53].
    + rewrite rnd_id in A5 by (apply fmt_sub; [exact FC|lia|lra]). rewrite A2, A5.
      assert (0 <= IZR n) by (apply IZR_le; lia).
      rewrite !Ztrunc_floor by lra. replace (C - IZR n) with (C + IZR (- n)) by (rewrite opp_IZR; ring). 
      assert (Zfloor (C + IZR (- n)) = Zfloor C - n)%Z as ->; [|lia].
      apply Zfloor_imp. pose proof (Zfloor_lb C). pose proof (Zfloor_ub C). rewrite plus_IZR, minus_IZR, opp_IZR. lra.
    + exfalso. assert (X : IZR (2 ^ 52) <= rnd (C - IZR n)).
      { rewrite <- (rnd_id (IZR (2 ^ 52))) by (apply fmt_Z; lia). apply rnd_mono. assert (IZR n <= IZR (2 ^ 52)) by (apply IZR_le; lia).
        change (2 ^ 53)%Z with (2 ^ 52 + 2 ^ 52)%Z in U53. rewrite plus_IZR in U53. lra. }
      rewrite <- A5 in X. apply Ztrunc_le in X. rewrite Ztrunc_IZR in X. rewrite <- A2 in X. lia.
  - intros L. rewrite A2, A5. assert (rnd (C - IZR n) <= 0) by (rewrite <- (rnd_id 0 fmt_0); apply rnd_mono; lra).
    rewrite Ztrunc_ceil by assumption. apply Zceil_glb. exact H.
Qed.
Lemma longer_l r r' : longer r r' -> longer r r. Proof. unfold longer. intuition lra. Qed.
Lemma longer_r r r' : longer r r' -> longer r' r'. Proof. unfold longer. intuition lra. Qed.
Lemma quot_le a b a' b' : 0 <= a <= a' -> 0 < b' <= b -> a / b <= a' / b'.
Proof.
  intros A B. unfold Rdiv. apply Rmult_le_compat; [lra| |lra|].
  - apply Rlt_le, Rinv_0_lt_compat; lra.
  - apply Rinv_le_contravar; lra.
Qed.
Lemma size_grows ratio n n' range range' step step' p p' : pad_rule ratio n range step = Ok p -> pad_rule ratio n' range' step' = Ok p' ->
  longer range range' -> longer step' step -> more n n' -> (u64 (p + n) <= u64 (p' + n'))%Z.
Proof.
  intros P P' Lr Ls (N1 & N2). 
  destruct (pad_facts _ _ _ _ _ P (longer_l _ _ Lr) (longer_r _ _ Ls) ltac:(lia)) as (c & a & b & C & E & Fr & EC & Eb & B0 & Pp & H1 & H2).
  destruct (pad_facts _ _ _ _ _ P' (longer_r _ _ Lr) (longer_l _ _ Ls) ltac:(lia)) as (c' & a' & b' & C' & E' & _ & EC' & Eb' & B0' & Pp' & H1' & H2').
  unfold u64. rewrite !Z.mod_small by lia. destruct Lr as (_ & _ & R1), Ls as (_ & _ & S1).
  assert (Bb : (b <= b')%Z) by (rewrite Eb, Eb'; apply Ztrunc_le, rnd_mono, quot_le; lra).
  enough (n + a <= n' + Z.max a' b')%Z by lia.
  destruct (Rlt_le_dec C (IZR n)) as [L|L]; [specialize (H2 L); lia|]. destruct (H1 L) as [Ec Ea].
  destruct (Rle_lt_dec C 0) as [C0|C0].
  { rewrite Ea, Ec. rewrite Ztrunc_ceil by exact C0. assert (Zceil C <= 0)%Z by (apply Zceil_glb; exact C0). lia. }
  assert (Ra : 0 < B2R ratio).
  { destruct (Rlt_le_dec 0 (B2R ratio)) as [G|G]; [exact G|exfalso]. apply (Rlt_not_le _ _ C0). rewrite EC, <- (rnd_id 0 fmt_0). apply rnd_mono.
    assert (rnd (B2R ratio * B2R range) <= 0) by (rewrite <- (rnd_id 0 fmt_0); apply rnd_mono; nra).
    assert (0 < / B2R step) by (apply Rinv_0_lt_compat; lra). unfold Rdiv. nra. }
  assert (CC : C <= C').
  { rewrite EC, EC'. apply rnd_mono, quot_le; [|lra]. split; [rewrite <- (rnd_id 0 fmt_0); apply rnd_mono; nra|apply rnd_mono; nra]. }
  rewrite Ea, Ec. destruct (Rlt_le_dec C' (IZR n')) as [L'|L'].
  - assert (Ztrunc C <= n')%Z; [|lia]. rewrite Ztrunc_floor by lra. apply le_IZR. pose proof (Zfloor_lb C). lra.
  - destruct (H1' L') as [Ec' Ea']. assert (Ztrunc C <= Ztrunc C')%Z by (apply Ztrunc_le; exact CC). lia.
Qed.

Lemma fmax_grows (a b a' b' : b64) : longer a a' -> longer b b' -> longer (@fmax F a b) (@fmax F a' b').
Proof.
  intros (A1 & A2 & A3) (B1 & B2 & B3). unfold fmax. cbn [flt Farith num]. unfold longer.
  rewrite !Bltb_correct by assumption. destruct (Rlt_bool_spec (B2R a) (B2R b)), (Rlt_bool_spec (B2R a') (B2R b')); intuition lra.
Qed.
Lemma fmax_above (a b a' : b64) : longer a a' -> fin b = true -> longer a (@fmax F a' b).
Proof.
  intros (A1 & A2 & A3) B. unfold fmax. cbn [flt Farith num]. unfold longer.
  rewrite Bltb_correct by assumption. destruct (Rlt_bool_spec (B2R a') (B2R b)); intuition lra.
Qed.
Lemma created_F s main perp depth azi dp p (v : variogram F) : CreateVariogram (A := F) s main perp depth azi dp p = Ok v ->
  range_x v = main /\ range_y v = given main perp /\ range_z v = given main depth /\ azimuth v = Bm azi (@Degree F) /\
  (forall main' perp' depth' dp' v', CreateVariogram (A := F) s main' perp' depth' azi dp' p = Ok v' ->
    GetMinimumRangeToGridRatio v' = GetMinimumRangeToGridRatio v).
Proof.
  assert (Z : lit F 0 0 = B754_zero false) by (apply B2SF_inj; vm_compute; reflexivity).
  unfold CreateVariogram. destruct (Uppercase s) as [u| | |]; cbn [bind]; try discriminate.
  unfold given. rewrite Z. cbn [flt Farith num mul].
  destruct (type_of_name u); cbn [Create]; intros E; try discriminate E; injection E as <-;
    (split; [reflexivity|]; split; [reflexivity|]; split; [reflexivity|]; split; [reflexivity|]; intros ? ? ? ? ? E'; injection E' as <-; reflexivity).
Qed.

Theorem grow s main perp depth azi dp p nx dx ny dy nz dz main' perp' depth' dp' nx' dx' ny' dy' nz' dz' (v v' : variogram F) l l' :
  CreateVariogram (A := F) s main perp depth azi dp p = Ok v -> CreateVariogram (A := F) s main' perp' depth' azi dp' p = Ok v' ->
  FindGridSizeAfterPadding v nx dx ny dy nz dz = Ok l -> FindGridSizeAfterPadding v' nx' dx' ny' dy' nz' dz' = Ok l' ->
  longer main main' -> longer (given main perp) (given main' perp') -> longer (given main depth) (given main' depth') ->
  more nx nx' -> more ny ny' -> more nz nz' ->
  longer dx' dx -> ((1 < ny)%Z -> longer dy' dy) -> ((1 < nz)%Z -> longer dz' dz) -> fits_in l l'.
Proof.
  intros C C' H H' Lm Lp Ld Nx Ny Nz Dx Dy Dz.
  destruct (created_F _ _ _ _ _ _ _ _ C) as (X & Y & Z & Az & Ra). specialize (Ra _ _ _ _ _ C').
  destruct (created_F _ _ _ _ _ _ _ _ C') as (X' & Y' & Z' & Az' & _).
  unfold FindGridSizeAfterPadding, FindNDimPadding in H, H'. rewrite X, Y, Z, Az in H. rewrite X', Y', Z', Az' in H'.
  rewrite ?pad_is in H, H'. rewrite Ra in H'. set (ra := GetMinimumRangeToGridRatio v) in *.
  set (az := feq F _ _) in *.
  pose proof (fmax_grows _ _ _ _ Lm Lp) as Lx. pose proof (fmax_above main (given main' perp') main' Lm ltac:(apply Lp)) as Lx1.
  set (rx := fmax main (given main perp)) in *. set (rx' := fmax main' (given main' perp')) in *.
  assert (Ly : longer (if az then given main perp else rx) (if az then given main' perp' else rx')) by (destruct az; assumption).
  set (ry := if az then _ else rx) in *. set (ry' := if az then _ else rx') in *.
  assert (Ny1 : (ny <= ny')%Z) by apply Ny. assert (Nz1 : (nz <= nz')%Z) by apply Nz.
  Local Ltac unb H := repeat match type of H with context [pad_rule ?a ?b ?c ?d] => let q := fresh "q" in let E := fresh "E" in
    destruct (pad_rule a b c d) as [q| | |] eqn:E in H; cbn [bind] in H; try discriminate H end.
  destruct (Z.leb_spec ny 1) as [L1|L1]; destruct (Z.leb_spec ny' 1) as [L1'|L1']; try lia.
  - unb H. unb H'. injection H as <-. injection H' as <-. intros [|[|i]] x Hx; try discriminate Hx. injection Hx as <-. eexists; split; [reflexivity|].
    eapply size_grows; eassumption.
  - destruct (Z.leb_spec nz' 1); unb H; unb H'; injection H as <-; injection H' as <-; (intros [|[|i]] x Hx; try discriminate Hx; injection Hx as <-; eexists; split; [reflexivity|];
    eapply size_grows; eassumption).
  - specialize (Dy ltac:(lia)). destruct (Z.leb_spec nz 1), (Z.leb_spec nz' 1); try lia.
    + unb H. unb H'. injection H as <-. injection H' as <-. intros [|[|[|i]]] x Hx; try discriminate Hx; injection Hx as <-; eexists; (split; [reflexivity|]); eapply size_grows; eassumption.
    + unb H. unb H'. injection H as <-. injection H' as <-. intros [|[|[|i]]] x Hx; try discriminate Hx; injection Hx as <-; eexists; (split; [reflexivity|]); eapply size_grows; eassumption.
    + specialize (Dz ltac:(lia)). unb H. unb H'. injection H as <-. injection H' as <-.
      intros [|[|[|[|i]]]] x Hx; try discriminate Hx; injection Hx as <-; eexists; (split; [reflexivity|]); eapply size_grows; eassumption.
Qed.
End Grow.

(** ** examples *)
Definition d64 (n : Z) : b64 := Fof n 0.
Lemma mirror_size (m : libm) :
  (let* v := CreateVariogram (A := Farith m) "spherical" (d64 100) (d64 10) (d64 5) (d64 0) (d64 0) (d64 1) in
   FindGridSizeAfterPadding v 10 (d64 1) 10 (d64 1) 1 (d64 1)) = Ok [193; 21]%Z /\
  (let* v := CreateVariogram (A := Farith m) "spherical" (d64 100) (d64 10) (d64 5) (d64 90) (d64 0) (d64 1) in
   FindGridSizeAfterPadding v 10 (d64 1) 10 (d64 1) 1 (d64 1)) = Ok [193; 193]%Z.
Proof.
  assert (G : forall azi az, Beqb (Bm azi (Flit 1745329251994329576924 23)) (Flit 0 0) = az ->
    (let* v := CreateVariogram (A := Farith m) "spherical" (d64 100) (d64 10) (d64 5) azi (d64 0) (d64 1) in
     FindGridSizeAfterPadding v 10 (d64 1) 10 (d64 1) 1 (d64 1)) = Ok [193; if az then 21 else 193]%Z).
  { intros azi az E.
    destruct (@names_documented (Farith m) "spherical" "spherical" SPHERICAL (d64 100) (d64 10) (d64 5) azi (d64 0) (d64 1)) as (v & C & T);
      [cbn; tauto|reflexivity|cbn; lia|].
    rewrite C. cbn [bind]. pose proof (created_F _ _ _ _ _ _ _ _ _ C) as (X & Y & Z & Az & _). clear C.
    assert (Ra : GetMinimumRangeToGridRatio v = Flit 192 2) by (unfold GetMinimumRangeToGridRatio; rewrite T; reflexivity). clear T.
    unfold FindGridSizeAfterPadding, FindNDimPadding. rewrite X, Y, Z, Az, !pad_is, Ra.
    change (feq (Farith m) (Bm azi (@Degree (Farith m))) (lit (Farith m) 0 0)) with (Beqb (Bm azi (Flit 1745329251994329576924 23)) (Flit 0 0)). rewrite E.
    clear. destruct az; vm_compute; reflexivity. }
  split; [apply (G _ true)|apply (G _ false)]; vm_compute; reflexivity.
Qed.
Lemma grow_case (m : libm) : exists v,
  CreateVariogram (A := Farith m) "spherical" (d64 100) (d64 10) (d64 5) (d64 0) (d64 0) (d64 1) = Ok v /\
  FindGridSizeAfterPadding v 10 (d64 1) 10 (d64 1) 1 (d64 1) = Ok [193; 21]%Z /\
  FindGridSizeAfterPadding v 30 (d64 1) 30 (d64 1) 2 (d64 1) = Ok [193; 41; 10]%Z.
Proof.
  destruct (@names_documented (Farith m) "spherical" "spherical" SPHERICAL (d64 100) (d64 10) (d64 5) (d64 0) (d64 0) (d64 1)) as (v & C & T);
    [cbn; tauto|reflexivity|cbn; lia|].
  exists v. split; [exact C|]. pose proof (created_F _ _ _ _ _ _ _ _ _ C) as (X & Y & Z & Az & _). clear C.
  assert (Ra : GetMinimumRangeToGridRatio v = Flit 192 2) by (unfold GetMinimumRangeToGridRatio; rewrite T; reflexivity). clear T.
  assert (E : feq (Farith m) (azimuth v) (lit (Farith m) 0 0) = true).
  { rewrite Az. change (feq (Farith m) (Bm (d64 0) (@Degree (Farith m))) (lit (Farith m) 0 0)) with (Beqb (Bm (d64 0) (Flit 1745329251994329576924 23)) (Flit 0 0)). vm_compute; reflexivity. }
  unfold FindGridSizeAfterPadding, FindNDimPadding. rewrite E, X, Y, Z, !pad_is, Ra. clear. split; vm_compute; reflexivity.
Qed.
Lemma d64_longer a b : (0 < a <= b)%Z -> (b < 2 ^ 53)%Z -> longer (d64 a) (d64 b).
Proof.
  intros H H'. destruct (ofZ_exact a ltac:(lia)) as [A1 A2], (ofZ_exact b ltac:(lia)) as [B1 B2]. unfold longer, d64. rewrite A2, B2.
  split; [exact A1|]. split; [exact B1|]. split; [apply IZR_lt; lia|apply IZR_le; lia].
Qed.
