(** Normal draws in doubles. *)
From Coq Require Import ZArith Bool Lia Reals Lra List.
From Flocq Require Import Core IEEE754.BinarySingleNaN.
From Verif Require Import Base Arith FloatArith M_Random S_Random S_Normal.
Import ListNotations.
Open Scope R_scope.

Notation fmt := (generic_format radix2 (SpecFloat.fexp 53 1024)).
Notation rnd := (round radix2 (SpecFloat.fexp 53 1024) (round_mode mode_NE)).
Notation fin := (@is_finite 53 1024).

Lemma rnd_between lo hi r : fmt lo -> fmt hi -> lo <= r <= hi -> lo <= rnd r <= hi.
Proof.
  intros Hl Hh [A B]. split.
  - rewrite <- (round_generic radix2 (SpecFloat.fexp 53 1024) (round_mode mode_NE) lo Hl). apply round_le; [|apply valid_rnd_round_mode|exact A].
    apply fexp_correct. exact Hprec.
  - rewrite <- (round_generic radix2 (SpecFloat.fexp 53 1024) (round_mode mode_NE) hi Hh). apply round_le; [|apply valid_rnd_round_mode|exact B].
    apply fexp_correct. exact Hprec.
Qed.
Definition big : R := bpow radix2 1000.
Lemma big_lt : big < bpow radix2 1024.
Proof. apply bpow_lt. lia. Qed.
Lemma no_over lo hi r : fmt lo -> fmt hi -> lo <= r <= hi -> - big <= lo -> hi <= big -> Rlt_bool (Rabs (rnd r)) (bpow radix2 1024) = true.
Proof.
  intros Hl Hh H L U. apply Rlt_bool_true. pose proof (rnd_between lo hi r Hl Hh H). pose proof big_lt.
  apply Rle_lt_trans with big; [|exact H1]. apply Rabs_le. lra.
Qed.

Section Ops.
Variables lo hi : R.
Hypothesis Hl : fmt lo.
Hypothesis Hh : fmt hi.
Hypothesis L : - big <= lo.
Hypothesis U : hi <= big.
Definition within (x : b64) : Prop := fin x = true /\ lo <= B2R x <= hi.
Lemma plus_in x y : fin x = true -> fin y = true -> lo <= B2R x + B2R y <= hi -> within (Bplus mode_NE x y).
Proof.
  intros Hx Hy H. pose proof (Bplus_correct 53 1024 Hprec Hmax mode_NE x y Hx Hy) as C.
  rewrite (no_over lo hi _ Hl Hh H L U) in C. destruct C as [E [F _]]. split; [exact F|]. rewrite E. apply rnd_between; assumption.
Qed.
Lemma minus_in x y : fin x = true -> fin y = true -> lo <= B2R x - B2R y <= hi -> within (Bminus mode_NE x y).
Proof.
  intros Hx Hy H. pose proof (Bminus_correct 53 1024 Hprec Hmax mode_NE x y Hx Hy) as C.
  rewrite (no_over lo hi _ Hl Hh H L U) in C. destruct C as [E [F _]]. split; [exact F|]. rewrite E. apply rnd_between; assumption.
Qed.
Lemma mult_in x y : fin x = true -> fin y = true -> lo <= B2R x * B2R y <= hi -> within (Bmult mode_NE x y).
Proof.
  intros Hx Hy H. pose proof (Bmult_correct 53 1024 Hprec Hmax mode_NE x y) as C.
  rewrite (no_over lo hi _ Hl Hh H L U) in C. destruct C as [E [F _]]. split; [rewrite F, Hx, Hy; reflexivity|]. rewrite E. apply rnd_between; assumption.
Qed.
Lemma div_in x y : fin x = true -> B2R y <> 0 -> lo <= B2R x / B2R y <= hi -> within (Bdiv mode_NE x y).
Proof.
  intros Hx Hy H. pose proof (Bdiv_correct 53 1024 Hprec Hmax mode_NE x y Hy) as C.
  rewrite (no_over lo hi _ Hl Hh H L U) in C. destruct C as [E [F _]]. split; [rewrite F, Hx; reflexivity|]. rewrite E. apply rnd_between; assumption.
Qed.
Lemma sqrt_in x : fin x = true -> 0 < B2R x -> lo <= sqrt (B2R x) <= hi -> within (Bsqrt mode_NE x).
Proof.
  intros Hx Hp H. pose proof (Bsqrt_correct 53 1024 Hprec Hmax mode_NE x) as C.
  destruct C as [E [F _]]. split.
  - rewrite F. destruct x as [s|s| |s k e]; try discriminate; [reflexivity|]. destruct s; [|reflexivity]. exfalso.
    assert (B2R (B754_finite true k e e0) < 0) by (apply F2R_lt_0; reflexivity). lra.
  - rewrite E. apply rnd_between; assumption.
Qed.
End Ops.

Lemma fmt_pow e : (-1000 <= e <= 1000)%Z -> fmt (bpow radix2 e).
Proof. intros H. apply generic_format_bpow. unfold SpecFloat.fexp, SpecFloat.emin. lia. Qed.
Lemma fmt_Z z : (Z.abs z < 2 ^ 53)%Z -> fmt (IZR z).
Proof.
  intros H. apply generic_format_FLT.
  exists (Float radix2 z 0); [unfold F2R; simpl; ring|cbn [Fnum]; change (radix2 ^ 53)%Z with (2 ^ 53)%Z; lia|cbn; lia].
Qed.
Lemma fmt_half z : (Z.abs z <= 2 ^ 50)%Z -> fmt (IZR z / 2).
Proof.
  intros H. apply generic_format_FLT. exists (Float radix2 z (-1)); [unfold F2R; simpl; lra|cbn [Fnum]; change (radix2 ^ 53)%Z with (2 ^ 53)%Z; lia|cbn; lia].
Qed.

(** the literals *)
Lemma lit_fin (x : b64) s m e r : B2SF x = SpecFloat.S754_finite s m e -> F2R (Float radix2 (cond_Zopp s (Zpos m)) e) = r -> exactly x r.
Proof. intros E H. destruct x; try discriminate. injection E as -> -> ->. split; [reflexivity|exact H]. Qed.
Ltac lit_t := eapply lit_fin; [vm_compute; reflexivity|unfold F2R; cbn [Fnum Fexp cond_Zopp]; unfold bpow, radix2, Zpower_pos; simpl; lra].
Lemma l1 : exactly (Flit 1 0) 1. Proof. lit_t. Qed.
Lemma l2 : exactly (Flit 2 0) 2. Proof. lit_t. Qed.
Lemma l3 : exactly (Flit 3 0) 3. Proof. lit_t. Qed.
Lemma l6 : exactly (Flit 6 0) 6. Proof. lit_t. Qed.
Lemma l9 : exactly (Flit 9 0) 9. Proof. lit_t. Qed.
Lemma l15 : exactly (Flit 15 1) (3 / 2). Proof. lit_t. Qed.

Lemma big_3 : 4096 <= big. Proof. change 4096 with (bpow radix2 12). apply bpow_le. lia. Qed.

Lemma below (u x y : b64) : fin u = true -> fin x = true -> fin y = true -> Bltb u x = true -> B2R x <= B2R y -> Bltb u y = true.
Proof.
  intros Hu Hx Hy H L. rewrite Bltb_correct in * by assumption. apply Rlt_bool_true.
  destruct (Rlt_bool_spec (B2R u) (B2R x)); [lra|discriminate].
Qed.
Lemma Ok_pair {X Y : Type} (a c : X) (b d : Y) : Ok (a, b) = Ok (c, d) -> a = c /\ b = d.
Proof. intros H. injection H as <- <-. split; reflexivity. Qed.

(** ** The draws *)
Section Draw.
Variable m : libm.
Context {S : Type}.
Variable unif : S -> b64 * S.
Notation F := (Farith m).

Definition nextst (s : S) : S := snd (unif s).
Definition ok (s : S) : Prop := uniform_doubles unif s /\ no_two_halves unif s.
Lemma drawn_S s n : drawn unif (nextst s) n = drawn unif s (Datatypes.S n).
Proof.
  unfold drawn, nextst. f_equal. f_equal. induction n; cbn [Nat.iter]; [reflexivity|]. unfold Nat.iter in *. cbn [nat_rect] in *. rewrite IHn. reflexivity.
Qed.
Lemma ok_next s : ok s -> ok (nextst s).
Proof. intros [A B]. split; intros n; rewrite ?drawn_S; [apply A|apply B]. Qed.
Lemma ok_unit s : ok s -> fin (fst (unif s)) = true /\ 0 <= B2R (fst (unif s)) <= 1.
Proof.
  intros [A _]. destruct (A 0%nat) as [k [Hk [H1 H2]]]. change (drawn unif s 0) with (fst (unif s)) in *. split; [exact H1|].
  rewrite H2. assert (0 <= IZR k) by (apply IZR_le; lia). assert (IZR k <= IZR (2 ^ 52)) by (apply IZR_le; lia).
  assert (P : 0 < IZR (2 ^ 52)) by (apply IZR_lt; lia).
  set (q := IZR (2 ^ 52)) in *. clearbody q. assert (I : q * / q = 1) by (field; lra). assert (0 < / q) by (apply Rinv_0_lt_compat; lra).
  unfold Rdiv. nra.
Qed.
Lemma within_exact x r : within r r x -> exactly x r.
Proof. intros [A B]. split; [exact A|lra]. Qed.
Ltac fz := apply fmt_Z; lia.

Lemma ok_v s : ok s -> exists z, (Z.abs z <= 2 ^ 51)%Z /\
  exactly (sub F (mul F (lit F 2 0) (fst (unif s))) (lit F 1 0)) (IZR z * bpow radix2 (-51)) /\
  (z = 0%Z -> exactly (fst (unif s)) (1 / 2)).
Proof.
  intros [A _]. destruct (A 0%nat) as [k [Hk [H1 H2]]]. change (drawn unif s 0) with (fst (unif s)) in *.
  exists (k - 2 ^ 51)%Z. split; [lia|].
  assert (E51 : IZR (2 ^ 51) * bpow radix2 (-51) = 1).
  { change (IZR (2 ^ 51)) with (bpow radix2 51). rewrite <- bpow_plus. reflexivity. }
  assert (E52 : / IZR (2 ^ 52) = bpow radix2 (-51) / 2).
  { change (2 ^ 52)%Z with (2 * 2 ^ 51)%Z. rewrite mult_IZR. assert (0 < bpow radix2 (-51)) by apply bpow_gt_0.
    assert (0 < IZR (2 ^ 51)) by (apply IZR_lt; lia). apply Rmult_eq_reg_l with (2 * IZR (2 ^ 51)); [|lra]. field_simplify; lra. }
  assert (B51 : 0 < bpow radix2 (-51) < 1) by (split; [apply bpow_gt_0|change 1 with (bpow radix2 0); apply bpow_lt; lia]).
  assert (Fm : forall z, (Z.abs z < 2 ^ 53)%Z -> fmt (IZR z * bpow radix2 (-51))).
  { intros z Hz. apply generic_format_FLT. exists (Float radix2 z (-51)); [reflexivity|cbn [Fnum]; change (radix2 ^ 53)%Z with (2 ^ 53)%Z; lia|cbn; lia]. }
  assert (Bd : forall z, (Z.abs z <= 2 ^ 52)%Z -> - big <= IZR z * bpow radix2 (-51) <= big).
  { intros z Hz. pose proof big_3. apply Rcomplements.Rabs_le_between || apply Rabs_le_inv. 
    rewrite Rabs_mult, (Rabs_pos_eq (bpow radix2 (-51))) by lra. rewrite <- abs_IZR. apply IZR_le in Hz.
    apply Rle_trans with (IZR (2 ^ 52) * bpow radix2 (-51)); [apply Rmult_le_compat_r; lra|].
    change (2 ^ 52)%Z with (2 * 2 ^ 51)%Z. rewrite mult_IZR, Rmult_assoc, E51. lra. }
  destruct l2 as [L1 L2]. destruct l1 as [O1 O2].
  assert (M : exactly (Bmult mode_NE (Flit 2 0) (fst (unif s))) (IZR k * bpow radix2 (-51))).
  { apply within_exact. apply mult_in; auto; try (apply Fm; lia); try (apply Bd; lia).
    rewrite L2, H2. unfold Rdiv. rewrite E52. lra. }
  destruct M as [M1 M2]. split.
  - apply within_exact. cbn [sub mul lit Farith]. apply minus_in; auto; try (apply Fm; lia); try (apply Bd; lia).
    rewrite M2, O2, minus_IZR. rewrite Rmult_minus_distr_r, E51. lra.
  - intros Z. split; [exact H1|]. rewrite H2. replace k with (2 ^ 51)%Z by lia. unfold Rdiv. rewrite E52. lra.
Qed.

Lemma fmt0 : fmt 0. Proof. apply generic_format_0. Qed.
Lemma sq_in (v : b64) z : (Z.abs z <= 2 ^ 51)%Z -> exactly v (IZR z * bpow radix2 (-51)) ->
  within 0 1 (mul F v v) /\ (z <> 0%Z -> within (bpow radix2 (-102)) 1 (mul F v v)).
Proof.
  intros Hz [V1 V2]. cbn [mul Farith]. pose proof big_3.
  assert (B : 0 <= B2R v * B2R v <= 1).
  { assert (Rabs (B2R v) <= 1).
    { rewrite V2, Rabs_mult, (Rabs_pos_eq (bpow radix2 (-51))) by apply bpow_ge_0. rewrite <- abs_IZR. apply IZR_le in Hz.
      apply Rle_trans with (IZR (2 ^ 51) * bpow radix2 (-51)); [apply Rmult_le_compat_r; [apply bpow_ge_0|lra]|].
      change (IZR (2 ^ 51)) with (bpow radix2 51). rewrite <- bpow_plus. change (bpow radix2 (51 + -51)) with 1. lra. }
    apply Rcomplements.Rabs_le_between in H0. nra. }
  split.
  - apply mult_in; auto; try apply fmt0; try fz; lra.
  - intros N. assert (P102 : 0 < bpow radix2 (-102)) by apply bpow_gt_0.
    apply mult_in; auto; try fz; try (apply fmt_pow; lia); try lra. split; [|lra].
    rewrite V2. replace (bpow radix2 (-102)) with (bpow radix2 (-51) * bpow radix2 (-51)) by (rewrite <- bpow_plus; reflexivity).
    assert (1 <= IZR (z * z)) by (apply IZR_le; nia). rewrite mult_IZR in H0. pose proof (bpow_gt_0 radix2 (-51)). set (b := bpow radix2 (-51)) in *. clearbody b. 
    assert (0 < b * b) by nra. nra.
Qed.

(** what one accepted point of the disc gives *)
Definition disc_ok (p : b64 * b64 * b64) : Prop := let '(v1, v2, w) := p in
  within (-1) 1 v1 /\ within (-1) 1 v2 /\ fin w = true /\ bpow radix2 (-102) <= B2R w < 1.

Lemma v_in (v : b64) z : (Z.abs z <= 2 ^ 51)%Z -> exactly v (IZR z * bpow radix2 (-51)) -> within (-1) 1 v.
Proof.
  intros Hz [V1 V2]. split; [exact V1|]. apply Rcomplements.Rabs_le_between.
  rewrite V2, Rabs_mult, (Rabs_pos_eq (bpow radix2 (-51))) by apply bpow_ge_0. rewrite <- abs_IZR. apply IZR_le in Hz.
  apply Rle_trans with (IZR (2 ^ 51) * bpow radix2 (-51)); [apply Rmult_le_compat_r; [apply bpow_ge_0|lra]|].
  change (IZR (2 ^ 51)) with (bpow radix2 51). rewrite <- bpow_plus. change (bpow radix2 (51 + -51)) with 1. lra.
Qed.

Lemma disc_in n : forall s v1 v2 w s', ok s -> disc (A := F) unif n s = Ok (v1, v2, w, s') ->
  disc_ok (v1, v2, w) /\ ok s'.
Proof.
  induction n; intros s v1 v2 w s' Hs H; [discriminate|]. cbn [disc] in H.
  pose proof (ok_next s Hs) as Hs1. pose proof (ok_next _ Hs1) as Hs2.
  destruct (ok_v s Hs) as [z1 [Z1 [V1 N1]]]. destruct (ok_v (nextst s) Hs1) as [z2 [Z2 [V2 N2]]].
  assert (NZ : z1 <> 0%Z \/ z2 <> 0%Z).
  { destruct (Z.eq_dec z1 0) as [E1|E1]; [|left; exact E1]. destruct (Z.eq_dec z2 0) as [E2|E2]; [|right; exact E2]. exfalso.
    apply (proj2 Hs 0%nat). split; [exact (N1 E1)|exact (N2 E2)]. }
  unfold nextst in *. destruct (unif s) as [a t] eqn:Ea. cbn [fst snd] in *. destruct (unif t) as [b t'] eqn:Eb. cbn [fst snd] in *.
  set (x1 := sub F (mul F (lit F 2 0) a) (lit F 1 0)) in *. set (x2 := sub F (mul F (lit F 2 0) b) (lit F 1 0)) in *.
  set (y := add F (mul F x1 x1) (mul F x2 x2)) in *.
  assert (W : within (bpow radix2 (-102)) 2 y).
  { destruct (sq_in x1 z1 Z1 V1) as [A1 B1]. destruct (sq_in x2 z2 Z2 V2) as [A2 B2]. pose proof big_3.
    assert (P102 : 0 < bpow radix2 (-102)) by apply bpow_gt_0.
    unfold y. cbn [add Farith]. apply plus_in; try fz; try (apply fmt_pow; lia); try lra; try apply A1; try apply A2.
    destruct A1 as [_ A1]. destruct A2 as [_ A2].
    destruct NZ as [K|K]; [destruct (B1 K) as [_ D]|destruct (B2 K) as [_ D]]; lra. }
  unfold fge in H. destruct (fle F (lit F 1 0) y) eqn:E.
  - eapply IHn; [|exact H]. exact Hs2.
  - injection H as <- <- <- <-. split; [|exact Hs2]. unfold disc_ok. split; [apply (v_in _ z1); assumption|]. split; [apply (v_in _ z2); assumption|].
    destruct W as [W1 W2]. split; [exact W1|]. split; [apply W2|]. cbn [fle Farith lit] in E. destruct l1 as [O1 O2].
    rewrite Bleb_correct in E by assumption. rewrite O2 in E. destruct (Rle_bool_spec 1 (B2R y)); [discriminate|assumption].
Qed.

Hypothesis Hlog : log_sane m.

Lemma c_in (w : b64) : fin w = true -> bpow radix2 (-102) <= B2R w < 1 ->
  within 0 (bpow radix2 57) (fsqrt F (div F (sub F (lit F 9 0) (mul F (lit F 2 0) (flog F w))) w)).
Proof.
  intros Fw Hw. cbn [fsqrt div sub lit mul flog Farith]. pose proof (bpow_gt_0 radix2 (-102)) as P102.
  destruct (Hlog w Fw ltac:(lra)) as [L1 L2]. destruct l2 as [T1 T2]. destruct l9 as [N1 N2]. pose proof big_3.
  assert (A : within (-2000) 0 (Bmult mode_NE (Flit 2 0) (lm_log m w))).
  { apply mult_in; auto; try fz; try lra. rewrite T2. lra. }
  set (a := Bmult mode_NE (Flit 2 0) (lm_log m w)) in *. clearbody a. destruct A as [A1 A2].
  assert (B : within 9 2048 (Bminus mode_NE (Flit 9 0) a)).
  { apply minus_in; auto; try fz; try lra. }
  set (b := Bminus mode_NE (Flit 9 0) a) in *. clearbody b. destruct B as [B1 B2].
  assert (Hbig : bpow radix2 113 <= big) by (apply bpow_le; lia).
  assert (C : within 9 (bpow radix2 113) (Bdiv mode_NE b w)).
  { apply div_in; auto; try fz; try (apply fmt_pow; lia); try lra.
    assert (I : B2R w * / B2R w = 1) by (field; lra). assert (I0 : 0 < / B2R w) by (apply Rinv_0_lt_compat; lra).
    assert (I2 : / B2R w <= bpow radix2 102).
    { replace (bpow radix2 102) with (/ bpow radix2 (-102)) by (symmetry; exact (bpow_opp radix2 (-102))). apply Rinv_le; lra. }
    assert (1 <= / B2R w) by nra. unfold Rdiv. split; [nra|].
    replace (bpow radix2 113) with (2048 * bpow radix2 102) by (change 2048 with (bpow radix2 11); rewrite <- bpow_plus; reflexivity).
    apply Rmult_le_compat; lra. }
  set (c := Bdiv mode_NE b w) in *. clearbody c. destruct C as [C1 C2].
  assert (Hbig2 : bpow radix2 57 <= big) by (apply bpow_le; lia).
  apply sqrt_in; auto; try apply fmt0; try (apply fmt_pow; lia); try lra.
  split; [apply sqrt_pos|].
  replace (bpow radix2 57) with (sqrt (bpow radix2 114)).
  - apply sqrt_le_1; try lra. + apply bpow_ge_0. + apply Rle_trans with (bpow radix2 113); [lra|]. apply bpow_le. lia.
  - apply sqrt_lem_1; try apply bpow_ge_0. rewrite <- bpow_plus. reflexivity.
Qed.

Lemma prod_in (c v : b64) : within 0 (bpow radix2 57) c -> within (-1) 1 v -> within (- bpow radix2 57) (bpow radix2 57) (mul F c v).
Proof.
  intros [C1 C2] [V1 V2]. cbn [mul Farith]. assert (bpow radix2 57 <= big) by (apply bpow_le; lia).
  pose proof (bpow_gt_0 radix2 57).
  apply mult_in; auto; try (apply generic_format_opp); try (apply fmt_pow; lia); try lra. nra.
Qed.

Definition large (x : b64) : Prop := fin x = true /\ 3 < Rabs (B2R x).
Definition central (x : b64) : Prop := fin x = true /\ Rabs (B2R x) <= 3.

Lemma abs3 (x : b64) : fin x = true -> fle F (fabs F x) (lit F 3 0) = Rle_bool (Rabs (B2R x)) 3 /\
  fgt (A := F) (fabs F x) (lit F 3 0) = Rlt_bool 3 (Rabs (B2R x)).
Proof.
  intros H. destruct l3 as [T1 T2]. unfold fgt. cbn [fle flt fabs lit Farith]. 
  rewrite Bleb_correct, Bltb_correct by (rewrite ?is_finite_Babs; assumption). rewrite B2R_Babs, T2. auto.
Qed.

Lemma tail_in n : forall s x s', ok s -> tail (A := F) unif n s = Ok (x, s') -> large x.
Proof.
  induction n; intros s x s' Hs H; [discriminate|]. cbn [tail] in H.
  destruct (disc (A := F) unif (Datatypes.S n) s) as [[[[v1 v2] w] s1]| | |] eqn:D; try discriminate H. cbn [bind] in H.
  destruct (disc_in _ _ _ _ _ _ Hs D) as [[D1 [D2 [D3 D4]]] Hs1].
  pose proof (c_in w D3 D4) as C. set (c := fsqrt F _) in *. clearbody c.
  pose proof (prod_in c v1 C D1) as [P1 _]. pose proof (prod_in c v2 C D2) as [P2 _].
  set (p := mul F c v1) in *. set (q := mul F c v2) in *. clearbody p q.
  destruct (abs3 p P1) as [A1 B1]. destruct (abs3 q P2) as [A2 B2]. rewrite A1, A2, B1 in H.
  destruct (Rle_bool_spec (Rabs (B2R p)) 3) as [Lp|Lp]; destruct (Rle_bool_spec (Rabs (B2R q)) 3) as [Lq|Lq]; cbn [andb] in H.
  - eapply IHn; [|exact H]. exact Hs1.
  - rewrite Rlt_bool_false in H by exact Lp. apply Ok_pair in H; destruct H as [<- <-]. split; assumption.
  - rewrite Rlt_bool_true in H by exact Lp. apply Ok_pair in H; destruct H as [<- <-]. split; assumption.
  - rewrite Rlt_bool_true in H by exact Lp. apply Ok_pair in H; destruct H as [<- <-]. split; assumption.
Qed.

Lemma central_of x : within (-3) 3 x -> central x.
Proof. intros [A B]. split; [exact A|]. apply Rabs_le. lra. Qed.
Lemma wedge_in n : forall s x s', ok s -> wedge (A := F) unif n s = Ok (x, s') -> central x.
Proof.
  induction n; intros s x s' Hs H; [discriminate|]. cbn [wedge] in H.
  pose proof (ok_next s Hs) as Hs1. pose proof (ok_next _ Hs1) as Hs2. destruct (ok_unit s Hs) as [U1 U2]. unfold nextst in *.
  destruct (unif s) as [a t]. cbn [fst snd] in *. destruct (unif t) as [b t']. cbn [fst snd] in *.
  destruct (fgt _ _); [eapply IHn; [|exact H]; exact Hs2|]. apply Ok_pair in H; destruct H as [<- <-]. apply central_of.
  pose proof big_3. destruct l6 as [S1 S2]. destruct l3 as [T1 T2].
  assert (A : within 0 6 (mul F (lit F 6 0) a)).
  { cbn [mul lit Farith]. apply mult_in; auto; try fz; try lra. rewrite S2. lra. }
  destruct A as [A1 A2]. set (y := mul F (lit F 6 0) a) in *. clearbody y. cbn [sub lit Farith]. apply minus_in; auto; try fz; try lra.
Qed.

Theorem norm_in n s x s' : ok s -> Norm01 (A := F) unif n s = Ok (x, s') ->
  (Bltb (drawn unif s 0) (Flit 9973002039 10) = true -> central x) /\
  (Bltb (drawn unif s 0) (Flit 9973002039 10) = false -> large x).
Proof.
  intros Hs H. change (drawn unif s 0) with (fst (unif s)). unfold Norm01 in H.
  pose proof (ok_next s Hs) as Hs1. pose proof (ok_next _ Hs1) as Hs2. pose proof (ok_next _ Hs2) as Hs3.
  destruct (ok_unit _ Hs) as [U01 U02]. destruct (ok_unit _ Hs1) as [U11 U12]. destruct (ok_unit _ Hs2) as [U21 U22]. destruct (ok_unit _ Hs3) as [U31 U32].
  unfold nextst in *. destruct (unif s) as [u t0]. cbn [fst snd] in *.
  pose proof big_3. destruct l1 as [O1 O2]. destruct l2 as [T1 T2]. destruct l3 as [H31 H32]. destruct l15 as [F1 F2].
  assert (L3 : exactly (Flit 9973002039 10) (8982881653321119 * bpow radix2 (-53))) by (eapply lit_fin; [vm_compute; reflexivity|reflexivity]).
  assert (L2 : exactly (Flit 9745 4) (8777515673745097 * bpow radix2 (-53))) by (eapply lit_fin; [vm_compute; reflexivity|reflexivity]).
  assert (L1 : exactly (Flit 8638 4) (7780418716245269 * bpow radix2 (-53))) by (eapply lit_fin; [vm_compute; reflexivity|reflexivity]).
  destruct L1 as [L11 L12]. destruct L2 as [L21 L22]. destruct L3 as [L31 L32]. pose proof (bpow_gt_0 radix2 (-53)) as P53.
  cbn [flt lit Farith] in H.
  destruct (Bltb u (Flit 8638 4)) eqn:E1; [|destruct (Bltb u (Flit 9745 4)) eqn:E2; [|destruct (Bltb u (Flit 9973002039 10)) eqn:E3]].
  - rewrite (below u _ _ U01 L11 L31 E1) by (rewrite L12, L32; lra). split; [intros _|discriminate].
    destruct (unif t0) as [u1 t1]. cbn [fst snd] in *. destruct (unif t1) as [u2 t2]. cbn [fst snd] in *. destruct (unif t2) as [u3 t3]. cbn [fst snd] in *.
    apply Ok_pair in H; destruct H as [<- <-]. apply central_of. cbn [sub mul add Farith].
    assert (A : within 0 2 (Bplus mode_NE u1 u2)) by (apply plus_in; auto; try fz; lra). destruct A as [A1 A2]. set (a := Bplus mode_NE u1 u2) in *. clearbody a.
    assert (B : within 0 3 (Bplus mode_NE a u3)) by (apply plus_in; auto; try fz; lra). destruct B as [B1 B2]. set (b := Bplus mode_NE a u3) in *. clearbody b.
    assert (C : within 0 6 (Bmult mode_NE (Flit 2 0) b)) by (apply mult_in; auto; try fz; try lra; rewrite T2; lra). destruct C as [C1 C2].
    apply minus_in; auto; try fz; try lra.
  - rewrite (below u _ _ U01 L21 L31 E2) by (rewrite L22, L32; lra). split; [intros _|discriminate].
    destruct (unif t0) as [u1 t1]. cbn [fst snd] in *. destruct (unif t1) as [u2 t2]. cbn [fst snd] in *.
    apply Ok_pair in H; destruct H as [<- <-]. apply central_of. cbn [sub mul add Farith].
    assert (A : within 0 2 (Bplus mode_NE u1 u2)) by (apply plus_in; auto; try fz; lra). destruct A as [A1 A2]. set (a := Bplus mode_NE u1 u2) in *. clearbody a.
    assert (B : within (-1) 1 (Bminus mode_NE a (Flit 1 0))) by (apply minus_in; auto; try fz; lra). destruct B as [B1 B2].
    apply mult_in; auto; try fz; try lra. rewrite F2. lra.
  - split; [intros _|discriminate]. eapply wedge_in; [|exact H]. exact Hs1.
  - split; [discriminate|intros _]. eapply tail_in; [|exact H]. exact Hs1.
Qed.
End Draw.

(** ** The point at the centre of the disc *)
Lemma over_zero (a : b64) : Bmult mode_NE (Bsqrt mode_NE (Bdiv mode_NE a (B754_zero false))) (B754_zero false) = B754_nan.
Proof. destruct a as [s|s| |s k e He]; try destruct s; reflexivity. Qed.
Lemma eqF (x y : b64) : B2SF x = B2SF y -> x = y.
Proof. apply B2SF_inj. Qed.

Definition u_top : b64 := Fof (2 ^ 52 - 1) (-52).
Section Nan.
Variable m : libm.
Notation F := (Farith m).
Lemma zero_v : sub F (mul F (lit F 2 0) (Flit 5 1)) (lit F 1 0) = B754_zero false.
Proof. cbn [sub mul lit Farith]. apply eqF. vm_compute. reflexivity. Qed.
Lemma zero_w : add F (mul F (B754_zero false) (B754_zero false)) (mul F (B754_zero false) (B754_zero false)) = B754_zero false.
Proof. reflexivity. Qed.
Lemma zero_lt : fle F (lit F 1 0) (B754_zero false) = false.
Proof. cbn [fle lit Farith]. vm_compute. reflexivity. Qed.
Lemma nan_le : fle F (fabs F B754_nan) (lit F 3 0) = false.
Proof. cbn [fle lit fabs Farith Babs]. vm_compute. reflexivity. Qed.
Lemma nan_lt : flt F (lit F 3 0) (fabs F B754_nan) = false.
Proof. cbn [flt lit fabs Farith Babs]. vm_compute. reflexivity. Qed.
Lemma disc_zero l n : disc (A := F) feedF (S n) (Flit 5 1 :: Flit 5 1 :: l) = Ok (B754_zero false, B754_zero false, B754_zero false, l).
Proof. cbn [disc feedF]. rewrite !zero_v, zero_w. unfold fge. rewrite zero_lt. reflexivity. Qed.
Lemma nan_draw l n : Norm01 (A := F) feedF (S n) (u_top :: Flit 5 1 :: Flit 5 1 :: l) = Ok (B754_nan, l).
Proof.
  unfold Norm01. cbn [feedF].
  replace (flt F (u_top) (lit F 8638 4)) with false by (symmetry; cbn [flt lit Farith]; vm_compute; reflexivity).
  replace (flt F (u_top) (lit F 9745 4)) with false by (symmetry; cbn [flt lit Farith]; vm_compute; reflexivity).
  replace (flt F (u_top) (lit F 9973002039 10)) with false by (symmetry; cbn [flt lit Farith]; vm_compute; reflexivity).
  unfold tail. rewrite disc_zero. cbn [bind].
  replace (mul F (fsqrt F (div F (sub F (lit F 9 0) (mul F (lit F 2 0) (flog F (B754_zero false)))) (B754_zero false))) (B754_zero false))
    with (B754_nan : num F) by (symmetry; apply over_zero).
  rewrite nan_le. cbn [andb]. unfold fgt. rewrite nan_lt. reflexivity.
Qed.
End Nan.

Lemma feed_iter n : forall l, Nat.iter n (fun s => snd (feedF s)) l = skipn n l.
Proof.
  induction n; intros l; [reflexivity|].
  change (snd (feedF (Nat.iter n (fun s => snd (feedF s)) l)) = skipn (S n) l).
  rewrite IHn. clear IHn. revert l. induction n; intros [|a l]; try reflexivity. cbn [skipn]. apply IHn.
Qed.
Lemma feed_drawn l n : drawn feedF l n = nth n l (Flit 0 0).
Proof.
  unfold drawn. rewrite feed_iter. revert l. induction n; intros [|a l]; try reflexivity. cbn [skipn nth]. apply IHn.
Qed.
Lemma top_val : exactly u_top (IZR (2 ^ 52 - 1) / IZR (2 ^ 52)).
Proof.
  eapply lit_fin; [vm_compute; reflexivity|]. unfold F2R; cbn [Fnum Fexp cond_Zopp].
  assert (E : IZR (2 ^ 52) * (2 * bpow radix2 (-53)) = 1).
  { change (IZR (2 ^ 52)) with (bpow radix2 52). change 2 with (bpow radix2 1). rewrite <- !bpow_plus. reflexivity. }
  change 9007199254740990%Z with (2 * (2 ^ 52 - 1))%Z. rewrite mult_IZR. set (b := bpow radix2 (-53)) in *. clearbody b.
  set (a := IZR (2 ^ 52 - 1)). clearbody a. assert (0 < IZR (2 ^ 52)) by (apply IZR_lt; lia). set (c := IZR (2 ^ 52)) in *. clearbody c.
  apply Rmult_eq_reg_r with c; [|lra]. unfold Rdiv. rewrite (Rmult_assoc a), Rinv_l by lra.
  transitivity (a * (c * (2 * b))); [ring|]. rewrite E. ring.
Qed.
Lemma half_val : exactly (Flit 5 1) (1 / 2). Proof. lit_t. Qed.
Lemma quarter_val : exactly (Flit 25 2) (1 / 4). Proof. lit_t. Qed.
Lemma zero_val : exactly (Flit 0 0) 0.
Proof. assert (E : Flit 0 0 = B754_zero false) by (apply eqF; vm_compute; reflexivity). rewrite E. split; reflexivity. Qed.
Definition on_grid (x : b64) : Prop := exists k, (0 <= k < 2 ^ 52)%Z /\ exactly x (IZR k / IZR (2 ^ 52)).
Lemma grid_top : on_grid u_top. Proof. exists (2 ^ 52 - 1)%Z. split; [lia|apply top_val]. Qed.
Lemma grid_half : on_grid (Flit 5 1).
Proof.
  exists (2 ^ 51)%Z. split; [lia|]. replace (IZR (2 ^ 51) / IZR (2 ^ 52)) with (1 / 2); [apply half_val|].
  change (2 ^ 52)%Z with (2 * 2 ^ 51)%Z. rewrite mult_IZR. assert (0 < IZR (2 ^ 51)) by (apply IZR_lt; lia). field. lra.
Qed.
Lemma grid_quarter : on_grid (Flit 25 2).
Proof.
  exists (2 ^ 50)%Z. split; [lia|]. replace (IZR (2 ^ 50) / IZR (2 ^ 52)) with (1 / 4); [apply quarter_val|].
  change (2 ^ 52)%Z with (4 * 2 ^ 50)%Z. rewrite mult_IZR. assert (0 < IZR (2 ^ 50)) by (apply IZR_lt; lia). field. lra.
Qed.
Lemma grid_zero : on_grid (Flit 0 0).
Proof. exists 0%Z. split; [lia|]. replace (IZR 0 / IZR (2 ^ 52)) with 0; [apply zero_val|]. unfold Rdiv. ring. Qed.
Lemma feed_grid l : Forall on_grid l -> uniform_doubles feedF l.
Proof.
  intros H n. rewrite feed_drawn. revert n. induction H; intros [|n]; cbn [nth]; try apply grid_zero; [exact H|apply IHForall].
Qed.
Lemma not_half (x : b64) r : exactly x r -> r <> 1 / 2 -> ~ exactly x (1 / 2).
Proof. intros [A B] N [C D]. congruence. Qed.

Lemma c12_refuted : exists l, uniform_doubles feedF l /\ forall m n, Norm01 (A := Farith m) feedF (S n) l = Ok (B754_nan, []).
Proof.
  exists [u_top; Flit 5 1; Flit 5 1]. split; [|intros; apply nan_draw].
  apply feed_grid. repeat constructor; [apply grid_top|apply grid_half|apply grid_half].
Qed.

(** ** The generator's streams *)
From Verif Require Import M_Dsfmt P_RngMore.
Open Scope R_scope.
Lemma gen_iter m rec n g : reachable rec g -> reachable rec (Nat.iter n (fun s => snd (Unif01 (A := Farith m) rec s)) g).
Proof.
  intros H. induction n; [exact H|].
  change (reachable rec (snd (Unif01 (A := Farith m) rec (Nat.iter n (fun s => snd (Unif01 (A := Farith m) rec s)) g)))).
  set (t := Nat.iter n _ g) in *. clearbody t. destruct IHn as [seed [h E]]. exists seed, (h ++ [D01]).
  unfold after_draws. rewrite fold_left_app. cbn [fold_left]. unfold after_draws in E. rewrite <- E.
  unfold after_draw, Unif01. destruct (next_word rec t). reflexivity.
Qed.
Lemma gen_uniform m rec g : is_build rec -> reachable rec g -> uniform_doubles (Unif01 (A := Farith m) rec) g.
Proof. intros B H n. unfold drawn. apply (c06 m rec _ B (gen_iter m rec n g H)). Qed.
Theorem norm_gen m rec n g x g' : is_build rec -> log_sane m -> reachable rec g -> no_two_halves (Unif01 (A := Farith m) rec) g ->
  Norm01 (A := Farith m) (Unif01 (A := Farith m) rec) n g = Ok (x, g') ->
  is_finite x = true /\
  (if Bltb (drawn (Unif01 (A := Farith m) rec) g 0) (Flit 9973002039 10) then Rabs (B2R x) <= 3 else 3 < Rabs (B2R x)).
Proof.
  intros B L H N E. destruct (norm_in m _ L n g x g' (Logic.conj (gen_uniform m rec g B H) N) E) as [P Q].
  destruct (Bltb _ _); [destruct (P eq_refl)|destruct (Q eq_refl)]; split; assumption.
Qed.
Theorem norm_any m {S : Type} (unif : S -> b64 * S) n s x s' : log_sane m -> uniform_doubles unif s -> no_two_halves unif s ->
  Norm01 (A := Farith m) unif n s = Ok (x, s') ->
  is_finite x = true /\
  (if Bltb (drawn unif s 0) (Flit 9973002039 10) then Rabs (B2R x) <= 3 else 3 < Rabs (B2R x)).
Proof.
  intros L H N E. destruct (norm_in m unif L n s x s' (Logic.conj H N) E) as [P Q].
  destruct (Bltb _ _); [destruct (P eq_refl)|destruct (Q eq_refl)]; split; assumption.
Qed.
