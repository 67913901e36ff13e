(** simulation_size in double precision. *)
From Coq Require Import ZArith Bool Lia Reals Lra List String.
From Flocq Require Import Core IEEE754.BinarySingleNaN.
From Verif Require Import Base Arith FloatArith RealArith M_Variogram M_Padding M_Api S_Api S_Vario S_Random S_Sizes S_Room S_CorrF S_FieldF S_Damp S_SizeF P_Base P_Bounds P_Api P_Padding P_VarioNames P_NormF P_FieldF P_CorrF5 P_Accur11.
Import ListNotations.
Open Scope R_scope.

Lemma ovf_fin (x : b64) s : B2SF x = SpecFloat.S754_infinity s -> is_finite x = false.
Proof. destruct x; cbn; intros; (discriminate || reflexivity). Qed.
Lemma mul_fin (x y : b64) : is_finite (Bmult mode_NE x y) = true -> is_finite x = true /\ is_finite y = true /\ B2R (Bmult mode_NE x y) = nearest (B2R x * B2R y).
Proof.
  intros H. assert (is_finite x = true /\ is_finite y = true) as [Fx Fy] by (destruct x, y; cbn in H; try discriminate H; auto).
  split; [exact Fx|]. split; [exact Fy|]. pose proof (Bmult_correct 53 1024 Hprec Hmax mode_NE x y) as C. destruct (Rlt_bool _ _).
  - destruct C as (C & _). exact C.
  - exfalso. unfold binary_overflow in C. cbn in C. apply ovf_fin in C. congruence.
Qed.
Lemma div_fin (x y : b64) : is_finite (Bdiv mode_NE x y) = true -> is_finite y = true -> B2R y <> 0 -> is_finite x = true /\ B2R (Bdiv mode_NE x y) = nearest (B2R x / B2R y).
Proof.
  intros H Fy Ny. assert (is_finite x = true) as Fx by (destruct x, y; cbn in H, Fy; try discriminate H; try discriminate Fy; auto).
  split; [exact Fx|]. pose proof (Bdiv_correct 53 1024 Hprec Hmax mode_NE x y Ny) as C. destruct (Rlt_bool _ _).
  - destruct C as (C & _). exact C.
  - exfalso. unfold binary_overflow in C. cbn in C. apply ovf_fin in C. congruence.
Qed.
Lemma sub_fin (x y : b64) : is_finite (Bminus mode_NE x y) = true -> is_finite x = true /\ is_finite y = true /\ B2R (Bminus mode_NE x y) = nearest (B2R x - B2R y).
Proof.
  intros H. assert (is_finite x = true /\ is_finite y = true) as [Fx Fy].
  { destruct x as [s|s| |s k e B], y as [s'|s'| |s' k' e' B']; cbn in H; try discriminate H; auto; destruct s, s'; discriminate H. }
  split; [exact Fx|]. split; [exact Fy|]. pose proof (Bminus_correct 53 1024 Hprec Hmax mode_NE x y Fx Fy) as C. destruct (Rlt_bool _ _).
  - destruct C as (C & _). exact C.
  - destruct C as (C & _). exfalso. unfold binary_overflow in C. cbn in C. apply ovf_fin in C. congruence.
Qed.
Lemma add_fin (x y : b64) : is_finite (Bplus mode_NE x y) = true -> is_finite x = true /\ is_finite y = true /\ B2R (Bplus mode_NE x y) = nearest (B2R x + B2R y).
Proof.
  intros H. assert (is_finite x = true /\ is_finite y = true) as [Fx Fy].
  { destruct x as [s|s| |s k e B], y as [s'|s'| |s' k' e' B']; cbn in H; try discriminate H; auto; destruct s, s'; discriminate H. }
  split; [exact Fx|]. split; [exact Fy|]. pose proof (Bplus_correct 53 1024 Hprec Hmax mode_NE x y Fx Fy) as C. destruct (Rlt_bool _ _).
  - destruct C as (C & _). exact C.
  - destruct C as (C & _). exfalso. unfold binary_overflow in C. cbn in C. apply ovf_fin in C. congruence.
Qed.
Lemma of_nearest z : is_finite (Fof z 0) = true -> B2R (Fof z 0) = nearest (IZR z).
Proof.
  intros H. unfold Fof in *. pose proof (binary_normalize_correct 53 1024 Hprec Hmax mode_NE z 0 false) as C.
  replace (F2R (Float radix2 z 0)) with (IZR z) in C by (unfold F2R; cbn; ring). cbv zeta in C. destruct (Rlt_bool _ _).
  - destruct C as (C & _). exact C.
  - exfalso. unfold binary_overflow in C. cbn in C. apply ovf_fin in C. congruence.
Qed.
Lemma near_ge0 r : 0 <= r -> 0 <= nearest r.
Proof. intros H. unfold nearest. apply round_ge_generic; try typeclasses eauto; [apply generic_format_0|exact H]. Qed.

Section M.
Variable m : libm.
Notation F := (Farith m).
Lemma to_int_F (x : b64) z : @to_int F x = Ok z -> is_finite x = true /\ z = Ztrunc (B2R x) /\ (- 2 ^ 31 <= z < 2 ^ 31)%Z.
Proof.
  unfold to_int. cbn [Farith ftrunc]. destruct (is_finite x) eqn:E; [|discriminate]. destruct (fits_int (Btrunc x)) eqn:G; [|discriminate].
  intros H. injection H as <-. split; [reflexivity|]. pose proof (Btrunc_correct 53 1024 Hmax x) as T. split.
  - apply eq_IZR. rewrite T. apply round_FIX_IZR.
  - unfold fits_int in G. apply andb_prop in G as [G1 G2]. lia.
Qed.
Lemma pad_F (v : variogram F) n (range step : b64) p : positive range -> positive step -> @FindGaussianFieldPadding F v n range step = Ok p ->
  (0 <= n < 2 ^ 63)%Z -> size_rule64 (B2R (@GetMinimumRangeToGridRatio F v)) (B2R range) (B2R step) n (u64 (p + n)) /\ is_finite (@GetMinimumRangeToGridRatio F v) = true.
Proof.
  intros [F1 P1] [F2 P2] H Hn. unfold FindGaussianFieldPadding in H. apply bind_Ok in H as (a & Ha & H). apply bind_Ok in H as (b & Hb & H).
  destruct (Z.max a b =? 2 ^ 31 - 1)%Z eqn:E; [discriminate H|]. injection H as <-.
  apply to_int_F in Ha as (Fa & Va & Ba), Hb as (Fb & Vb & Bb). change (sub F) with (@Bminus 53 1024 Hprec Hmax mode_NE) in *. change (div F) with (@Bdiv 53 1024 Hprec Hmax mode_NE) in *.
  change (mul F) with (@Bmult 53 1024 Hprec Hmax mode_NE) in *. change (ofZ F n) with (Fof n 0) in *.
  destruct (div_fin range step Fb F2 ltac:(lra)) as [_ Db]. destruct (sub_fin _ _ Fa) as (Fd & Fn & Ds). destruct (div_fin _ step Fd F2 ltac:(lra)) as [Fm Dd]. destruct (mul_fin _ _ Fm) as (Fr & _ & Dm).
  rewrite Ds, Dd, Dm, (of_nearest _ Fn) in Va. rewrite Db in Vb.
  assert (Q : 0 <= B2R range / B2R step) by (apply Rlt_le; apply Rdiv_lt_0_compat; assumption). apply near_ge0 in Q.
  assert (B0 : (0 <= b)%Z) by (rewrite Vb; rewrite Ztrunc_floor by exact Q; apply Zfloor_lub; exact Q).
  assert (U1 : u64 (Z.max a b + 1) = (Z.max a b + 1)%Z) by (unfold u64; apply Z.mod_small; lia).
  assert (U2 : u64 (Z.max a b + 1 + n) = (n + Z.max b a + 1)%Z) by (unfold u64; rewrite Z.mod_small by lia; lia).
  split; [|exact Fr]. rewrite U1, U2. split; [rewrite <- Va, <- Vb; reflexivity|]. split; [|lia].
  apply Rlt_le_trans with (IZR (b + 1)); [|apply IZR_le; lia]. rewrite Vb, (Ztrunc_floor _ Q), plus_IZR. apply Zfloor_ub.
Qed.
End M.

Lemma max_F m (x y : b64) : positive x -> positive y -> positive (@fmax (Farith m) x y) /\ B2R (@fmax (Farith m) x y) = Rmax (B2R x) (B2R y).
Proof.
  intros [A B] [C D]. unfold fmax. cbn [Farith flt]. rewrite (Bltb_correct 53 1024 x y A C). destruct (Rlt_bool_spec (B2R x) (B2R y)).
  - split; [split; assumption|]. rewrite Rmax_right by lra. reflexivity.
  - split; [split; assumption|]. rewrite Rmax_left by lra. reflexivity.
Qed.
Lemma lit_div (x a b : b64) p q : Bdiv mode_NE a b = x -> is_finite x = true -> exactly a p -> exactly b q -> q <> 0 -> B2R x = nearest (p / q).
Proof. intros <- H [_ Va] [Fb Vb] N. destruct (div_fin a b H Fb) as [_ E]; [rewrite Vb; exact N|]. rewrite E, Va, Vb. reflexivity. Qed.
Lemma v100 : exactly (Flit 100 0) 100. Proof. lit_t. Qed.
Lemma v10 : exactly (Flit 10 0) 10. Proof. lit_t. Qed.
Ltac quotient n p := apply (lit_div _ (Flit n 0) (Flit 100 0) p 100); [apply B2SF_inj; vm_compute; reflexivity|vm_compute; reflexivity|lit_t|exact v100|lra].
Lemma r233 : B2R (Flit 233 2) = nearest (233 / 100). Proof. quotient 233%Z 233. Qed.
Lemma r192 : B2R (Flit 192 2) = nearest (192 / 100). Proof. quotient 192%Z 192. Qed.
Lemma r667 : B2R (Flit 667 2) = nearest (667 / 100). Proof. quotient 667%Z 667. Qed.
Lemma r534 : B2R (Flit 534 2) = nearest (534 / 100). Proof. quotient 534%Z 534. Qed.
Lemma r476 : B2R (Flit 476 2) = nearest (476 / 100). Proof. quotient 476%Z 476. Qed.
Lemma r526 : B2R (Flit 526 2) = nearest (526 / 100). Proof. quotient 526%Z 526. Qed.
Lemma r15 : exactly (Flit 15 1) (15 / 10). Proof. replace (15 / 10) with (3 / 2) by lra. lit_t. Qed.
Lemma r4 : exactly (Flit 4 0) 4. Proof. lit_t. Qed.
Lemma exact_nearest (x : b64) r : exactly x r -> B2R x = nearest r.
Proof. intros [_ <-]. symmetry. unfold nearest. apply round_generic; try typeclasses eauto. apply generic_format_B2R. Qed.
Lemma ratio_F m (v : variogram (Farith m)) : is_finite (@GetMinimumRangeToGridRatio (Farith m) v) = true -> vt v <> N_TYPES ->
  B2R (@GetMinimumRangeToGridRatio (Farith m) v) = ratio64 (vt v) (B2R (vpower v)).
Proof.
  unfold GetMinimumRangeToGridRatio, ratio64. destruct (vt v); intros H N; [..|congruence]; cbn [grid_ratio].
  - exact (exact_nearest _ _ l1).
  - exact r233.
  - exact r192.
  - exact r667.
  - cbn [Farith add sub mul lit] in *. destruct (add_fin _ _ H) as (_ & H1 & ->). destruct (mul_fin _ _ H1) as (H2 & _ & ->). destruct (sub_fin _ _ H2) as (_ & _ & ->).
    destruct r15 as [_ ->]. destruct r4 as [_ ->]. rewrite r534. reflexivity.
  - exact (exact_nearest _ _ r4).
  - exact r476.
  - exact r526.
Qed.
