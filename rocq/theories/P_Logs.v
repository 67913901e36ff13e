(** Accuracy of the computed exponents: a single precision logarithm within one unit in the last place is good enough up to 2^18,
    a double precision one up to 2^24. *)
From Coq Require Import ZArith List Bool Lia Reals Lra.
From Flocq Require Import Core.Raux Core.Zaux.
From Verif Require Import Base M_FftSize S_Sizes P_FftSize.
Import ListNotations.
Open Scope R_scope.

Lemma ln2_le : ln 2 <= 7 / 10.
Proof.
  assert (H : 2 <= exp (7 / 10)).
  2:{ apply Rnot_lt_le. intros C. apply exp_increasing in C. rewrite exp_ln in C by lra. lra. }
  replace (7 / 10) with (INR 70 * (1 / 100)) by (simpl; lra).
  assert (forall n x, exp (INR n * x) = (exp x) ^ n) as E.
  { induction n; intros x; [simpl; rewrite Rmult_0_l; apply exp_0|]. rewrite S_INR, Rmult_plus_distr_r, Rmult_1_l, exp_plus, IHn. simpl; ring. }
  rewrite E. apply Rle_trans with ((1 + 1 / 100) ^ 70); [lra|].
  apply pow_incr. split; [lra|]. pose proof (exp_ineq1_le (1 / 100)). lra.
Qed.

Lemma ln_gap x : 1 <= x -> 1 / (x + 1) < ln (x + 1) - ln x.
Proof.
  intros Hx. rewrite <- (Ropp_involutive (_ - _)). 
  assert (E : - (ln (x + 1) - ln x) = ln (x / (x + 1))).
  { unfold Rdiv. rewrite ln_mult; [rewrite ln_Rinv by lra; lra|lra|apply Rinv_0_lt_compat; lra]. }
  rewrite E. 
  assert (Hq : x / (x + 1) = 1 + - (1 / (x + 1))) by (field; lra).
  assert (0 < 1 / (x + 1)) by (apply Rdiv_lt_0_compat; lra).
  assert (ln (x / (x + 1)) < - (1 / (x + 1))); [|lra].
  apply exp_lt_inv. rewrite exp_ln; [|apply Rdiv_lt_0_compat; lra].
  rewrite Hq. apply exp_ineq1. lra.
Qed.

Lemma ln_IZR_pow p (b : Z) : (2 <= p)%Z -> (0 <= b)%Z -> ln (IZR (p ^ b)) = IZR b * ln (IZR p).
Proof.
  intros Hp Hb. rewrite <- (Z2Nat.id b) at 1 by auto. rewrite <- pow_IZR.
  assert (0 < IZR p) by (apply (IZR_lt 0); lia).
  rewrite ln_pow by auto. rewrite INR_IZR_INZ, Z2Nat.id by auto. reflexivity.
Qed.

Definition near (e x y : R) : Prop := Rabs (x - y) <= e * Rabs y.

Theorem accurate_logs_good (logf : Z -> R) (quot : R -> R -> R) m :
  (1 <= m <= 2 ^ 18)%Z ->
  (forall k, (1 <= k <= 2 ^ 18)%Z -> near (/ 2 ^ 23) (logf k) (ln (IZR k))) ->
  (forall x y, near (/ 2 ^ 52) (quot x y) (x / y)) ->
  good_logs (fun p k => Zceil (quot (logf k) (logf p))) m.
Proof.
  intros Hm Hlog Hquot p Hp.
  assert (Hp' : (2 <= p <= 7)%Z) by (simpl in Hp; intuition lia).
  destruct (clog_spec p m) as (Ha & Hma & Hlow); [lia|lia|].
  exists (clog p m). split; auto. split; auto. split; auto.
  set (a := clog p m) in *. clearbody a.
  assert (H2p : ln 2 <= ln (IZR p)).
  { destruct (Z.eq_dec p 2) as [->|]; [lra|]. left. apply ln_increasing; [lra|]. apply IZR_lt. lia. }
  assert (Hl2 : / 2 < ln 2).
  { pose proof (ln_gap 1 ltac:(lra)) as X. rewrite ln_1 in X. replace (1 + 1) with 2 in X by lra. lra. }
  set (lp := ln (IZR p)) in *.
  assert (HmR : 1 <= IZR m) by (apply (IZR_le 1); lia).
  assert (Hlm : 0 <= ln (IZR m)).
  { destruct (Req_dec (IZR m) 1) as [->|]; [rewrite ln_1; lra|]. left. rewrite <- ln_1. apply ln_increasing; lra. }
  set (lm := ln (IZR m)) in *.
  pose proof (Hlog m Hm) as Em. pose proof (Hlog p ltac:(lia)) as Ep. fold lm in Em. fold lp in Ep.
  unfold near in Em, Ep. rewrite (Rabs_pos_eq lm) in Em by lra. rewrite (Rabs_pos_eq lp) in Ep by lra.
  apply Rabs_le_inv in Em. apply Rabs_le_inv in Ep.
  set (u := / 2 ^ 23) in *. assert (Hu : u = / 8388608) by (unfold u; f_equal; lra).
  pose proof (Hquot (logf m) (logf p)) as Eq. unfold near in Eq.
  set (fm := logf m) in *. set (fp := logf p) in *. clearbody fm fp.
  assert (Hfm : lm * (1 - u) <= fm <= lm * (1 + u)) by lra.
  assert (Hfp : lp * (1 - u) <= fp <= lp * (1 + u)) by lra.
  assert (Hfp0 : 0 < fp) by (apply Rlt_le_trans with (lp * (1 - u)); [apply Rmult_lt_0_compat; lra|lra]).
  assert (Hfm0 : 0 <= fm) by (apply Rle_trans with (lm * (1 - u)); [apply Rmult_le_pos; lra|lra]).
  set (x := fm / fp) in *.
  assert (Hx0 : 0 <= x) by (apply Rmult_le_pos; [lra|left; apply Rinv_0_lt_compat; lra]).
  rewrite (Rabs_pos_eq x) in Eq by auto. apply Rabs_le_inv in Eq.
  set (q := quot fm fp) in *. clearbody q.
  assert (Hxe : x * fp = fm) by (unfold x; field; lra).
  clearbody x.
  assert (Hq : x * (1 - / 4503599627370496) <= q <= x * (1 + / 4503599627370496)) by (replace (2 ^ 52) with 4503599627370496 in Eq by lra; lra).
  (* upper bound: q <= a + 1 *)
  assert (Hm_le : lm <= IZR a * lp).
  { unfold lm, lp. rewrite <- ln_IZR_pow by lia. 
    destruct (Z.eq_dec m (p ^ a)) as [->|]; [lra|]. left. apply ln_increasing; [lra|]. apply IZR_lt. lia. }
  assert (Ha18 : (a <= 18)%Z).
  { destruct (Z_le_gt_dec a 18); auto. exfalso. specialize (Hlow 18%Z ltac:(lia)).
    pose proof (Z.pow_le_mono_l 2 p 18). lia. }
  assert (HaR : 0 <= IZR a <= 18) by (split; [apply (IZR_le 0)|apply (IZR_le a 18)]; lia).
  assert (Hupper : q <= IZR a + 1).
  { assert (x <= IZR a * (1 + 3 * u)).
    { apply Rmult_le_reg_r with fp; auto. rewrite Hxe.
      apply Rle_trans with (IZR a * lp * (1 + u)); [nra|].
      rewrite !Rmult_assoc. apply Rmult_le_compat_l; [lra|]. 
      apply Rle_trans with ((1 + 3 * u) * (lp * (1 - u))); [|apply Rmult_le_compat_l; lra]. rewrite Hu. nra. }
    rewrite Hu in H. nra. }
  assert (Hlower : IZR a - 1 < q).
  { destruct (Z.eq_dec a 0) as [->|Hnz].
    - assert (0 <= q) by (apply Rle_trans with (x * (1 - / 4503599627370496)); [apply Rmult_le_pos; lra|lra]). lra.
    - set (b := (a - 1)%Z) in *. assert (Hb : (0 <= b)%Z) by lia.
      pose proof (Hlow b ltac:(lia)) as HP. set (P := (p ^ b)%Z) in *.
      assert (HP1 : (1 <= P)%Z) by (apply pow_ge1; lia).
      assert (HPR : 1 <= IZR P <= 262143) by (split; [apply (IZR_le 1)|apply (IZR_le P 262143)]; lia).
      assert (HlnP : ln (IZR P) = IZR b * lp) by (apply ln_IZR_pow; lia).
      pose proof (ln_gap (IZR P) ltac:(lra)) as G.
      assert (HP1m : ln (IZR P + 1) <= lm).
      { unfold lm. rewrite <- plus_IZR. destruct (Z.eq_dec (P + 1) m) as [->|]; [lra|]. left. apply ln_increasing; [apply (IZR_lt 0); lia|apply IZR_lt; lia]. }
      assert (HG : / 262144 <= 1 / (IZR P + 1)).
      { unfold Rdiv. rewrite Rmult_1_l. apply Rinv_le_contravar; lra. }
      assert (HlnP2 : 0 <= ln (IZR P) <= 18 * (7 / 10)).
      { rewrite HlnP. split; [apply Rmult_le_pos; [apply (IZR_le 0); lia|lra]|]. rewrite <- HlnP.
        apply Rle_trans with (ln (IZR (2 ^ 18))).
        - left. apply ln_increasing; [lra|]. apply Rle_lt_trans with 262143; [lra|]. apply IZR_lt. reflexivity.
        - rewrite (ln_IZR_pow 2 18) by lia. pose proof ln2_le. lra. }
      replace (IZR a - 1) with (IZR b) by (unfold b; rewrite minus_IZR; reflexivity).
      (* b < x (1 - 2^-52) *)
      apply Rlt_le_trans with (x * (1 - / 4503599627370496)); [|lra].
      assert (Hb18 : 0 <= IZR b <= 18) by (split; [apply (IZR_le 0)|apply (IZR_le b 18)]; lia).
      assert (Hgap : IZR b * lp + / 262144 <= lm) by lra.
      apply Rmult_lt_reg_r with fp; auto.
      replace (x * (1 - / 4503599627370496) * fp) with (fm * (1 - / 4503599627370496)) by (rewrite <- Hxe; ring).
      apply Rle_lt_trans with (IZR b * lp * (1 + u)); [rewrite Rmult_assoc; apply Rmult_le_compat_l; lra|].
      apply Rlt_le_trans with (lm * (1 - u) * (1 - / 4503599627370496)); [|apply Rmult_le_compat_r; lra].
      rewrite <- HlnP in *. set (lP := ln (IZR P)) in *. clearbody lP.
      rewrite Hu. nra. }
  assert (Ec : (a <= Zceil q <= a + 1)%Z).
  { split.
    - assert (a - 1 < Zceil q)%Z; [|lia]. apply lt_IZR. rewrite minus_IZR.
      apply Rlt_le_trans with q; [lra|apply Zceil_ub].
    - apply Zceil_glb. rewrite plus_IZR. lra. }
  lia.
Qed.

Theorem accurate_logs_good_double (logf : Z -> R) (quot : R -> R -> R) m :
  (1 <= m <= 2 ^ 24)%Z ->
  (forall k, (1 <= k <= 2 ^ 24)%Z -> near (/ 2 ^ 50) (logf k) (ln (IZR k))) ->
  (forall x y, near (/ 2 ^ 52) (quot x y) (x / y)) ->
  good_logs (fun p k => Zceil (quot (logf k) (logf p))) m.
Proof.
  intros Hm Hlog Hquot p Hp.
  assert (Hp' : (2 <= p <= 7)%Z) by (simpl in Hp; intuition lia).
  destruct (clog_spec p m) as (Ha & Hma & Hlow); [lia|lia|].
  exists (clog p m). split; auto. split; auto. split; auto.
  set (a := clog p m) in *. clearbody a.
  assert (H2p : ln 2 <= ln (IZR p)).
  { destruct (Z.eq_dec p 2) as [->|]; [lra|]. left. apply ln_increasing; [lra|]. apply IZR_lt. lia. }
  assert (Hl2 : / 2 < ln 2).
  { pose proof (ln_gap 1 ltac:(lra)) as X. rewrite ln_1 in X. replace (1 + 1) with 2 in X by lra. lra. }
  set (lp := ln (IZR p)) in *.
  assert (HmR : 1 <= IZR m) by (apply (IZR_le 1); lia).
  assert (Hlm : 0 <= ln (IZR m)).
  { destruct (Req_dec (IZR m) 1) as [->|]; [rewrite ln_1; lra|]. left. rewrite <- ln_1. apply ln_increasing; lra. }
  set (lm := ln (IZR m)) in *.
  pose proof (Hlog m Hm) as Em. pose proof (Hlog p ltac:(lia)) as Ep. fold lm in Em. fold lp in Ep.
  unfold near in Em, Ep. rewrite (Rabs_pos_eq lm) in Em by lra. rewrite (Rabs_pos_eq lp) in Ep by lra.
  apply Rabs_le_inv in Em. apply Rabs_le_inv in Ep.
  set (u := / 2 ^ 50) in *. assert (Hu : u = / 1125899906842624) by (unfold u; f_equal; lra).
  pose proof (Hquot (logf m) (logf p)) as Eq. unfold near in Eq.
  set (fm := logf m) in *. set (fp := logf p) in *. clearbody fm fp.
  assert (Hfm : lm * (1 - u) <= fm <= lm * (1 + u)) by lra.
  assert (Hfp : lp * (1 - u) <= fp <= lp * (1 + u)) by lra.
  assert (Hfp0 : 0 < fp) by (apply Rlt_le_trans with (lp * (1 - u)); [apply Rmult_lt_0_compat; lra|lra]).
  assert (Hfm0 : 0 <= fm) by (apply Rle_trans with (lm * (1 - u)); [apply Rmult_le_pos; lra|lra]).
  set (x := fm / fp) in *.
  assert (Hx0 : 0 <= x) by (apply Rmult_le_pos; [lra|left; apply Rinv_0_lt_compat; lra]).
  rewrite (Rabs_pos_eq x) in Eq by auto. apply Rabs_le_inv in Eq.
  set (q := quot fm fp) in *. clearbody q.
  assert (Hxe : x * fp = fm) by (unfold x; field; lra).
  clearbody x.
  assert (Hq : x * (1 - / 4503599627370496) <= q <= x * (1 + / 4503599627370496)) by (replace (2 ^ 52) with 4503599627370496 in Eq by lra; lra).
  (* upper bound: q <= a + 1 *)
  assert (Hm_le : lm <= IZR a * lp).
  { unfold lm, lp. rewrite <- ln_IZR_pow by lia. 
    destruct (Z.eq_dec m (p ^ a)) as [->|]; [lra|]. left. apply ln_increasing; [lra|]. apply IZR_lt. lia. }
  assert (Ha24 : (a <= 24)%Z).
  { destruct (Z_le_gt_dec a 24); auto. exfalso. specialize (Hlow 24%Z ltac:(lia)).
    pose proof (Z.pow_le_mono_l 2 p 24). lia. }
  assert (HaR : 0 <= IZR a <= 24) by (split; [apply (IZR_le 0)|apply (IZR_le a 24)]; lia).
  assert (Hupper : q <= IZR a + 1).
  { assert (x <= IZR a * (1 + 3 * u)).
    { apply Rmult_le_reg_r with fp; auto. rewrite Hxe.
      apply Rle_trans with (IZR a * lp * (1 + u)); [nra|].
      rewrite !Rmult_assoc. apply Rmult_le_compat_l; [lra|]. 
      apply Rle_trans with ((1 + 3 * u) * (lp * (1 - u))); [|apply Rmult_le_compat_l; lra]. rewrite Hu. nra. }
    rewrite Hu in H. nra. }
  assert (Hlower : IZR a - 1 < q).
  { destruct (Z.eq_dec a 0) as [->|Hnz].
    - assert (0 <= q) by (apply Rle_trans with (x * (1 - / 4503599627370496)); [apply Rmult_le_pos; lra|lra]). lra.
    - set (b := (a - 1)%Z) in *. assert (Hb : (0 <= b)%Z) by lia.
      pose proof (Hlow b ltac:(lia)) as HP. set (P := (p ^ b)%Z) in *.
      assert (HP1 : (1 <= P)%Z) by (apply pow_ge1; lia).
      assert (HPR : 1 <= IZR P <= 16777215) by (split; [apply (IZR_le 1)|apply (IZR_le P 16777215)]; lia).
      assert (HlnP : ln (IZR P) = IZR b * lp) by (apply ln_IZR_pow; lia).
      pose proof (ln_gap (IZR P) ltac:(lra)) as G.
      assert (HP1m : ln (IZR P + 1) <= lm).
      { unfold lm. rewrite <- plus_IZR. destruct (Z.eq_dec (P + 1) m) as [->|]; [lra|]. left. apply ln_increasing; [apply (IZR_lt 0); lia|apply IZR_lt; lia]. }
      assert (HG : / 16777216 <= 1 / (IZR P + 1)).
      { unfold Rdiv. rewrite Rmult_1_l. apply Rinv_le_contravar; lra. }
      assert (HlnP2 : 0 <= ln (IZR P) <= 24 * (7 / 10)).
      { rewrite HlnP. split; [apply Rmult_le_pos; [apply (IZR_le 0); lia|lra]|]. rewrite <- HlnP.
        apply Rle_trans with (ln (IZR (2 ^ 24))).
        - left. apply ln_increasing; [lra|]. apply Rle_lt_trans with 16777215; [lra|]. apply IZR_lt. reflexivity.
        - rewrite (ln_IZR_pow 2 24) by lia. pose proof ln2_le. lra. }
      replace (IZR a - 1) with (IZR b) by (unfold b; rewrite minus_IZR; reflexivity).
      (* b < x (1 - 2^-52) *)
      apply Rlt_le_trans with (x * (1 - / 4503599627370496)); [|lra].
      assert (Hb24 : 0 <= IZR b <= 24) by (split; [apply (IZR_le 0)|apply (IZR_le b 24)]; lia).
      assert (Hgap : IZR b * lp + / 16777216 <= lm) by lra.
      apply Rmult_lt_reg_r with fp; auto.
      replace (x * (1 - / 4503599627370496) * fp) with (fm * (1 - / 4503599627370496)) by (rewrite <- Hxe; ring).
      apply Rle_lt_trans with (IZR b * lp * (1 + u)); [rewrite Rmult_assoc; apply Rmult_le_compat_l; lra|].
      apply Rlt_le_trans with (lm * (1 - u) * (1 - / 4503599627370496)); [|apply Rmult_le_compat_r; lra].
      rewrite <- HlnP in *. set (lP := ln (IZR P)) in *. clearbody lP.
      rewrite Hu. nra. }
  assert (Ec : (a <= Zceil q <= a + 1)%Z).
  { split.
    - assert (a - 1 < Zceil q)%Z; [|lia]. apply lt_IZR. rewrite minus_IZR.
      apply Rlt_le_trans with q; [lra|apply Zceil_ub].
    - apply Zceil_glb. rewrite plus_IZR. lra. }
  lia.
Qed.
