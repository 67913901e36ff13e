(** Discrete Fourier transforms over a finite product of cycles, in exact arithmetic. *)
From Coq Require Import ZArith List Bool Lia Reals Lra Psatz Permutation.
From Verif Require Import Base Arith RealArith.
Import ListNotations.
Open Scope R_scope.

(** ** finite sums *)
Lemma rsum_ext n f g : (forall i, (i < n)%nat -> f i = g i) -> rsum n f = rsum n g.
Proof. induction n; intros H; cbn [rsum]; [reflexivity|]. rewrite IHn by auto. rewrite H by lia. reflexivity. Qed.
Lemma rsum_plus n f g : rsum n (fun i => f i + g i) = rsum n f + rsum n g.
Proof. induction n; cbn [rsum]; [lra|]. rewrite IHn. lra. Qed.
Lemma rsum_minus n f g : rsum n (fun i => f i - g i) = rsum n f - rsum n g.
Proof. induction n; cbn [rsum]; [lra|]. rewrite IHn. lra. Qed.
Lemma rsum_scal n a f : rsum n (fun i => a * f i) = a * rsum n f.
Proof. induction n; cbn [rsum]; [lra|]. rewrite IHn. lra. Qed.
Lemma rsum_scal_r n a f : rsum n (fun i => f i * a) = rsum n f * a.
Proof. induction n; cbn [rsum]; [lra|]. rewrite IHn. lra. Qed.
Lemma rsum_opp n f : rsum n (fun i => - f i) = - rsum n f.
Proof. induction n; cbn [rsum]; [lra|]. rewrite IHn. lra. Qed.
Lemma rsum_0 n : rsum n (fun _ => 0) = 0.
Proof. induction n; cbn [rsum]; lra. Qed.
Lemma rsum_zero n f : (forall i, (i < n)%nat -> f i = 0) -> rsum n f = 0.
Proof. intros H. rewrite (rsum_ext n f (fun _ => 0)) by auto. apply rsum_0. Qed.
Lemma rsum_const n c : rsum n (fun _ => c) = INR n * c.
Proof. induction n; cbn [rsum]; [simpl; lra|]. rewrite IHn, S_INR. lra. Qed.
Lemma rsum_le n f g : (forall i, (i < n)%nat -> f i <= g i) -> rsum n f <= rsum n g.
Proof. induction n; intros H; cbn [rsum]; [lra|]. specialize (IHn ltac:(auto)). specialize (H n ltac:(lia)). lra. Qed.
Lemma rsum_nonneg n f : (forall i, (i < n)%nat -> 0 <= f i) -> 0 <= rsum n f.
Proof. intros H. rewrite <- (rsum_0 n). apply rsum_le. auto. Qed.
Lemma rsum_nonneg_0 n f : (forall i, (i < n)%nat -> 0 <= f i) -> rsum n f = 0 -> forall i, (i < n)%nat -> f i = 0.
Proof.
  induction n; intros H E i Hi; [lia|]. cbn [rsum] in E. pose proof (rsum_nonneg n f ltac:(auto)). pose proof (H n ltac:(lia)).
  destruct (Nat.eq_dec i n) as [->|]; [lra|]. apply IHn; auto; [lra|lia].
Qed.
Lemma rsum_abs n f : Rabs (rsum n f) <= rsum n (fun i => Rabs (f i)).
Proof. induction n; cbn [rsum]; [rewrite Rabs_R0; lra|]. eapply Rle_trans; [apply Rabs_triang|]. lra. Qed.
Lemma rsum_swap n m f : rsum n (fun i => rsum m (fun j => f i j)) = rsum m (fun j => rsum n (fun i => f i j)).
Proof.
  induction n; cbn [rsum]; [symmetry; apply rsum_0|]. rewrite IHn. rewrite <- rsum_plus. reflexivity.
Qed.
Lemma rsum_pick n k f : (k < n)%nat -> rsum n (fun i => if (i =? k)%nat then f i else 0) = f k.
Proof.
  induction n; intros H; [lia|]. cbn [rsum]. destruct (Nat.eqb_spec n k) as [->|].
  - rewrite rsum_zero; [lra|]. intros i Hi. destruct (Nat.eqb_spec i k); [lia|reflexivity].
  - rewrite IHn by lia. lra.
Qed.
Lemma rsum_mult n m f g : rsum n f * rsum m g = rsum n (fun i => rsum m (fun j => f i * g j)).
Proof. rewrite <- rsum_scal_r. apply rsum_ext. intros. rewrite <- rsum_scal. reflexivity. Qed.
Lemma rsum_app n m f : rsum (n + m) f = rsum n f + rsum m (fun i => f (n + i)%nat).
Proof.
  induction m; [rewrite Nat.add_0_r; cbn [rsum]; lra|]. rewrite Nat.add_succ_r. cbn [rsum]. rewrite IHm. lra.
Qed.
(** a flat sum as a double sum *)
Lemma rsum_flat n m f : rsum (n * m) f = rsum n (fun a => rsum m (fun b => f (a * m + b)%nat)).
Proof.
  induction n; [reflexivity|]. cbn [rsum]. rewrite <- IHn. replace (S n * m)%nat with (n * m + m)%nat by lia. apply rsum_app.
Qed.

(** ** geometric sums *)
Lemma cos_sum n x : 2 * sin (x / 2) * rsum n (fun k => cos (INR k * x)) = sin ((INR n - 1 / 2) * x) + sin (x / 2).
Proof.
  induction n.
  - cbn [rsum]. simpl INR. replace ((0 - 1 / 2) * x) with (- (x / 2)) by field. rewrite sin_neg. lra.
  - cbn [rsum]. rewrite Rmult_plus_distr_l, IHn, S_INR.
    replace ((INR n + 1 - 1 / 2) * x) with (INR n * x + x / 2) by field. replace ((INR n - 1 / 2) * x) with (INR n * x - x / 2) by field.
    rewrite sin_plus, sin_minus. lra.
Qed.
Lemma sin_sum n x : 2 * sin (x / 2) * rsum n (fun k => sin (INR k * x)) = cos (x / 2) - cos ((INR n - 1 / 2) * x).
Proof.
  induction n.
  - cbn [rsum]. simpl INR. replace ((0 - 1 / 2) * x) with (- (x / 2)) by field. rewrite cos_neg. lra.
  - cbn [rsum]. rewrite Rmult_plus_distr_l, IHn, S_INR.
    replace ((INR n + 1 - 1 / 2) * x) with (INR n * x + x / 2) by field. replace ((INR n - 1 / 2) * x) with (INR n * x - x / 2) by field.
    rewrite cos_plus, cos_minus. lra.
Qed.

Lemma ang_sums n d : (0 < d < n)%nat ->
  rsum n (fun k => cos (2 * PI * INR k * INR d / INR n)) = 0 /\ rsum n (fun k => sin (2 * PI * INR k * INR d / INR n)) = 0.
Proof.
  intros Hd. set (x := 2 * PI * INR d / INR n). pose proof (lt_0_INR n ltac:(lia)) as Hn. pose proof PI_RGT_0 as HPI.
  pose proof (lt_0_INR d ltac:(lia)) as Hd0. pose proof (lt_INR d n ltac:(lia)) as Hdn.
  assert (E : forall k, 2 * PI * INR k * INR d / INR n = INR k * x) by (intros; unfold x; field; lra).
  assert (S : sin (x / 2) <> 0).
  { apply Rgt_not_eq, sin_gt_0.
    - unfold x. replace (2 * PI * INR d / INR n / 2) with (PI * (INR d / INR n)) by (field; lra).
      apply Rmult_lt_0_compat; auto. apply Rdiv_lt_0_compat; auto.
    - unfold x. replace (2 * PI * INR d / INR n / 2) with (PI * (INR d / INR n)) by (field; lra).
      rewrite <- (Rmult_1_r PI) at 2. apply Rmult_lt_compat_l; auto. apply (Rmult_lt_reg_r (INR n)); auto. unfold Rdiv. rewrite Rmult_assoc, Rinv_l; lra. }
  assert (P : (INR n - 1 / 2) * x = - (x / 2) + 2 * INR d * PI) by (unfold x; field; lra).
  split.
  - rewrite (rsum_ext _ _ (fun k => cos (INR k * x))) by (intros; rewrite E; reflexivity).
    pose proof (cos_sum n x) as H. rewrite P, sin_period, sin_neg in H.
    apply (Rmult_eq_reg_l (2 * sin (x / 2))); [|lra]. lra.
  - rewrite (rsum_ext _ _ (fun k => sin (INR k * x))) by (intros; rewrite E; reflexivity).
    pose proof (sin_sum n x) as H. rewrite P, cos_period, cos_neg in H.
    apply (Rmult_eq_reg_l (2 * sin (x / 2))); [|lra]. lra.
Qed.

(** ** systems of characters *)
Record dsys := mkDsys { dN : nat; dth : nat -> nat -> R; dng : nat -> nat; dsb : nat -> nat -> nat }.
Definition delta (i j : nat) : R := if (i =? j)%nat then 1 else 0.
Record good (S : dsys) : Prop := mkGood {
  g_pos : (0 < dN S)%nat;
  g_ng : forall k, (k < dN S)%nat -> (dng S k < dN S)%nat;
  g_inv : forall k, (k < dN S)%nat -> dng S (dng S k) = k;
  g_sb : forall i j, (i < dN S)%nat -> (j < dN S)%nat -> (dsb S i j < dN S)%nat;
  g_sym : forall k j, dth S k j = dth S j k;
  g_ngc : forall k j, (k < dN S)%nat -> (j < dN S)%nat -> cos (dth S (dng S k) j) = cos (dth S k j);
  g_ngs : forall k j, (k < dN S)%nat -> (j < dN S)%nat -> sin (dth S (dng S k) j) = - sin (dth S k j);
  g_sbc : forall k i j, (k < dN S)%nat -> (i < dN S)%nat -> (j < dN S)%nat -> cos (dth S k (dsb S i j)) = cos (dth S k i - dth S k j);
  g_sbs : forall k i j, (k < dN S)%nat -> (i < dN S)%nat -> (j < dN S)%nat -> sin (dth S k (dsb S i j)) = sin (dth S k i - dth S k j);
  g_oc : forall i j, (i < dN S)%nat -> (j < dN S)%nat -> rsum (dN S) (fun k => cos (dth S k i - dth S k j)) = INR (dN S) * delta i j;
  g_os : forall i j, (i < dN S)%nat -> (j < dN S)%nat -> rsum (dN S) (fun k => sin (dth S k i - dth S k j)) = 0
}.

(** one cycle *)
Definition cyc (n : nat) : dsys := {| dN := n; dth := ang n; dng := fun k => ((n - k) mod n)%nat; dsb := fun i j => ((i + (n - j)) mod n)%nat |}.

Lemma ang_mod n k m : (0 < n)%nat -> cos (ang n k (m mod n)) = cos (ang n k m) /\ sin (ang n k (m mod n)) = sin (ang n k m).
Proof.
  intros Hn. pose proof (lt_0_INR n Hn) as H. pose proof (Nat.div_mod m n ltac:(lia)) as E.
  assert (A : ang n k m = ang n k (m mod n) + 2 * INR (k * (m / n)) * PI).
  { rewrite E at 1. unfold ang. rewrite plus_INR, !mult_INR. field. lra. }
  rewrite A, cos_period, sin_period. auto.
Qed.
Lemma ang_sub n k i j : (0 < n)%nat -> (j <= n)%nat ->
  cos (ang n k (i + (n - j))) = cos (ang n k i - ang n k j) /\ sin (ang n k (i + (n - j))) = sin (ang n k i - ang n k j).
Proof.
  intros Hn Hj. pose proof (lt_0_INR n Hn) as H.
  assert (A : ang n k (i + (n - j)) = ang n k i - ang n k j + 2 * INR k * PI).
  { unfold ang. rewrite plus_INR, minus_INR by auto. field. lra. }
  rewrite A, cos_period, sin_period. auto.
Qed.
Lemma ang_0 n k : ang n k 0 = 0.
Proof. unfold ang. simpl INR. unfold Rdiv. ring. Qed.
Lemma ang_sym n k j : ang n k j = ang n j k.
Proof. unfold ang. f_equal. ring. Qed.

Lemma cyc_good n : (0 < n)%nat -> good (cyc n).
Proof.
  intros Hn. pose proof (lt_0_INR n Hn) as HR.
  assert (NG : forall k j, (k <= n)%nat -> cos (ang n ((n - k) mod n) j) = cos (ang n k j) /\ sin (ang n ((n - k) mod n) j) = - sin (ang n k j)).
  { intros k j Hk. rewrite ang_sym. destruct (ang_mod n j (n - k) Hn) as [-> ->]. destruct (ang_sub n j 0 k Hn Hk) as [C S].
    rewrite Nat.add_0_l in *. rewrite C, S, ang_0, (ang_sym n k j). unfold Rminus. rewrite Rplus_0_l, cos_neg, sin_neg. auto. }
  assert (ORT : forall i j, (i < n)%nat -> (j < n)%nat ->
    rsum n (fun k => cos (ang n k i - ang n k j)) = INR n * delta i j /\ rsum n (fun k => sin (ang n k i - ang n k j)) = 0).
  { intros i j Hi Hj. unfold delta. destruct (Nat.eqb_spec i j) as [->|Hne].
    - split.
      + rewrite (rsum_ext _ _ (fun _ => 1)); [rewrite rsum_const; lra|]. intros. rewrite Rminus_eq_0. apply cos_0.
      + apply rsum_zero. intros. rewrite Rminus_eq_0. apply sin_0.
    - destruct (Nat.lt_ge_cases j i).
      + destruct (ang_sums n (i - j) ltac:(lia)) as [C S].
        assert (E : forall k, ang n k i - ang n k j = 2 * PI * INR k * INR (i - j) / INR n).
        { intros. unfold ang. rewrite minus_INR by lia. field. lra. }
        rewrite (rsum_ext n _ _ (fun k _ => f_equal cos (E k))), (rsum_ext n _ _ (fun k _ => f_equal sin (E k))), C, S. lra.
      + destruct (ang_sums n (j - i) ltac:(lia)) as [C S].
        assert (E : forall k, ang n k i - ang n k j = - (2 * PI * INR k * INR (j - i) / INR n)).
        { intros. unfold ang. rewrite minus_INR by lia. field. lra. }
        rewrite (rsum_ext n _ (fun k => cos (2 * PI * INR k * INR (j - i) / INR n))) by (intros; rewrite E, cos_neg; reflexivity).
        rewrite (rsum_ext n (fun k => sin _) (fun k => - sin (2 * PI * INR k * INR (j - i) / INR n))) by (intros; rewrite E, sin_neg; reflexivity).
        rewrite rsum_opp, C, S. lra. }
  constructor; cbn [cyc dN dth dng dsb]; auto.
  - intros. apply Nat.mod_upper_bound. lia.
  - intros k Hk. destruct k; [rewrite Nat.sub_0_r, Nat.mod_same, Nat.sub_0_r, Nat.mod_same by lia; reflexivity|].
    rewrite (Nat.mod_small (n - S k)) by lia. replace (n - (n - S k))%nat with (S k) by lia. apply Nat.mod_small. auto.
  - intros. apply Nat.mod_upper_bound. lia.
  - apply ang_sym.
  - intros. apply NG. lia.
  - intros. apply NG. lia.
  - intros k i j Hk Hi Hj. destruct (ang_mod n k (i + (n - j)) Hn) as [-> _]. apply ang_sub; lia.
  - intros k i j Hk Hi Hj. destruct (ang_mod n k (i + (n - j)) Hn) as [_ ->]. apply ang_sub; lia.
  - intros. apply ORT; auto.
  - intros. apply ORT; auto.
Qed.

(** the product of two systems, flat index a*n2 + b *)
Definition prod_sys (S T : dsys) : dsys :=
  let m := dN T in
  {| dN := dN S * m;
     dth := fun k j => dth S (k / m) (j / m) + dth T (k mod m) (j mod m);
     dng := fun k => (dng S (k / m) * m + dng T (k mod m))%nat;
     dsb := fun i j => (dsb S (i / m) (j / m) * m + dsb T (i mod m) (j mod m))%nat |}.

Lemma flat_div m a b : (b < m)%nat -> ((a * m + b) / m = a)%nat /\ ((a * m + b) mod m = b)%nat.
Proof.
  intros H. split; [rewrite Nat.div_add_l, Nat.div_small by lia; lia|]. rewrite Nat.add_comm, Nat.mod_add, Nat.mod_small by lia. reflexivity.
Qed.
Lemma div_lt_flat n m k : (k < n * m)%nat -> (k / m < n)%nat /\ (k mod m < m)%nat.
Proof.
  intros H. assert (m <> 0)%nat by nia. split; [apply Nat.div_lt_upper_bound; lia|apply Nat.mod_upper_bound; auto].
Qed.
Lemma flat_lt n m a b : (a < n)%nat -> (b < m)%nat -> (a * m + b < n * m)%nat.
Proof. nia. Qed.

Lemma prod_good S T : good S -> good T -> good (prod_sys S T).
Proof.
  intros GS GT. pose proof (g_pos S GS) as PS. pose proof (g_pos T GT) as PT.
  constructor; cbn [prod_sys dN dth dng dsb].
  - nia.
  - intros k Hk. destruct (div_lt_flat _ _ _ Hk). apply flat_lt; [apply (g_ng S GS)|apply (g_ng T GT)]; auto.
  - intros k Hk. destruct (div_lt_flat _ _ _ Hk) as [Ha Hb].
    destruct (flat_div (dN T) (dng S (k / dN T)) (dng T (k mod dN T)) (g_ng T GT _ Hb)) as [-> ->].
    rewrite (g_inv S GS), (g_inv T GT) by auto. rewrite (Nat.div_mod k (dN T)) at 3 by lia. lia.
  - intros i j Hi Hj. destruct (div_lt_flat _ _ _ Hi), (div_lt_flat _ _ _ Hj). apply flat_lt; [apply (g_sb S GS)|apply (g_sb T GT)]; auto.
  - intros. rewrite (g_sym S GS), (g_sym T GT). reflexivity.
  - intros k j Hk Hj. destruct (div_lt_flat _ _ _ Hk) as [Ha Hb], (div_lt_flat _ _ _ Hj) as [Hc Hd].
    destruct (flat_div (dN T) (dng S (k / dN T)) (dng T (k mod dN T)) (g_ng T GT _ Hb)) as [-> ->].
    rewrite !cos_plus, (g_ngc S GS), (g_ngc T GT), (g_ngs S GS), (g_ngs T GT) by auto. ring.
  - intros k j Hk Hj. destruct (div_lt_flat _ _ _ Hk) as [Ha Hb], (div_lt_flat _ _ _ Hj) as [Hc Hd].
    destruct (flat_div (dN T) (dng S (k / dN T)) (dng T (k mod dN T)) (g_ng T GT _ Hb)) as [-> ->].
    rewrite !sin_plus, (g_ngc S GS), (g_ngc T GT), (g_ngs S GS), (g_ngs T GT) by auto. ring.
  - intros k i j Hk Hi Hj. destruct (div_lt_flat _ _ _ Hk) as [Ha Hb], (div_lt_flat _ _ _ Hi) as [Hc Hd], (div_lt_flat _ _ _ Hj) as [He Hf].
    destruct (flat_div (dN T) (dsb S (i / dN T) (j / dN T)) (dsb T (i mod dN T) (j mod dN T)) (g_sb T GT _ _ Hd Hf)) as [-> ->].
    rewrite cos_plus, (g_sbc S GS), (g_sbc T GT), (g_sbs S GS), (g_sbs T GT) by auto. rewrite <- cos_plus. f_equal. ring.
  - intros k i j Hk Hi Hj. destruct (div_lt_flat _ _ _ Hk) as [Ha Hb], (div_lt_flat _ _ _ Hi) as [Hc Hd], (div_lt_flat _ _ _ Hj) as [He Hf].
    destruct (flat_div (dN T) (dsb S (i / dN T) (j / dN T)) (dsb T (i mod dN T) (j mod dN T)) (g_sb T GT _ _ Hd Hf)) as [-> ->].
    rewrite sin_plus, (g_sbc S GS), (g_sbc T GT), (g_sbs S GS), (g_sbs T GT) by auto. rewrite <- sin_plus. f_equal. ring.
  - intros i j Hi Hj. destruct (div_lt_flat _ _ _ Hi) as [Hc Hd], (div_lt_flat _ _ _ Hj) as [He Hf].
    rewrite rsum_flat. 
    rewrite (rsum_ext _ _ (fun a => cos (dth S a (i / dN T) - dth S a (j / dN T)) * (INR (dN T) * delta (i mod dN T) (j mod dN T)))).
    2:{ intros a Ha. rewrite (rsum_ext _ _ (fun b => cos (dth S a (i / dN T) - dth S a (j / dN T)) * cos (dth T b (i mod dN T) - dth T b (j mod dN T))
          - sin (dth S a (i / dN T) - dth S a (j / dN T)) * sin (dth T b (i mod dN T) - dth T b (j mod dN T)))).
        - rewrite rsum_minus, !rsum_scal, (g_oc T GT), (g_os T GT) by auto. ring.
        - intros b Hb. destruct (flat_div (dN T) a b Hb) as [-> ->]. rewrite <- cos_plus. f_equal. ring. }
    rewrite rsum_scal_r, (g_oc S GS) by auto. unfold delta. rewrite mult_INR.
    destruct (Nat.eqb_spec i j) as [->|Hne]; [rewrite !Nat.eqb_refl; ring|].
    destruct (Nat.eqb_spec (i / dN T) (j / dN T)) as [E1|]; [|ring]. destruct (Nat.eqb_spec (i mod dN T) (j mod dN T)) as [E2|]; [|ring].
    exfalso. apply Hne. rewrite (Nat.div_mod i (dN T)), (Nat.div_mod j (dN T)) by lia. congruence.
  - intros i j Hi Hj. destruct (div_lt_flat _ _ _ Hi) as [Hc Hd], (div_lt_flat _ _ _ Hj) as [He Hf].
    rewrite rsum_flat. 
    rewrite (rsum_ext _ _ (fun a => sin (dth S a (i / dN T) - dth S a (j / dN T)) * (INR (dN T) * delta (i mod dN T) (j mod dN T)))).
    2:{ intros a Ha. rewrite (rsum_ext _ _ (fun b => sin (dth S a (i / dN T) - dth S a (j / dN T)) * cos (dth T b (i mod dN T) - dth T b (j mod dN T))
          + cos (dth S a (i / dN T) - dth S a (j / dN T)) * sin (dth T b (i mod dN T) - dth T b (j mod dN T)))).
        - rewrite rsum_plus, !rsum_scal, (g_oc T GT), (g_os T GT) by auto. ring.
        - intros b Hb. destruct (flat_div (dN T) a b Hb) as [-> ->]. rewrite <- sin_plus. f_equal. ring. }
    rewrite rsum_scal_r, (g_os S GS) by auto. ring.
Qed.

(** ** transforms over a system *)
Section T.
Variable S : dsys.
Hypothesis G : good S.
Notation N := (dN S).
Notation th := (dth S).
Notation ng := (dng S).
Notation sb := (dsb S).

(** the transform of [x]: Re and -Im *)
Definition fre (x : nat -> R) (k : nat) : R := rsum N (fun j => x j * cos (th k j)).
Definition fim (x : nat -> R) (k : nat) : R := rsum N (fun j => x j * sin (th k j)).
(** the inverse of the Hermitian spectrum (a - i b) *)
Definition inv (a b : nat -> R) (j : nat) : R := rsum N (fun k => a k * cos (th k j) + b k * sin (th k j)).

Lemma N_pos : 0 < INR N.
Proof. apply lt_0_INR, G. Qed.

Lemma fre_ng x k : (k < N)%nat -> fre x (ng k) = fre x k.
Proof. intros. apply rsum_ext. intros. rewrite (g_ngc S G) by auto. reflexivity. Qed.
Lemma fim_ng x k : (k < N)%nat -> fim x (ng k) = - fim x k.
Proof. intros. unfold fim. rewrite <- rsum_opp. apply rsum_ext. intros. rewrite (g_ngs S G) by auto. ring. Qed.

(** the inverse of a filtered transform, as a kernel *)
Lemma inv_filter x s j : inv (fun k => s k * fre x k) (fun k => s k * fim x k) j
  = rsum N (fun l => x l * rsum N (fun k => s k * cos (th k j - th k l))).
Proof.
  unfold inv, fre, fim.
  rewrite (rsum_ext _ _ (fun k => rsum N (fun l => x l * (s k * cos (th k j - th k l))))).
  - rewrite rsum_swap. apply rsum_ext. intros l Hl. rewrite rsum_scal. reflexivity.
  - intros k Hk. replace (s k * rsum N (fun j0 => x j0 * cos (th k j0)) * cos (th k j) + s k * rsum N (fun j0 => x j0 * sin (th k j0)) * sin (th k j))
      with (s k * cos (th k j) * rsum N (fun j0 => x j0 * cos (th k j0)) + s k * sin (th k j) * rsum N (fun j0 => x j0 * sin (th k j0))) by ring.
    rewrite <- !rsum_scal, <- rsum_plus. apply rsum_ext. intros l Hl. rewrite cos_minus. ring.
Qed.
(** inversion *)
Lemma inv_f x j : (j < N)%nat -> inv (fre x) (fim x) j = INR N * x j.
Proof.
  intros Hj. transitivity (inv (fun k => 1 * fre x k) (fun k => 1 * fim x k) j).
  { unfold inv. apply rsum_ext. intros. ring. }
  rewrite inv_filter. rewrite (rsum_ext _ _ (fun l => if (l =? j)%nat then INR N * x l else 0)).
  - apply rsum_pick. auto.
  - intros l Hl. rewrite (rsum_ext _ _ (fun k => cos (th k j - th k l))) by (intros; ring). rewrite (g_oc S G) by auto.
    unfold delta. rewrite Nat.eqb_sym. destruct (l =? j)%nat; ring.
Qed.

(** orthogonality in the other index *)
Lemma orth2 k l x : (k < N)%nat -> (l < N)%nat -> rsum N (fun j => cos (x - (th k j - th l j))) = cos x * INR N * delta k l.
Proof.
  intros Hk Hl. rewrite (rsum_ext _ _ (fun j => cos x * cos (th j k - th j l) + sin x * sin (th j k - th j l))).
  - rewrite rsum_plus, !rsum_scal, (g_oc S G), (g_os S G) by auto. ring.
  - intros. rewrite cos_minus, (g_sym S G k), (g_sym S G l). reflexivity.
Qed.
Lemma orth3 k l x : (k < N)%nat -> (l < N)%nat -> rsum N (fun j => cos (x - (th k j + th l j))) = cos x * INR N * delta k (ng l).
Proof.
  intros Hk Hl. rewrite <- (orth2 k (ng l) x) by (auto; apply G; auto).
  apply rsum_ext. intros j Hj. rewrite !cos_minus, !sin_minus, !cos_plus, sin_plus, (g_ngc S G l j), (g_ngs S G l j) by auto. ring.
Qed.

(** the kernel of a filter with even [s], and its autocorrelation *)
Definition ker (s : nat -> R) (i j : nat) : R := / INR N * rsum N (fun k => s k * cos (th k i - th k j)).
Lemma ker_auto s i i' : (forall k, (k < N)%nat -> s (ng k) = s k) -> (i < N)%nat -> (i' < N)%nat ->
  rsum N (fun j => ker s i j * ker s i' j) = / INR N * rsum N (fun k => s k * s k * cos (th k i - th k i')).
Proof.
  intros Hs Hi Hi'. unfold ker. pose proof N_pos as HN.
  rewrite (rsum_ext _ _ (fun j => / INR N * / INR N * rsum N (fun k => rsum N (fun l => s k * s l * (cos (th k i - th k j) * cos (th l i' - th l j)))))).
  2:{ intros j Hj.
      transitivity (/ INR N * / INR N * (rsum N (fun k => s k * cos (th k i - th k j)) * rsum N (fun l => s l * cos (th l i' - th l j)))); [ring|].
      f_equal. rewrite rsum_mult. apply rsum_ext. intros k Hk. apply rsum_ext. intros l Hl. ring. }
  rewrite rsum_scal, rsum_swap.
  rewrite (rsum_ext _ _ (fun k => INR N * (s k * s k * cos (th k i - th k i')))).
  - rewrite rsum_scal. field. lra.
  - intros k Hk. rewrite rsum_swap.
    rewrite (rsum_ext _ _ (fun l => s k * s l / 2 * (cos (th k i - th l i') * INR N * delta k l + cos (th k i + th l i') * INR N * delta k (ng l)))).
    + rewrite (rsum_ext _ _ (fun l => (if (l =? k)%nat then s k * s l / 2 * (cos (th k i - th l i') * INR N) else 0)
                                   + (if (l =? ng k)%nat then s k * s l / 2 * (cos (th k i + th l i') * INR N) else 0))).
      * rewrite rsum_plus, !rsum_pick by (auto; apply G; auto). rewrite Hs by auto.
        replace (cos (th k i + th (ng k) i')) with (cos (th k i - th k i')); [field|].
        rewrite cos_minus, cos_plus, (g_ngc S G), (g_ngs S G) by auto. ring.
      * intros l Hl. unfold delta. rewrite (Nat.eqb_sym k l).
        replace (k =? ng l)%nat with (l =? ng k)%nat.
        { destruct (l =? k)%nat, (l =? ng k)%nat; ring. }
        destruct (Nat.eqb_spec l (ng k)) as [->|Hn]; [rewrite (g_inv S G) by auto; symmetry; apply Nat.eqb_refl|].
        symmetry. apply Nat.eqb_neq. intros E. apply Hn. rewrite E, (g_inv S G) by auto. reflexivity.
    + intros l Hl. rewrite rsum_scal. 
      replace (s k * s l / 2 * (cos (th k i - th l i') * INR N * delta k l + cos (th k i + th l i') * INR N * delta k (ng l)))
        with (s k * s l * (/ 2 * (cos (th k i - th l i') * INR N * delta k l + cos (th k i + th l i') * INR N * delta k (ng l)))) by field.
      f_equal. rewrite <- orth2, <- orth3, <- rsum_plus, <- rsum_scal by auto.
      apply rsum_ext. intros j Hj.
      replace (th k i - th l i' - (th k j - th l j)) with ((th k i - th k j) - (th l i' - th l j)) by ring.
      replace (th k i + th l i' - (th k j + th l j)) with ((th k i - th k j) + (th l i' - th l j)) by ring.
      generalize (th k i - th k j) (th l i' - th l j). intros a b. rewrite cos_minus, cos_plus. field.
Qed.

(** spectral synthesis of [c] itself *)
Lemma synth c i i' : (i < N)%nat -> (i' < N)%nat ->
  / INR N * rsum N (fun k => fre c k * cos (th k i - th k i')) = (c (sb i i') + c (ng (sb i i'))) / 2.
Proof.
  intros Hi Hi'. pose proof N_pos as HN. pose proof (g_sb S G i i' Hi Hi') as Hd. set (d := sb i i') in *.
  pose proof (g_ng S G d Hd) as Hnd.
  assert (E : forall e, (e < N)%nat -> rsum N (fun k => fre c k * cos (th k e) + fim c k * sin (th k e)) = INR N * c e) by (intros; apply inv_f; auto).
  pose proof (E d Hd) as E1. pose proof (E (ng d) Hnd) as E2. rewrite rsum_plus in E1, E2.
  rewrite (rsum_ext _ (fun k => fre c k * cos (th k (ng d))) (fun k => fre c k * cos (th k d))) in E2
    by (intros; rewrite (g_sym S G), (g_ngc S G), (g_sym S G) by auto; reflexivity).
  rewrite (rsum_ext _ (fun k => fim c k * sin (th k (ng d))) (fun k => - (fim c k * sin (th k d)))) in E2
    by (intros; rewrite (g_sym S G), (g_ngs S G), (g_sym S G) by auto; ring).
  rewrite rsum_opp in E2.
  rewrite (rsum_ext _ _ (fun k => fre c k * cos (th k d))) by (intros; unfold d; rewrite (g_sbc S G) by auto; reflexivity).
  apply (Rmult_eq_reg_l (INR N)); [|lra]. rewrite <- Rmult_assoc, Rinv_r, Rmult_1_l by lra. lra.
Qed.

(** Parseval *)
Lemma parseval x : rsum N (fun k => fre x k * fre x k + fim x k * fim x k) = INR N * rsum N (fun j => x j * x j).
Proof.
  rewrite <- rsum_scal. 
  rewrite (rsum_ext _ (fun j => INR N * (x j * x j)) (fun j => x j * inv (fre x) (fim x) j)) by (intros; rewrite inv_f by auto; ring).
  unfold inv. 
  rewrite (rsum_ext _ (fun j => x j * _) (fun j => rsum N (fun k => fre x k * (x j * cos (th k j)) + fim x k * (x j * sin (th k j)))))
    by (intros; rewrite <- rsum_scal; apply rsum_ext; intros; ring).
  rewrite rsum_swap. apply rsum_ext. intros k Hk. rewrite rsum_plus, !rsum_scal. reflexivity.
Qed.
End T.
