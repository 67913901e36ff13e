(** FFTW's half spectra as transforms over systems. *)
From Coq Require Import ZArith List Bool Lia Reals Lra Psatz.
From Verif Require Import Base Arith RealArith M_Grid P_Base P_Grid P_Bounds P_Dft.
Import ListNotations.
Open Scope R_scope.

Definition nthR (x : list R) (j : nat) : R := nth j x 0.

Section Rows.
Variable T : dsys.
Variable n : nat.
Hypothesis GT : good T.
Hypothesis Hn : (0 < n)%nat.
Notation h := (n / 2 + 1)%nat.
Definition rows := prod_sys T (cyc n).
Notation S := rows.

Lemma rows_good : good S.
Proof. apply prod_good; auto. apply cyc_good; auto. Qed.

Lemma half_le : (h <= n)%nat \/ n = 1%nat.
Proof. destruct n as [|[|m]]; [lia|auto|]. left. pose proof (Nat.div_mod (Datatypes.S (Datatypes.S m)) 2 ltac:(lia)). lia. Qed.
Lemma half_lt k : (k < h)%nat -> (k < n)%nat \/ False \/ (k = 1 /\ n = 1)%nat.
Proof. intros. destruct half_le as [|E]; [lia|]. subst. change (1/2)%nat with 0%nat in *. lia. Qed.
Lemma half_lt' k : (k < h)%nat -> (k < n)%nat.
Proof. intros H. assert (n / 2 < n)%nat by (apply Nat.div_lt; lia). lia. Qed.

Definition gr2c (x : list R) : list (R * R) :=
  map (fun q => let k := (q / h * n + q mod h)%nat in (fre S (nthR x) k, - fim S (nthR x) k)) (seq 0 (dN T * h)).
Definition gherm (X : list (R * R)) (k : nat) : R * R :=
  if (k mod n <? h)%nat then nth (k / n * h + k mod n) X (0, 0)
  else conj (nth (dng T (k / n) * h + (n - k mod n)) X (0, 0)).
Definition gc2r (X : list (R * R)) : list R :=
  map (fun j => rsum (dN S) (fun k => fst (gherm X k) * cos (dth S k j) - snd (gherm X k) * sin (dth S k j))) (seq 0 (dN S)).

(** the stored index of a frequency *)
Definition stored (k : nat) : nat := (k / n * h + k mod n)%nat.
Lemma stored_lt k : (k < dN S)%nat -> (k mod n < h)%nat -> (stored k < dN T * h)%nat.
Proof. intros Hk Hm. destruct (div_lt_flat _ _ _ Hk). apply flat_lt; auto. Qed.

Lemma gr2c_nth x k : (k < dN S)%nat -> (k mod n < h)%nat -> nth (stored k) (gr2c x) (0, 0) = (fre S (nthR x) k, - fim S (nthR x) k).
Proof.
  intros Hk Hm. unfold gr2c. rewrite nth_map_seq by (apply stored_lt; auto). unfold stored.
  destruct (flat_div h (k / n) (k mod n) Hm) as [-> ->]. cbv zeta.
  replace (k / n * n + k mod n)%nat with k by (rewrite (Nat.div_mod k n) at 1 by lia; lia). reflexivity.
Qed.

Lemma gherm_full X a b :
  (forall k, (k < dN S)%nat -> (k mod n < h)%nat -> nth (stored k) X (0, 0) = (a k, - b k)) ->
  (forall k, (k < dN S)%nat -> a (dng S k) = a k) -> (forall k, (k < dN S)%nat -> b (dng S k) = - b k) ->
  forall k, (k < dN S)%nat -> gherm X k = (a k, - b k).
Proof.
  intros HX Ha Hb k Hk. unfold gherm. destruct (Nat.ltb_spec (k mod n) h) as [Hm|Hm]; [apply HX; auto|].
  pose proof (g_ng S rows_good k Hk) as Hng. destruct (div_lt_flat _ _ _ Hk) as [Hq Hr]. change (dN (cyc n)) with n in Hq, Hr.
  assert (E : (dng S k = dng T (k / n) * n + (n - k mod n))%nat).
  { cbn [rows prod_sys dng cyc dN]. f_equal. apply Nat.mod_small. lia. }
  pose proof (Nat.div_mod n 2 ltac:(lia)) as Hd. pose proof (Nat.mod_upper_bound n 2 ltac:(lia)).
  assert (Hlt : (n - k mod n < n)%nat) by lia.
  destruct (flat_div n (dng T (k / n)) (n - k mod n) Hlt) as [E1 E2].
  specialize (HX (dng S k) Hng). unfold stored in HX. rewrite E, E1, E2 in HX. rewrite HX by lia. rewrite <- E, Ha, Hb by auto.
  unfold conj. cbn [fst snd]. f_equal. lra.
Qed.

Lemma gc2r_nth X a b j : (j < dN S)%nat ->
  (forall k, (k < dN S)%nat -> (k mod n < h)%nat -> nth (stored k) X (0, 0) = (a k, - b k)) ->
  (forall k, (k < dN S)%nat -> a (dng S k) = a k) -> (forall k, (k < dN S)%nat -> b (dng S k) = - b k) ->
  nth j (gc2r X) 0 = inv S a b j.
Proof.
  intros Hj HX Ha Hb. unfold gc2r. rewrite nth_map_seq by auto. apply rsum_ext. intros k Hk.
  rewrite (gherm_full X a b) by auto. cbn [fst snd]. lra.
Qed.

(** forward, pointwise real filter, inverse *)
Lemma filter_nth x (s : nat -> R) X j : (j < dN S)%nat ->
  (forall k, (k < dN S)%nat -> s (dng S k) = s k) ->
  (forall k, (k < dN S)%nat -> (k mod n < h)%nat -> nth (stored k) X (0, 0) = (s k * fst (nth (stored k) (gr2c x) (0, 0)), s k * snd (nth (stored k) (gr2c x) (0, 0)))) ->
  nth j (gc2r X) 0 = INR (dN S) * rsum (dN S) (fun l => ker S s j l * nthR x l).
Proof.
  intros Hj Hs HX. rewrite (gc2r_nth X (fun k => s k * fre S (nthR x) k) (fun k => s k * fim S (nthR x) k)) by
   (auto; intros k Hk; intros; rewrite ?HX, ?gr2c_nth, ?Hs, ?(fre_ng S rows_good), ?(fim_ng S rows_good) by auto; cbn [fst snd]; try f_equal; ring).
  rewrite inv_filter. rewrite <- rsum_scal. apply rsum_ext. intros l Hl. unfold ker. pose proof (N_pos S rows_good). field. lra.
Qed.

Lemma round_nth x j : (j < dN S)%nat -> nth j (gc2r (gr2c x)) 0 = INR (dN S) * nthR x j.
Proof.
  intros Hj. rewrite (gc2r_nth _ (fre S (nthR x)) (fim S (nthR x))).
  - apply (inv_f S rows_good). auto.
  - auto.
  - intros. apply gr2c_nth; auto.
  - intros. apply (fre_ng S rows_good). auto.
  - intros. apply (fim_ng S rows_good). auto.
Qed.
End Rows.

Definition sys1 n := rows (cyc 1) n.
Definition sys2 n0 n1 := rows (cyc n0) n1.
Definition sys3 n0 n1 n2 := rows (prod_sys (cyc n0) (cyc n1)) n2.

Lemma sys1_good n : (0 < n)%nat -> good (sys1 n).
Proof. intros. apply rows_good; auto. apply cyc_good. lia. Qed.
Lemma sys2_good n0 n1 : (0 < n0)%nat -> (0 < n1)%nat -> good (sys2 n0 n1).
Proof. intros. apply rows_good; auto. apply cyc_good. lia. Qed.
Lemma sys3_good n0 n1 n2 : (0 < n0)%nat -> (0 < n1)%nat -> (0 < n2)%nat -> good (sys3 n0 n1 n2).
Proof. intros. apply rows_good; auto. apply prod_good; apply cyc_good; auto. Qed.

(** phases *)
Lemma th1 n k j : (k < n)%nat -> (j < n)%nat -> dth (sys1 n) k j = ang n k j.
Proof.
  intros. unfold sys1, rows. cbn [prod_sys cyc dth dN]. rewrite !Nat.div_small, !Nat.mod_small by auto. rewrite ang_0. ring.
Qed.
Lemma th2 n0 n1 k0 k1 j0 j1 : (k1 < n1)%nat -> (j1 < n1)%nat -> dth (sys2 n0 n1) (k0 * n1 + k1) (j0 * n1 + j1) = ang n0 k0 j0 + ang n1 k1 j1.
Proof.
  intros Hk Hj. unfold sys2, rows. cbn [prod_sys cyc dth dN]. destruct (flat_div n1 k0 k1 Hk) as [-> ->], (flat_div n1 j0 j1 Hj) as [-> ->]. reflexivity.
Qed.
Lemma th3 n0 n1 n2 k0 k1 k2 j0 j1 j2 : (k1 < n1)%nat -> (j1 < n1)%nat -> (k2 < n2)%nat -> (j2 < n2)%nat ->
  dth (sys3 n0 n1 n2) ((k0 * n1 + k1) * n2 + k2) ((j0 * n1 + j1) * n2 + j2) = ang n0 k0 j0 + ang n1 k1 j1 + ang n2 k2 j2.
Proof.
  intros Hk Hj Hk' Hj'. unfold sys3, rows. cbn [prod_sys cyc dth dN].
  destruct (flat_div n2 (k0 * n1 + k1) k2 Hk') as [-> ->], (flat_div n2 (j0 * n1 + j1) j2 Hj') as [-> ->].
  destruct (flat_div n1 k0 k1 Hk) as [-> ->], (flat_div n1 j0 j1 Hj) as [-> ->]. reflexivity.
Qed.
(** negation and subtraction *)
Lemma ng1 n k : (k < n)%nat -> dng (sys1 n) k = ((n - k) mod n)%nat.
Proof. intros. unfold sys1, rows. cbn [prod_sys cyc dng dN]. rewrite Nat.mod_1_r, (Nat.mod_small k) by auto. lia. Qed.
Lemma ng2 n0 n1 k0 k1 : (k1 < n1)%nat -> dng (sys2 n0 n1) (k0 * n1 + k1) = ((n0 - k0) mod n0 * n1 + (n1 - k1) mod n1)%nat.
Proof. intros Hk. unfold sys2, rows. cbn [prod_sys cyc dng dN]. destruct (flat_div n1 k0 k1 Hk) as [-> ->]. reflexivity. Qed.
Lemma ng3 n0 n1 n2 k0 k1 k2 : (k1 < n1)%nat -> (k2 < n2)%nat ->
  dng (sys3 n0 n1 n2) ((k0 * n1 + k1) * n2 + k2) = (((n0 - k0) mod n0 * n1 + (n1 - k1) mod n1) * n2 + (n2 - k2) mod n2)%nat.
Proof.
  intros Hk Hk'. unfold sys3, rows. cbn [prod_sys cyc dng dN]. destruct (flat_div n2 (k0 * n1 + k1) k2 Hk') as [-> ->].
  destruct (flat_div n1 k0 k1 Hk) as [-> ->]. reflexivity.
Qed.
Lemma sb1 n i j : (i < n)%nat -> (j < n)%nat -> dsb (sys1 n) i j = ((i + (n - j)) mod n)%nat.
Proof. intros. unfold sys1, rows. cbn [prod_sys cyc dsb dN]. rewrite Nat.mod_1_r, (Nat.mod_small i), (Nat.mod_small j) by auto. lia. Qed.
Lemma sb2 n0 n1 i0 i1 j0 j1 : (i1 < n1)%nat -> (j1 < n1)%nat ->
  dsb (sys2 n0 n1) (i0 * n1 + i1) (j0 * n1 + j1) = ((i0 + (n0 - j0)) mod n0 * n1 + (i1 + (n1 - j1)) mod n1)%nat.
Proof. intros Hi Hj. unfold sys2, rows. cbn [prod_sys cyc dsb dN]. destruct (flat_div n1 i0 i1 Hi) as [-> ->], (flat_div n1 j0 j1 Hj) as [-> ->]. reflexivity. Qed.
Lemma sb3 n0 n1 n2 i0 i1 i2 j0 j1 j2 : (i1 < n1)%nat -> (j1 < n1)%nat -> (i2 < n2)%nat -> (j2 < n2)%nat ->
  dsb (sys3 n0 n1 n2) ((i0 * n1 + i1) * n2 + i2) ((j0 * n1 + j1) * n2 + j2)
  = (((i0 + (n0 - j0)) mod n0 * n1 + (i1 + (n1 - j1)) mod n1) * n2 + (i2 + (n2 - j2)) mod n2)%nat.
Proof.
  intros Hi Hj Hi' Hj'. unfold sys3, rows. cbn [prod_sys cyc dsb dN].
  destruct (flat_div n2 (i0 * n1 + i1) i2 Hi') as [-> ->], (flat_div n2 (j0 * n1 + j1) j2 Hj') as [-> ->].
  destruct (flat_div n1 i0 i1 Hi) as [-> ->], (flat_div n1 j0 j1 Hj) as [-> ->]. reflexivity.
Qed.
(** sums *)
Lemma sumf2 n0 n1 f : rsum (dN (sys2 n0 n1)) f = rsum n0 (fun a => rsum n1 (fun b => f (a * n1 + b)%nat)).
Proof. apply rsum_flat. Qed.
Lemma sumf3 n0 n1 n2 f : rsum (dN (sys3 n0 n1 n2)) f = rsum n0 (fun a => rsum n1 (fun b => rsum n2 (fun c => f ((a * n1 + b) * n2 + c)%nat))).
Proof. unfold sys3, rows. cbn [prod_sys cyc dN]. rewrite rsum_flat, rsum_flat. reflexivity. Qed.
Lemma dN1 n : dN (sys1 n) = n.
Proof. unfold sys1, rows. cbn [prod_sys cyc dN]. lia. Qed.
Lemma dN2 n0 n1 : dN (sys2 n0 n1) = (n0 * n1)%nat.
Proof. reflexivity. Qed.
Lemma dN3 n0 n1 n2 : dN (sys3 n0 n1 n2) = (n0 * n1 * n2)%nat.
Proof. reflexivity. Qed.

(** the model's transforms *)
Lemma r2c1_g n x : (0 < n)%nat -> Rr2c1 n x = gr2c (cyc 1) n x.
Proof.
  intros Hn. unfold Rr2c1, gr2c. cbn [cyc dN]. rewrite Nat.mul_1_l. apply map_ext_in. intros k Hk. apply in_seq in Hk.
  rewrite Nat.div_small, Nat.mod_small by lia. cbv zeta. rewrite Nat.mul_0_l, Nat.add_0_l.
  assert (Hkn : (k < n)%nat) by (apply half_lt'; lia).
  unfold fre, fim. fold (sys1 n). rewrite dN1. f_equal; [|f_equal]; apply rsum_ext; intros; rewrite th1 by auto; reflexivity.
Qed.
Lemma c2r1_g n X : (0 < n)%nat -> Rc2r1 n X = gc2r (cyc 1) n X.
Proof.
  intros Hn. unfold Rc2r1, gc2r. fold (sys1 n). rewrite dN1. apply map_ext_in. intros j Hj. apply in_seq in Hj. apply rsum_ext. intros k Hk.
  rewrite th1 by lia. unfold gherm, herm1. rewrite (Nat.mod_small k n), (Nat.div_small k n) by auto. cbn [cyc dng]. rewrite Nat.mod_1_r. reflexivity.
Qed.
Lemma r2c2_g n0 n1 x : (0 < n1)%nat -> Rr2c2 n0 n1 x = gr2c (cyc n0) n1 x.
Proof.
  intros Hn. unfold Rr2c2, gr2c. cbn [cyc dN].
  apply (list_prod_map n0 (n1 / 2 + 1)). intros k0 k1 H0 H1. destruct (flat_div (n1 / 2 + 1) k0 k1 H1) as [-> ->]. cbv zeta.
  pose proof (half_lt' n1 Hn k1 H1). unfold fre, fim. fold (sys2 n0 n1). rewrite !sumf2.
  f_equal; [|f_equal]; apply rsum_ext; intros a Ha; apply rsum_ext; intros b Hb; rewrite th2 by auto; reflexivity.
Qed.
Lemma c2r2_g n0 n1 X : (0 < n1)%nat -> Rc2r2 n0 n1 X = gc2r (cyc n0) n1 X.
Proof.
  intros Hn. unfold Rc2r2, gc2r. fold (sys2 n0 n1).
  apply (list_prod_map n0 n1). intros j0 j1 H0 H1. rewrite sumf2.
  apply rsum_ext; intros a Ha; apply rsum_ext; intros b Hb. rewrite th2 by auto. unfold gherm, herm2. cbn [cyc dng].
  destruct (flat_div n1 a b Hb) as [-> ->]. reflexivity.
Qed.

Lemma list_prod3_map {T} n m p (f : nat * (nat * nat) -> T) (g : nat -> T) :
  (forall i j k, (i < n)%nat -> (j < m)%nat -> (k < p)%nat -> f (i, (j, k)) = g ((i * m + j) * p + k)%nat) ->
  map f (list_prod (seq 0 n) (list_prod (seq 0 m) (seq 0 p))) = map g (seq 0 (n * m * p)).
Proof.
  intros H. rewrite <- (list_prod_map (n * m) p (fun '(q, k) => g (q * p + k)%nat) g) by auto.
  assert (E : list_prod (seq 0 n) (seq 0 m) = map (fun q => (q / m, q mod m)%nat) (seq 0 (n * m))).
  { rewrite <- (list_prod_map n m (fun p => p)); [rewrite map_id; reflexivity|]. intros i j Hi Hj. destruct (flat_div m i j Hj) as [-> ->]. reflexivity. }
  transitivity (map (fun '(ij, k) => f (fst ij, (snd ij, k))) (list_prod (list_prod (seq 0 n) (seq 0 m)) (seq 0 p))).
  - clear H E. generalize (seq 0 n) (seq 0 m) (seq 0 p). intros a b c. induction a as [|x a IH]; [reflexivity|].
    cbn [list_prod]. rewrite map_app, IH. rewrite map_map. 
    assert (X : forall (u w : list (nat * nat)), list_prod (u ++ w) c = list_prod u c ++ list_prod w c).
    { intros u w. induction u as [|y u IHu]; [reflexivity|]. cbn [app list_prod]. rewrite IHu. apply app_assoc. }
    rewrite X, map_app. f_equal. clear. induction b as [|y b IH]; [reflexivity|].
    cbn [list_prod map]. rewrite !map_app, IH, !map_map. reflexivity.
  - rewrite E. set (l := seq 0 (n * m)). assert (Hl : forall q, In q l -> (q < n * m)%nat) by (intros q Hq; apply in_seq in Hq; lia).
    clearbody l. induction l as [|q l IH]; [reflexivity|]. cbn [list_prod map]. rewrite !map_app, IH by (intros; apply Hl; right; auto). f_equal.
    rewrite !map_map. apply map_ext_in. intros k Hk. apply in_seq in Hk. cbn [fst snd].
    destruct (div_lt_flat _ _ _ (Hl q (or_introl eq_refl))). rewrite H by lia. f_equal. assert (m <> 0)%nat by lia.
    rewrite (Nat.div_mod q m) at 3 by auto. lia.
Qed.
Lemma r2c3_g n0 n1 n2 x : (0 < n2)%nat -> Rr2c3 n0 n1 n2 x = gr2c (prod_sys (cyc n0) (cyc n1)) n2 x.
Proof.
  intros Hn. unfold Rr2c3, gr2c. cbn [cyc dN prod_sys].
  apply list_prod3_map. intros k0 k1 k2 H0 H1 H2. destruct (flat_div (n2 / 2 + 1) (k0 * n1 + k1) k2 H2) as [-> ->]. cbv zeta.
  pose proof (half_lt' n2 Hn k2 H2). unfold fre, fim. fold (cyc n0). fold (cyc n1). fold (prod_sys (cyc n0) (cyc n1)). fold (sys3 n0 n1 n2). rewrite !sumf3.
  f_equal; [|f_equal]; apply rsum_ext; intros a Ha; apply rsum_ext; intros b Hb; apply rsum_ext; intros c Hc; rewrite th3 by auto; reflexivity.
Qed.
Lemma c2r3_g n0 n1 n2 X : (0 < n2)%nat -> Rc2r3 n0 n1 n2 X = gc2r (prod_sys (cyc n0) (cyc n1)) n2 X.
Proof.
  intros Hn. unfold Rc2r3, gc2r. fold (sys3 n0 n1 n2).
  apply (list_prod3_map n0 n1 n2). intros j0 j1 j2 H0 H1 H2. rewrite sumf3.
  apply rsum_ext; intros a Ha; apply rsum_ext; intros b Hb; apply rsum_ext; intros c Hc. rewrite th3 by auto. unfold gherm, herm3. cbn [prod_sys cyc dng dN].
  destruct (flat_div n2 (a * n1 + b) c Hc) as [-> ->]. destruct (flat_div n1 a b Hb) as [-> ->]. reflexivity.
Qed.
