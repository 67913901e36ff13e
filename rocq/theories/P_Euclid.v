(** Euclidean norms of finite vectors of complex numbers. *)
From Coq Require Import ZArith List Bool Lia Reals Lra Psatz.
From Verif Require Import Base Arith RealArith P_Base P_Bounds P_Dft P_DftList.
Import ListNotations.
Open Scope R_scope.

Definition cip N (f g : nat -> R * R) : R := rsum N (fun k => fst (f k) * fst (g k) + snd (f k) * snd (g k)).
Definition cn N (f : nat -> R * R) : R := sqrt (cip N f f).
Definition cadd (a b : R * R) : R * R := (fst a + fst b, snd a + snd b).
Definition csub (a b : R * R) : R * R := (fst a - fst b, snd a - snd b).
Definition re (f : nat -> R) (k : nat) : R * R := (f k, 0).
Definition rn N (f : nat -> R) : R := cn N (re f).

Lemma sq_nn (x : R) : 0 <= x * x. Proof. apply Rle_0_sqr. Qed.
Lemma cip_nn N f : 0 <= cip N f f.
Proof. apply rsum_nonneg. intros. pose proof (sq_nn (fst (f i))). pose proof (sq_nn (snd (f i))). lra. Qed.
Lemma cn_nn N f : 0 <= cn N f. Proof. apply sqrt_pos. Qed.
Lemma cn_sq N f : cn N f * cn N f = cip N f f. Proof. apply sqrt_sqrt, cip_nn. Qed.
Lemma cip_lin N f g t : cip N (fun k => (fst (f k) + t * fst (g k), snd (f k) + t * snd (g k))) (fun k => (fst (f k) + t * fst (g k), snd (f k) + t * snd (g k)))
  = cip N f f + 2 * t * cip N f g + t * t * cip N g g.
Proof. unfold cip. rewrite <- !rsum_scal, <- !rsum_plus. apply rsum_ext. intros. cbn [fst snd]. ring. Qed.
Lemma cip_cs N f g : cip N f g * cip N f g <= cip N f f * cip N g g.
Proof.
  set (a := cip N f f). set (b := cip N f g). set (c := cip N g g).
  assert (Q : forall t, 0 <= a + 2 * t * b + t * t * c). { intros t. unfold a, b, c. rewrite <- cip_lin. apply cip_nn. }
  assert (C : 0 <= c) by apply cip_nn. assert (A : 0 <= a) by apply cip_nn.
  destruct (Req_EM_T c 0) as [E|E].
  - destruct (Req_EM_T b 0) as [F|F]; [rewrite F; nra|]. exfalso.
    pose proof (Q (- (a + 1) / (2 * b))) as H. rewrite E in H. replace (a + 2 * (- (a + 1) / (2 * b)) * b + _) with (-1) in H by (field; lra). lra.
  - pose proof (Q (- b / c)) as H. replace (a + 2 * (- b / c) * b + - b / c * (- b / c) * c) with ((a * c - b * b) / c) in H by (field; lra).
    apply (Rmult_le_compat_r c) in H; [|exact C]. replace ((a * c - b * b) / c * c) with (a * c - b * b) in H by (field; lra). lra.
Qed.
Lemma cip_le N f g : cip N f g <= cn N f * cn N g.
Proof.
  pose proof (cn_nn N f). pose proof (cn_nn N g).
  destruct (Rle_dec (cip N f g) 0) as [L|L]; [apply Rle_trans with 0; [exact L|nra]|].
  apply Rsqr_incr_0_var; [|nra]. unfold Rsqr. replace (cn N f * cn N g * (cn N f * cn N g)) with (cip N f f * cip N g g) by (rewrite <- !cn_sq; ring). apply cip_cs.
Qed.
Lemma cn_tri N f g : cn N (fun k => cadd (f k) (g k)) <= cn N f + cn N g.
Proof.
  pose proof (cn_nn N f). pose proof (cn_nn N g). apply Rsqr_incr_0_var; [|lra]. unfold Rsqr. rewrite cn_sq.
  replace (cip N (fun k => cadd (f k) (g k)) (fun k => cadd (f k) (g k))) with (cip N f f + 2 * cip N f g + cip N g g).
  2: { unfold cip, cadd. rewrite <- rsum_scal, <- !rsum_plus. apply rsum_ext. intros. cbn [fst snd]. ring. }
  pose proof (cip_le N f g). rewrite <- !cn_sq. nra.
Qed.
Lemma cn_ext N f g : (forall k, (k < N)%nat -> f k = g k) -> cn N f = cn N g.
Proof. intros H. unfold cn, cip. f_equal. apply rsum_ext. intros. rewrite H by auto. reflexivity. Qed.
Lemma cn_mono N f g a : 0 <= a -> (forall k, (k < N)%nat -> Rabs (fst (f k)) <= a * Rabs (fst (g k)) /\ Rabs (snd (f k)) <= a * Rabs (snd (g k))) -> cn N f <= a * cn N g.
Proof.
  intros A H. pose proof (cn_nn N f). pose proof (cn_nn N g). apply Rsqr_incr_0_var; [|nra]. unfold Rsqr.
  replace (a * cn N g * (a * cn N g)) with (a * a * (cn N g * cn N g)) by ring. rewrite !cn_sq. unfold cip. rewrite <- rsum_scal. apply rsum_le. intros k Hk.
  destruct (H k Hk) as [P Q].
  assert (B : forall x y, Rabs x <= a * Rabs y -> x * x <= a * a * (y * y)).
  { intros x y L. pose proof (Rabs_pos x). pose proof (Rabs_pos y).
    replace (x * x) with (Rabs x * Rabs x) by (rewrite <- Rabs_mult; apply Rabs_right; pose proof (sq_nn x); lra).
    replace (y * y) with (Rabs y * Rabs y) by (rewrite <- Rabs_mult; apply Rabs_right; pose proof (sq_nn y); lra).
    replace (a * a * (Rabs y * Rabs y)) with (a * Rabs y * (a * Rabs y)) by ring. apply Rmult_le_compat; auto. }
  pose proof (B _ _ P). pose proof (B _ _ Q). lra.
Qed.
Lemma cn_le N f g : (forall k, (k < N)%nat -> Rabs (fst (f k)) <= Rabs (fst (g k)) /\ Rabs (snd (f k)) <= Rabs (snd (g k))) -> cn N f <= cn N g.
Proof. intros H. rewrite <- (Rmult_1_l (cn N g)). apply cn_mono; [lra|]. intros k Hk. rewrite !Rmult_1_l. apply H; auto. Qed.
Lemma cn_scal N f a : cn N (fun k => (a * fst (f k), a * snd (f k))) = Rabs a * cn N f.
Proof.
  unfold cn. replace (cip N _ _) with (a * a * cip N f f).
  - rewrite sqrt_mult by (try apply sq_nn; apply cip_nn). f_equal. apply sqrt_Rsqr_abs.
  - unfold cip. rewrite <- rsum_scal. apply rsum_ext. intros. cbn [fst snd]. ring.
Qed.
Lemma cn_const N f a : (forall k, (k < N)%nat -> Rabs (fst (f k)) <= a /\ Rabs (snd (f k)) <= a) -> cn N f <= sqrt (2 * INR N) * a.
Proof.
  destruct N as [|M].
  { intros _. unfold cn, cip. cbn [rsum]. cbn [INR]. rewrite Rmult_0_r, sqrt_0. lra. }
  intros H. assert (A : 0 <= a) by (pose proof (proj1 (H 0%nat ltac:(lia))); pose proof (Rabs_pos (fst (f 0%nat))); lra).
  apply Rle_trans with (a * cn (S M) (fun _ => (1, 1))).
  - apply cn_mono; [exact A|]. intros. cbn [fst snd]. rewrite Rabs_R1, Rmult_1_r. apply H; auto.
  - rewrite (Rmult_comm a). apply Rmult_le_compat_r; [exact A|]. unfold cn, cip. rewrite (rsum_ext _ _ (fun _ => 2)) by (intros; cbn [fst snd]; ring). rewrite rsum_const. right. f_equal. ring.
Qed.
Lemma cn_coord N f k : (k < N)%nat -> Rabs (fst (f k)) <= cn N f /\ Rabs (snd (f k)) <= cn N f.
Proof.
  intros H.
  assert (B : fst (f k) * fst (f k) + snd (f k) * snd (f k) <= cip N f f).
  { unfold cip. rewrite <- (rsum_pick N k (fun k => fst (f k) * fst (f k) + snd (f k) * snd (f k)) H). apply rsum_le. intros i Hi.
    destruct (Nat.eqb_spec i k); [lra|]. pose proof (sq_nn (fst (f i))). pose proof (sq_nn (snd (f i))). lra. }
  assert (C : forall x, x * x <= cip N f f -> Rabs x <= cn N f).
  { intros x L. apply Rsqr_incr_0_var; [|apply cn_nn]. unfold Rsqr. rewrite cn_sq, <- Rabs_mult, Rabs_right; [exact L|pose proof (sq_nn x); lra]. }
  pose proof (sq_nn (fst (f k))). pose proof (sq_nn (snd (f k))). split; apply C; lra.
Qed.
Lemma cn_sub_tri N f g h : cn N (fun k => csub (f k) (h k)) <= cn N (fun k => csub (f k) (g k)) + cn N (fun k => csub (g k) (h k)).
Proof.
  rewrite (cn_ext N _ (fun k => cadd (csub (f k) (g k)) (csub (g k) (h k)))); [apply cn_tri|].
  intros. unfold cadd, csub. cbn [fst snd]. f_equal; ring.
Qed.
Lemma cn_near N f g : cn N f <= cn N g + cn N (fun k => csub (f k) (g k)).
Proof.
  rewrite (cn_ext N f (fun k => cadd (g k) (csub (f k) (g k)))); [apply cn_tri|].
  intros. unfold cadd, csub. cbn [fst snd]. destruct (f k). cbn [fst snd]. f_equal; ring.
Qed.
Lemma rn_sq N f : rn N f * rn N f = rsum N (fun j => f j * f j).
Proof. unfold rn. rewrite cn_sq. unfold cip, re. apply rsum_ext. intros. cbn [fst snd]. ring. Qed.
Lemma rn_nn N f : 0 <= rn N f. Proof. apply cn_nn. Qed.
Lemma rn_ext N f g : (forall k, (k < N)%nat -> f k = g k) -> rn N f = rn N g.
Proof. intros H. apply cn_ext. intros. unfold re. rewrite H by auto. reflexivity. Qed.
Lemma rn_tri N f g : rn N (fun k => f k + g k) <= rn N f + rn N g.
Proof. unfold rn. eapply Rle_trans; [|apply cn_tri]. right. apply cn_ext. intros. unfold re, cadd. cbn [fst snd]. f_equal. ring. Qed.
Lemma rn_scal N f a : rn N (fun k => a * f k) = Rabs a * rn N f.
Proof. unfold rn. rewrite <- cn_scal. apply cn_ext. intros. unfold re. cbn [fst snd]. f_equal. ring. Qed.
Lemma rn_mono N f g a : 0 <= a -> (forall k, (k < N)%nat -> Rabs (f k) <= a * Rabs (g k)) -> rn N f <= a * rn N g.
Proof. intros A H. apply cn_mono; [exact A|]. intros. unfold re. cbn [fst snd]. rewrite Rabs_R0, Rmult_0_r. split; [apply H; auto|lra]. Qed.
Lemma rn_const N f a : (forall k, (k < N)%nat -> Rabs (f k) <= a) -> rn N f <= sqrt (INR N) * a.
Proof.
  destruct N as [|M].
  { intros _. unfold rn, cn, cip. cbn [rsum]. cbn [INR]. rewrite sqrt_0. lra. }
  intros H. assert (A : 0 <= a) by (pose proof (H 0%nat ltac:(lia)); pose proof (Rabs_pos (f 0%nat)); lra).
  apply Rle_trans with (a * rn (S M) (fun _ => 1)).
  - apply rn_mono; [exact A|]. intros. rewrite Rabs_R1, Rmult_1_r. apply H; auto.
  - rewrite (Rmult_comm a). apply Rmult_le_compat_r; [exact A|]. unfold rn, cn, cip, re. rewrite (rsum_ext _ _ (fun _ => 1)) by (intros; cbn [fst snd]; ring). rewrite rsum_const. right. f_equal. ring.
Qed.
Lemma rn_coord N f k : (k < N)%nat -> Rabs (f k) <= rn N f.
Proof. intros H. apply (proj1 (cn_coord N (re f) k H)). Qed.
(** errors that are relative up to an absolute part *)
Lemma rn_err N f g a b : 0 <= a -> 0 <= b -> (forall k, (k < N)%nat -> Rabs (f k) <= a * Rabs (g k) + b) -> rn N f <= a * rn N g + sqrt (INR N) * b.
Proof.
  intros A B H. apply Rle_trans with (rn N (fun k => a * Rabs (g k) + b)).
  - rewrite <- (Rmult_1_l (rn N (fun k => a * Rabs (g k) + b))). apply rn_mono; [lra|]. intros k Hk. rewrite Rmult_1_l, (Rabs_right (_ + _)); [apply H; auto|]. pose proof (Rabs_pos (g k)). nra.
  - eapply Rle_trans; [apply rn_tri|]. apply Rplus_le_compat.
    + apply rn_mono; [exact A|]. intros. rewrite Rabs_mult, (Rabs_right a), Rabs_Rabsolu by lra. lra.
    + apply rn_const. intros. rewrite Rabs_right; lra.
Qed.
Lemma cn_err N f g a b : 0 <= a -> 0 <= b ->
  (forall k, (k < N)%nat -> Rabs (fst (f k)) <= a * Rabs (fst (g k)) + b /\ Rabs (snd (f k)) <= a * Rabs (snd (g k)) + b) -> cn N f <= a * cn N g + sqrt (2 * INR N) * b.
Proof.
  intros A B H. apply Rle_trans with (cn N (fun k => cadd (a * Rabs (fst (g k)), a * Rabs (snd (g k))) (b, b))).
  - apply cn_le. intros k Hk. unfold cadd. cbn [fst snd]. pose proof (Rabs_pos (fst (g k))). pose proof (Rabs_pos (snd (g k))).
    rewrite !(Rabs_right (_ + _)) by nra. apply H; auto.
  - eapply Rle_trans; [apply cn_tri|]. apply Rplus_le_compat.
    + apply cn_mono; [exact A|]. intros. cbn [fst snd]. rewrite !Rabs_mult, (Rabs_right a), !Rabs_Rabsolu by lra. lra.
    + apply cn_const. intros. cbn [fst snd]. rewrite Rabs_right; lra.
Qed.
Lemma sqrt_dist a b : 0 <= a -> 0 <= b -> Rabs (sqrt a - sqrt b) <= sqrt (Rabs (a - b)).
Proof.
  intros A B. assert (G : forall a b, 0 <= b -> b <= a -> sqrt a - sqrt b <= sqrt (a - b)).
  { intros p q Q PQ. pose proof (sqrt_pos q). pose proof (sqrt_pos (p - q)). pose proof (sqrt_sqrt q Q). pose proof (sqrt_sqrt (p - q) ltac:(lra)).
    assert (sqrt p <= sqrt q + sqrt (p - q)); [|lra]. apply Rsqr_incr_0_var; [|lra]. unfold Rsqr. rewrite sqrt_sqrt by lra. nra. }
  destruct (Rle_dec b a) as [L|L].
  - rewrite (Rabs_right (a - b)) by lra. pose proof (sqrt_le_1 b a B A L). rewrite Rabs_right by lra. apply G; auto.
  - rewrite (Rabs_left1 (a - b)) by lra. pose proof (sqrt_le_1 a b A B ltac:(lra)). rewrite Rabs_left1 by lra. replace (- (a - b)) with (b - a) by ring. pose proof (G b a A ltac:(lra)). lra.
Qed.
Lemma max0_dist a b : Rabs (Rmax a 0 - Rmax b 0) <= Rabs (a - b).
Proof. unfold Rmax. destruct (Rle_dec a 0), (Rle_dec b 0); unfold Rabs; repeat destruct (Rcase_abs _); lra. Qed.

(** transforms *)
Section T.
Variable S : dsys.
Hypothesis G : good S.
Notation N := (dN S).
Lemma fre_norm x : rn N (fre S x) <= sqrt (INR N) * rn N x /\ rn N (fim S x) <= sqrt (INR N) * rn N x.
Proof.
  pose proof (N_pos S G) as P. pose proof (sqrt_pos (INR N)). pose proof (rn_nn N x). pose proof (parseval S G x) as E. rewrite rsum_plus in E.
  assert (Q : forall f, 0 <= rsum N (fun k => f k * f k)) by (intros; apply rsum_nonneg; intros; apply sq_nn).
  split; (apply Rsqr_incr_0_var; [|nra]); unfold Rsqr; replace (sqrt (INR N) * rn N x * (sqrt (INR N) * rn N x)) with ((sqrt (INR N) * sqrt (INR N)) * (rn N x * rn N x)) by ring;
  rewrite sqrt_sqrt by lra; rewrite !rn_sq, <- E; [pose proof (Q (fim S x))|pose proof (Q (fre S x))]; lra.
Qed.
(** the full spectrum of a real vector *)
Lemma spec_norm x : cn N (fun k => (fre S x k, - fim S x k)) = sqrt (INR N) * rn N x.
Proof.
  pose proof (N_pos S G) as P. unfold cn at 1. unfold cip. rewrite (rsum_ext _ _ (fun k => fre S x k * fre S x k + fim S x k * fim S x k)) by (intros; cbn [fst snd]; ring).
  rewrite (parseval S G), sqrt_mult by (try lra; apply rsum_nonneg; intros; apply sq_nn). f_equal.
  rewrite <- rn_sq. apply sqrt_square, rn_nn.
Qed.
Lemma inv_norm a b : rn N (inv S a b) <= sqrt 2 * (sqrt (INR N) * cn N (fun k => (a k, b k))).
Proof.
  pose proof (N_pos S G) as P. pose proof (sqrt_pos (INR N)) as SP. pose proof (sqrt_pos 2) as S2. pose proof (sqrt_sqrt 2 ltac:(lra)) as E2. pose proof (cn_nn N (fun k => (a k, b k))) as C.
  assert (D : forall j, inv S a b j = fre S a j + fim S b j).
  { intros j. unfold inv, fre, fim. rewrite rsum_plus. f_equal; apply rsum_ext; intros; rewrite (g_sym S G); reflexivity. }
  destruct (fre_norm a) as [FA _]. destruct (fre_norm b) as [_ FB]. pose proof (rn_nn N (fre S a)). pose proof (rn_nn N (fim S b)). pose proof (rn_nn N a). pose proof (rn_nn N b).
  assert (E : rn N (inv S a b) <= rn N (fre S a) + rn N (fim S b)). { rewrite (rn_ext N _ (fun j => fre S a j + fim S b j)) by (intros; apply D). apply rn_tri. }
  assert (K : rn N a * rn N a + rn N b * rn N b = cn N (fun k => (a k, b k)) * cn N (fun k => (a k, b k))).
  { rewrite cn_sq, !rn_sq. unfold cip. rewrite <- rsum_plus. apply rsum_ext. intros. reflexivity. }
  assert (M : rn N a + rn N b <= sqrt 2 * cn N (fun k => (a k, b k))).
  { apply Rsqr_incr_0_var; [|nra]. unfold Rsqr. replace (sqrt 2 * _ * _) with (sqrt 2 * sqrt 2 * (cn N (fun k => (a k, b k)) * cn N (fun k => (a k, b k)))) by ring. rewrite E2, <- K.
    pose proof (sq_nn (rn N a - rn N b)). lra. }
  apply Rle_trans with (sqrt (INR N) * (rn N a + rn N b)); [nra|]. apply Rle_trans with (sqrt (INR N) * (sqrt 2 * cn N (fun k => (a k, b k)))); [|right; ring].
  apply Rmult_le_compat_l; auto.
Qed.
End T.

(** half spectra *)
Section Rows.
Variable T : dsys.
Variable n : nat.
Hypothesis GT : good T.
Hypothesis Hn : (0 < n)%nat.
Notation S := (rows T n).
Notation N := (dN S).
Notation h := (n / 2 + 1)%nat.
Definition qi (k : nat) : nat := if (k mod n <? h)%nat then stored n k else (dng T (k / n) * h + (n - k mod n))%nat.
Lemma qi_lt k : (k < N)%nat -> (qi k < dN T * h)%nat.
Proof.
  intros Hk. unfold qi. destruct (Nat.ltb_spec (k mod n) h) as [L|L]; [apply stored_lt; auto|].
  destruct (div_lt_flat _ _ _ Hk) as [A B]. apply flat_lt; [apply (g_ng T GT); exact A|].
  pose proof (Nat.div_mod n 2 ltac:(lia)). pose proof (Nat.mod_upper_bound n 2 ltac:(lia)). change (dN (cyc n)) with n in B. lia.
Qed.
Definition fn (X : list (R * R)) : R := cn N (gherm T n X).
Definition fd (X Y : list (R * R)) : R := cn N (fun k => csub (gherm T n X k) (gherm T n Y k)).
Lemma gherm_qi X k : gherm T n X k = nth (qi k) X (0, 0) \/ gherm T n X k = (fst (nth (qi k) X (0, 0)), - snd (nth (qi k) X (0, 0))).
Proof. unfold gherm, qi. destruct (_ <? _)%nat; [left; reflexivity|right; reflexivity]. Qed.
Lemma fn_qi X : fn X = cn N (fun k => nth (qi k) X (0, 0)).
Proof.
  unfold fn, cn, cip. f_equal. apply rsum_ext. intros k Hk. destruct (gherm_qi X k) as [->| ->]; [reflexivity|]. cbn [fst snd]. ring.
Qed.
Lemma fd_qi X Y : fd X Y = cn N (fun k => csub (nth (qi k) X (0, 0)) (nth (qi k) Y (0, 0))).
Proof.
  unfold fd, cn, cip. f_equal. apply rsum_ext. intros k Hk. unfold gherm, qi. destruct (_ <? _)%nat; [reflexivity|]. unfold csub, conj. cbn [fst snd]. ring.
Qed.
Lemma gr2c_full x k : (k < N)%nat -> gherm T n (gr2c T n x) k = (fre S (nthR x) k, - fim S (nthR x) k).
Proof.
  intros Hk. apply (gherm_full T n GT Hn (gr2c T n x) (fre S (nthR x)) (fim S (nthR x))); auto.
  - intros. apply gr2c_nth; auto.
  - intros. apply (fre_ng S (rows_good T n GT Hn)); auto.
  - intros. apply (fim_ng S (rows_good T n GT Hn)); auto.
Qed.
Lemma fn_gr2c x : fn (gr2c T n x) = sqrt (INR N) * rn N (nthR x).
Proof. unfold fn. rewrite (cn_ext N _ (fun k => (fre S (nthR x) k, - fim S (nthR x) k))) by (intros; apply gr2c_full; auto). apply spec_norm, rows_good; auto. Qed.
Lemma fd_gr2c x y : fd (gr2c T n x) (gr2c T n y) = sqrt (INR N) * rn N (fun j => nthR x j - nthR y j).
Proof.
  unfold fd. rewrite (cn_ext N _ (fun k => (fre S (fun j => nthR x j - nthR y j) k, - fim S (fun j => nthR x j - nthR y j) k))).
  - apply spec_norm, rows_good; auto.
  - intros k Hk. rewrite !gr2c_full by auto. unfold csub, fre, fim. cbn [fst snd].
    rewrite (rsum_ext _ (fun j => (nthR x j - nthR y j) * cos (dth S k j)) (fun j => nthR x j * cos (dth S k j) - nthR y j * cos (dth S k j))) by (intros; ring).
    rewrite (rsum_ext _ (fun j => (nthR x j - nthR y j) * sin (dth S k j)) (fun j => nthR x j * sin (dth S k j) - nthR y j * sin (dth S k j))) by (intros; ring).
    rewrite !rsum_minus. f_equal. ring.
Qed.
Lemma gc2r_dist X Y : rn N (fun j => nthR (gc2r T n X) j - nthR (gc2r T n Y) j) <= sqrt 2 * (sqrt (INR N) * fd X Y).
Proof.
  set (a := fun k => fst (gherm T n X k) - fst (gherm T n Y k)). set (b := fun k => - (snd (gherm T n X k) - snd (gherm T n Y k))).
  rewrite (rn_ext N _ (inv S a b)).
  - eapply Rle_trans; [apply inv_norm, rows_good; auto|]. right. f_equal. f_equal. unfold fd, cn, cip. f_equal. apply rsum_ext. intros. unfold csub, a, b. cbn [fst snd]. ring.
  - intros j Hj. unfold nthR, gc2r. rewrite !nth_map_seq by auto. rewrite <- rsum_minus. unfold inv. apply rsum_ext. intros k Hk. unfold a, b. ring.
Qed.
Lemma gc2r_norm X : rn N (nthR (gc2r T n X)) <= sqrt 2 * (sqrt (INR N) * fn X).
Proof.
  set (a := fun k => fst (gherm T n X k)). set (b := fun k => - snd (gherm T n X k)).
  rewrite (rn_ext N _ (inv S a b)).
  - eapply Rle_trans; [apply inv_norm, rows_good; auto|]. right. f_equal. f_equal. unfold fn, cn, cip. f_equal. apply rsum_ext. intros. unfold a, b. cbn [fst snd]. ring.
  - intros j Hj. unfold nthR, gc2r. rewrite !nth_map_seq by auto. unfold inv. apply rsum_ext. intros k Hk. unfold a, b. ring.
Qed.
End Rows.
