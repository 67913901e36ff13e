(** Forward and inverse transforms cancel; sums of squares. *)
From Coq Require Import ZArith Bool Lia Reals Lra Psatz List.
From Verif Require Import Base Arith RealArith M_Grid M_FftSize M_Fft S_CovGrid S_Spectrum P_Base P_Grid P_Bounds P_Overrun P_Dft P_DftList P_DftField.
Import ListNotations.
Open Scope R_scope.

Section Gen.
Context {L : Lib}.
Hypothesis HL : fft_sizes L.
Notation num := (num L).
Definition fs (sf : bool) (n : nat) : num := if sf then fwd_scale n else lit L 1 0.
Definition is (sf : bool) (n : nat) : num := if sf then fwd_scale n else (lit L 1 0 / ofZ L (Z.of_nat n))%num.

Lemma AddPadding_len (a b : num) p s : length (AddPadding a b p s) = p.
Proof. unfold AddPadding. destruct (Nat.eqb_spec p 1) as [->|]; [reflexivity|]. rewrite map_length, seq_length. reflexivity. Qed.

(** the forward transform with any padding *)
Lemma fft1_gen (v : list num) sf mp X : v <> [] -> ComputeFFT1D v sf mp = Ok X ->
  exists pads, let n := (length v + length pads)%nat in
    X = map (fun k => nth (fold_index n k) (r2c1 L n (map (fun a => (fs sf n * a)%num) v ++ pads)) czero) (seq 0 n).
Proof.
  intros Hx H. unfold ComputeFFT1D in H. destruct v as [|x0 x]; [congruence|]. clear Hx. cbv zeta in H.
  set (v := x0 :: x) in *. change (length (x0 :: x)) with (length v) in H.
  apply bind_Ok in H as (pad & Hp & H).
  set (n := (length v + Z.to_nat pad)%nat) in H.
  change (if sf then (lit L 1 0 / fsqrt L (lit L 1 0 * ofZ L (Z.of_nat n)))%num else lit L 1 0) with (fs sf n) in H.
  set (pads := AddPadding x0 (last v x0) (Z.to_nat pad) (fs sf n)) in H.
  assert (Hpl : length pads = Z.to_nat pad) by apply AddPadding_len.
  exists pads. cbv zeta. rewrite Hpl. fold n.
  set (y := map (fun a => (fs sf n * a)%num) v ++ pads) in *.
  assert (Hy : length y = n) by (unfold y; rewrite app_length, map_length, Hpl; reflexivity).
  unfold fftw in H. rewrite (proj2 (Nat.leb_le n (length y))) in H by lia. cbn [bind] in H.
  assert (Hc : length (r2c1 L n y) = (n / 2 + 1)%nat) by apply HL.
  assert (Hn : (0 < n)%nat) by (unfold n, v; simpl; lia).
  pose proof (half_bound n Hn).
  rewrite (rd_Ok _ 0 czero) in H by lia. cbn [bind] in H.
  rewrite (mapM_Ok _ (fun i => [(i, nth i (r2c1 L n y) czero); ((n - i)%nat, nth i (r2c1 L n y) czero)])) in H.
  2:{ intros i Hi. apply In_range in Hi. rewrite (rd_Ok _ i czero) by lia. reflexivity. }
  cbn [bind] in H.
  rewrite (writes_fun (fun k => nth (fold_index n k) (r2c1 L n y) czero)) in H; rewrite ?repeat_length in *.
  - injection H as <-. reflexivity.
  - intros i a [E|Hin].
    + injection E as <- <-. split; auto.
    + apply in_concat in Hin as (l & Hl & Hin). apply in_map_iff in Hl as (k & <- & Hk). apply In_range in Hk.
      clearbody y; clearbody n; unfold fold_index. pose proof (Nat.div_mod n 2 ltac:(lia)). pose proof (Nat.mod_upper_bound n 2 ltac:(lia)).
      destruct Hin as [E|[E|[]]]; injection E as <- <-; (split; [lia|]).
      * destruct (Nat.leb_spec k (n / 2)); auto; lia.
      * destruct (Nat.leb_spec (n - k) (n / 2)); f_equal; lia.
  - intros i Hi. destruct (Nat.eq_dec i 0) as [->|Hi0]; [left; reflexivity|]. right.
    rewrite in_map_iff. pose proof (Nat.div_mod n 2 ltac:(lia)). pose proof (Nat.mod_upper_bound n 2 ltac:(lia)).
    destruct (Nat.le_gt_cases i (n / 2)).
    + eexists (i, _). split; [reflexivity|]. apply in_concat. eexists. split; [apply in_map_iff; exists i; split; [reflexivity|apply In_range; lia]|].
      left. reflexivity.
    + eexists (i, _). split; [reflexivity|]. apply in_concat. eexists. split; [apply in_map_iff; exists (n - i)%nat; split; [reflexivity|apply In_range; lia]|].
      right. left. replace (n - (n - i))%nat with i by lia. reflexivity.
Qed.

Lemma fftinv1_gen (X : list (cplx L)) (out : list num) sf n : (0 < n)%nat -> length X = n -> (length out <= n)%nat ->
  ComputeFFTInv1D X out sf = Ok (map (fun i => (nth i (c2r1 L n X) (lit L 0 0) * is sf n)%num) (seq 0 (length out))).
Proof.
  intros Hn HX Ho. unfold ComputeFFTInv1D. destruct X as [|X0 X']; [simpl in HX; lia|].
  set (X := X0 :: X') in *. unfold fftw. rewrite HX.
  pose proof (half_bound n Hn).
  rewrite (proj2 (Nat.leb_le (n / 2 + 1) n)) by lia. cbn [bind].
  assert (Hc : length (c2r1 L n X) = n) by apply HL.
  rewrite (mapM_Ok _ (fun i => (nth i (c2r1 L n X) (lit L 0 0) * is sf n)%num)); [reflexivity|].
  intros i Hi. apply in_seq in Hi. rewrite (rd_Ok _ i (lit L 0 0)) by lia. reflexivity.
Qed.
End Gen.

Lemma nth_firstn_lt {T} (l : list T) : forall m i d, (i < m)%nat -> nth i (firstn m l) d = nth i l d.
Proof. induction l as [|a l IH]; intros [|m] [|i] d H; cbn; try lia; auto. apply IH. lia. Qed.

(** sums of a mirror symmetric function *)
Lemma rsum_perm N (f : nat -> R) (s : nat -> nat) : (forall k, (k < N)%nat -> (s k < N)%nat) -> (forall k, (k < N)%nat -> s (s k) = k) ->
  rsum N (fun k => f (s k)) = rsum N f.
Proof.
  intros Hs Hi.
  rewrite (rsum_ext _ (fun k => f (s k)) (fun k => rsum N (fun j => if (j =? s k)%nat then f j else 0))) by (intros; rewrite rsum_pick; auto).
  rewrite rsum_swap. apply rsum_ext. intros j Hj.
  rewrite (rsum_ext _ _ (fun k => if (k =? s j)%nat then f j else 0)).
  - apply (rsum_pick N (s j) (fun _ => f j)). auto.
  - intros k Hk. destruct (Nat.eqb_spec j (s k)) as [F|Hn]; destruct (Nat.eqb_spec k (s j)) as [E|E]; auto.
    + exfalso. apply E. rewrite F. symmetry. auto.
    + exfalso. apply Hn. rewrite E. symmetry. auto.
Qed.
Lemma rsum_rev m (f : nat -> R) : rsum m (fun i => f (m - 1 - i)%nat) = rsum m f.
Proof. apply rsum_perm; intros; lia. Qed.

Lemma half_cases n : (0 < n)%nat -> exists m, (n = 2 * m + 1 /\ n / 2 = m)%nat \/ (n = 2 * m /\ n / 2 = m /\ 0 < m)%nat.
Proof.
  intros Hn. exists (n / 2)%nat. pose proof (Nat.div_mod n 2 ltac:(lia)). pose proof (Nat.mod_upper_bound n 2 ltac:(lia)). lia.
Qed.
Lemma fold_sum n (G : nat -> R) : (0 < n)%nat -> (forall k, (0 < k < n)%nat -> G (n - k)%nat = G k) ->
  rsum n G = rsum (n / 2 + 1) (fun k => columns n k * G k).
Proof.
  intros Hn HG. destruct (half_cases n Hn) as (m & [[E ->] | (E & -> & Hm)]).
  - replace (m + 1)%nat with (1 + m)%nat by lia. rewrite E at 1. replace (2 * m + 1)%nat with (1 + m + m)%nat by lia. rewrite !rsum_app. cbn [rsum].
    rewrite (rsum_ext m (fun i => G (1 + m + i)%nat) (fun i => G (1 + (m - 1 - i))%nat)).
    2:{ intros i Hi. rewrite <- HG by lia. f_equal. lia. }
    rewrite (rsum_rev m (fun i => G (1 + i)%nat)). rewrite (rsum_ext m (fun i => columns n (1 + i) * _) (fun i => 2 * G (1 + i)%nat)).
    2:{ intros i Hi. unfold columns. destruct (Nat.eqb_spec (1 + i) 0); [lia|]. destruct (Nat.eqb_spec (2 * (1 + i)) n); [lia|]. reflexivity. }
    rewrite rsum_scal. unfold columns. cbn. lra.
  - destruct m as [|m]; [lia|]. replace (S m + 1)%nat with (1 + m + 1)%nat by lia. rewrite E at 1. replace (2 * S m)%nat with (1 + m + 1 + m)%nat by lia. rewrite !rsum_app. cbn [rsum].
    rewrite (rsum_ext m (fun i => G (1 + m + 1 + i)%nat) (fun i => G (1 + (m - 1 - i))%nat)).
    2:{ intros i Hi. rewrite <- HG by lia. f_equal. lia. }
    rewrite (rsum_rev m (fun i => G (1 + i)%nat)). rewrite (rsum_ext m (fun i => columns n (1 + i) * _) (fun i => 2 * G (1 + i)%nat)).
    2:{ intros i Hi. unfold columns. destruct (Nat.eqb_spec (1 + i) 0); [lia|]. destruct (Nat.eqb_spec (2 * (1 + i)) n); [lia|]. reflexivity. }
    rewrite rsum_scal. 
    assert (C0 : columns n 0 = 1) by reflexivity.
    assert (C1 : columns n (1 + m + 0) = 1).
    { unfold columns. rewrite (proj2 (Nat.eqb_eq (2 * (1 + m + 0)) n)) by lia. rewrite orb_true_r. reflexivity. }
    rewrite C0, C1. lra.
Qed.

(** Parseval over a stored half spectrum *)
Lemma energy T n (y : list R) : good T -> (0 < n)%nat ->
  rsum (dN T) (fun r => rsum (n / 2 + 1) (fun k => columns n k * norm2 (nth (r * (n / 2 + 1) + k) (gr2c T n y) (0, 0))))
  = INR (dN T * n) * rsum (dN T * n) (fun j => nthR y j * nthR y j).
Proof.
  intros GT Hn. pose proof (rows_good T n GT Hn) as G. pose proof (parseval (rows T n) G (nthR y)) as P.
  change (dN (rows T n)) with (dN T * n)%nat in P. rewrite <- P. clear P.
  set (g := fun k => fre (rows T n) (nthR y) k * fre (rows T n) (nthR y) k + fim (rows T n) (nthR y) k * fim (rows T n) (nthR y) k).
  change (rsum (dN T) (fun r => rsum (n / 2 + 1) (fun k => columns n k * norm2 (nth (r * (n / 2 + 1) + k) (gr2c T n y) (0, 0)))) = rsum (dN T * n) g).
  rewrite rsum_flat, (rsum_swap (dN T) n), rsum_swap.
  rewrite (fold_sum n (fun k => rsum (dN T) (fun r => g (r * n + k)%nat))); auto.
  - apply rsum_ext. intros k Hk. rewrite rsum_scal. f_equal. apply rsum_ext. intros r Hr.
    pose proof (half_lt' n Hn k Hk) as Hkn. destruct (flat_div n r k Hkn) as [E1 E2].
    pose proof (gr2c_nth T n Hn y (r * n + k)%nat) as Q. unfold stored in Q. rewrite E1, E2 in Q. rewrite Q; auto.
    + unfold norm2, g. cbn [fst snd]. ring.
    + change (dN (rows T n)) with (dN T * n)%nat; apply flat_lt; auto.
  - intros k Hk. rewrite <- (rsum_perm (dN T) (fun r => g (r * n + k)%nat) (dng T)) by apply GT.
    apply rsum_ext. intros r Hr.
    assert (Hf : (r * n + (n - k) < dN (rows T n))%nat) by (change (dN (rows T n)) with (dN T * n)%nat; apply flat_lt; auto; lia).
    assert (E : dng (rows T n) (r * n + (n - k)) = (dng T r * n + k)%nat).
    { cbn [rows prod_sys dng cyc dN]. destruct (flat_div n r (n - k) ltac:(lia)) as [-> ->]. replace (n - (n - k))%nat with k by lia. rewrite Nat.mod_small by lia. reflexivity. }
    unfold g. rewrite <- E, (fre_ng _ G), (fim_ng _ G) by auto. ring.
Qed.

Section R.
Variables (o : Z -> outcome Z) (cl : Z -> Z -> Z).
Notation L := (Rlib o cl).

Lemma fs_R sf n : (0 < n)%nat -> @fs L sf n = if sf then / sqrt (INR n) else 1.
Proof. intros. unfold fs. destruct sf; [apply scale_R; auto|cbn; lra]. Qed.
Lemma is_R sf n : (0 < n)%nat -> @is L sf n = if sf then / sqrt (INR n) else / INR n.
Proof. intros. unfold is. destruct sf; [apply scale_R; auto|]. cbn. rewrite <- INR_IZR_INZ. pose proof (lt_0_INR n H). field. lra. Qed.
Lemma fs_is sf n : (0 < n)%nat -> (INR n * (@fs L sf n) * @is L sf n)%R = 1.
Proof.
  intros Hn. rewrite fs_R, is_R by auto. destruct sf.
  - rewrite <- (scale_sq n Hn). ring.
  - field. pose proof (lt_0_INR n Hn). lra.
Qed.

(** the vector returned by the 1D transform, folded *)
Lemma vec1_nth n (y : list R) X k : (0 < n)%nat -> X = map (fun k => nth (fold_index n k) (r2c1 L n y) (@czero L)) (seq 0 n) ->
  (k < n)%nat -> (k < n / 2 + 1)%nat -> nth k X (0, 0) = nth k (gr2c (cyc 1) n y) (0, 0).
Proof.
  intros Hn -> Hk Hh. rewrite nth_map_seq by auto. unfold fold_index. rewrite (proj2 (Nat.leb_le k (n / 2))) by lia.
  change (r2c1 L n y) with (Rr2c1 n y). rewrite r2c1_g by auto. apply nth_indep. unfold gr2c. rewrite map_length, seq_length. cbn [cyc dN]. lia.
Qed.
Lemma stored1 n k : (k < n)%nat -> stored n k = k.
Proof. intros. unfold stored. rewrite Nat.div_small, Nat.mod_small by auto. lia. Qed.

Lemma round_aux (a b n f s x t : R) : a = b -> b = n * (f * x) -> t = x -> n * f * s = 1 -> a * s = t.
Proof. intros -> -> -> H. transitivity (n * f * s * x); [ring|rewrite H; ring]. Qed.
Lemma round1 (x out : list R) sf mp X : @ComputeFFT1D L x sf mp = Ok X -> (length out <= length x)%nat ->
  @ComputeFFTInv1D L X out sf = Ok (firstn (length out) x).
Proof.
  intros H Ho. destruct x as [|x0 x'].
  { cbn in H. injection H as <-. destruct out; [reflexivity|cbn in Ho; lia]. }
  set (x := x0 :: x') in *.
  destruct (@fft1_gen L (Rlib_sizes o cl) x sf mp X ltac:(discriminate) H) as (pads & E). cbv zeta in E.
  set (n := (length x + length pads)%nat) in *.
  assert (Hn : (0 < n)%nat) by (unfold n, x; simpl; lia).
  assert (HX : length X = n) by (rewrite E, map_length, seq_length; reflexivity).
  assert (Hx : (length x <= n)%nat) by (unfold n; lia).
  rewrite (@fftinv1_gen L (Rlib_sizes o cl) X out sf n Hn HX (Nat.le_trans _ _ _ Ho Hx)). f_equal.
  set (y := map (fun a => (@fs L sf n * a)%num) x ++ pads) in *.
  assert (Hyn : forall i, (i < length x)%nat -> nthR y i = @fs L sf n * nth i x 0).
  { intros i Hi. unfold nthR, y. refine (eq_trans (app_nth1 _ _ _ _) _); [rewrite map_length; exact Hi|].
    apply (nth_map' (fun a : R => @mul L (@fs L sf n) a) x i 0 0 Hi). }
  assert (E' : X = map (fun k => nth (fold_index n k) (r2c1 L n y) (@czero L)) (seq 0 n)) by exact E. clear E.
  clearbody n y. apply (nth_ext' _ _ 0).
  { rewrite map_length, seq_length, firstn_length. rewrite Nat.min_l by exact Ho. reflexivity. }
  intros i Hi. rewrite map_length, seq_length in Hi. rewrite nth_map_seq by auto.
  assert (Hix : (i < length x)%nat) by exact (Nat.lt_le_trans _ _ _ Hi Ho).
  assert (Hin : (i < n)%nat) by exact (Nat.lt_le_trans _ _ _ Hix Hx).
  change (c2r1 L n X) with (Rc2r1 n X). rewrite c2r1_g by auto.
  assert (Q : nth i (gc2r (cyc 1) n X) 0 = INR n * nthR y i).
  { pose proof (sys1_good n Hn) as G. pose proof (cyc_good 1 ltac:(lia)) as G1.
    rewrite (gc2r_nth (cyc 1) n G1 Hn X (fre (sys1 n) (nthR y)) (fim (sys1 n) (nthR y))).
    - pose proof (inv_f (sys1 n) G (nthR y) i) as W. rewrite dN1 in W. apply W. lia.
    - fold (sys1 n). rewrite dN1. lia.
    - fold (sys1 n). rewrite dN1. intros k Hk Hm. rewrite <- (gr2c_nth (cyc 1) n) by (auto; fold (sys1 n); rewrite dN1; lia).
      rewrite stored1 by auto. rewrite Nat.mod_small in Hm by auto. apply vec1_nth; auto.
    - intros. apply (fre_ng (sys1 n) G). auto.
    - intros. apply (fim_ng (sys1 n) G). auto. }
  assert (Z0 : nth i (gc2r (cyc 1) n X) (lit L 0 0) = nth i (gc2r (cyc 1) n X) 0).
  { apply nth_indep. unfold gc2r. rewrite map_length, seq_length. fold (sys1 n). rewrite dN1. lia. }
  assert (F : nth i (firstn (length out) x) 0 = nth i x 0) by (apply nth_firstn_lt; exact Hi).
  pose proof (fs_is sf n Hn) as W. rewrite (Hyn i Hix) in Q. exact (round_aux _ _ _ _ _ _ _ Z0 Q F W).
Qed.

(** 2D and 3D: sizes, scaling, round trip *)
Lemma map_scale_nth (x : list R) (c : R) i : nthR (map (fun a => a * c) x) i = c * nthR x i.
Proof.
  unfold nthR. destruct (Nat.lt_ge_cases i (length x)).
  - rewrite (nth_map' _ _ i 0 0) by auto. ring.
  - rewrite !nth_overflow by (rewrite ?map_length; auto). ring.
Qed.
Lemma fwd2 ni nj sf (x : list R) : (0 < ni)%nat -> length x = (ni * nj)%nat ->
  exists y : list R, length y = (ni * nj)%nat /\ (forall i, nthR y i = @fs L sf (ni * nj) * nthR x i) /\ @DoFFT2 L ni nj sf x = Ok (gr2c (cyc nj) ni y).
Proof.
  intros Hi Hx. exists (if sf then map (fun a => a * @fwd_scale L (ni * nj)) x else x). split; [destruct sf; rewrite ?map_length; auto|]. split.
  - intros i. unfold fs. destruct sf; [apply map_scale_nth|]. cbn. field.
  - unfold DoFFT2. rewrite <- r2c2_g by auto. unfold fftw.
    assert (E : forall y : list R, length y = (ni * nj)%nat -> (if (nj * ni <=? length y)%nat then Ok (r2c2 L nj ni y) else UB OutOfBounds) = Ok (Rr2c2 nj ni y)).
    { intros y Hy. rewrite (proj2 (Nat.leb_le _ _)) by lia. reflexivity. }
    destruct sf; apply E; rewrite ?map_length; auto.
Qed.
Lemma fwd3 ni nj nk sf (x : list R) : (0 < ni)%nat -> length x = (ni * nj * nk)%nat ->
  exists y : list R, length y = (ni * nj * nk)%nat /\ (forall i, nthR y i = @fs L sf (ni * nj * nk) * nthR x i) /\
    @DoFFT3 L ni nj nk sf x = Ok (gr2c (prod_sys (cyc nk) (cyc nj)) ni y).
Proof.
  intros Hi Hx. exists (if sf then map (fun a => a * @fwd_scale L (ni * nj * nk)) x else x). split; [destruct sf; rewrite ?map_length; auto|]. split.
  - intros i. unfold fs. destruct sf; [apply map_scale_nth|]. cbn. field.
  - unfold DoFFT3. rewrite <- r2c3_g by auto. unfold fftw.
    assert (E : forall y : list R, length y = (ni * nj * nk)%nat -> (if (nk * nj * ni <=? length y)%nat then Ok (r2c3 L nk nj ni y) else UB OutOfBounds) = Ok (Rr2c3 nk nj ni y)).
    { intros y Hy. rewrite (proj2 (Nat.leb_le _ _)) by lia. reflexivity. }
    destruct sf; apply E; rewrite ?map_length; auto.
Qed.
Lemma inv2 ni nj sf (X : list (R * R)) : length X = (nj * (ni / 2 + 1))%nat -> @DoInverseFFT2 L ni nj sf X = Ok (map (fun a => a * @is L sf (ni * nj)) (Rc2r2 nj ni X)).
Proof.
  intros H. unfold DoInverseFFT2, fftw. 
  assert (B : (nj * (ni / 2 + 1) <=? @length (cplx L) X)%nat = true) by (apply Nat.leb_le; exact (Nat.eq_le_incl _ _ (eq_sym H))).
  rewrite B. reflexivity.
Qed.
Lemma inv3 ni nj nk sf (X : list (R * R)) : length X = (nk * nj * (ni / 2 + 1))%nat -> @DoInverseFFT3 L ni nj nk sf X = Ok (map (fun a => a * @is L sf (ni * nj * nk)) (Rc2r3 nk nj ni X)).
Proof.
  intros H. unfold DoInverseFFT3, fftw. 
  assert (B : (nk * nj * (ni / 2 + 1) <=? @length (cplx L) X)%nat = true) by (apply Nat.leb_le; exact (Nat.eq_le_incl _ _ (eq_sym H))).
  rewrite B. reflexivity.
Qed.
Lemma round2 ni nj sf (x : list R) : (0 < ni)%nat -> (0 < nj)%nat -> length x = (ni * nj)%nat ->
  exists X, @DoFFT2 L ni nj sf x = Ok X /\ @DoInverseFFT2 L ni nj sf X = Ok x.
Proof.
  intros Hi Hj Hx. destruct (fwd2 ni nj sf x Hi Hx) as (y & Hy & HN & E). exists (gr2c (cyc nj) ni y). split; auto.
  set (X := gr2c (cyc nj) ni y). assert (HX : length X = (nj * (ni / 2 + 1))%nat) by (unfold X, gr2c; rewrite map_length, seq_length; reflexivity).
  rewrite inv2 by exact HX. f_equal. rewrite c2r2_g by auto.
  assert (HG : length (gc2r (cyc nj) ni X) = (ni * nj)%nat) by (unfold gc2r; rewrite map_length, seq_length; fold (sys2 nj ni); rewrite dN2; lia).
  apply (nth_ext' _ _ 0); [rewrite map_length; etransitivity; [exact HG|auto]|].
  intros i Hil. rewrite map_length in Hil. etransitivity; [apply (nth_map' _ _ i 0 0); exact Hil|].
  assert (Hil' : (i < ni * nj)%nat) by (rewrite <- HG; exact Hil).
  unfold X. rewrite round_nth by (auto using cyc_good; fold (sys2 nj ni); rewrite dN2; lia).
  fold (sys2 nj ni). rewrite dN2, (Nat.mul_comm nj ni), HN. 
  pose proof (fs_is sf (ni * nj) ltac:(nia)) as W. exact (round_aux _ _ _ _ _ _ _ eq_refl eq_refl eq_refl W).
Qed.
Lemma round3 ni nj nk sf (x : list R) : (0 < ni)%nat -> (0 < nj)%nat -> (0 < nk)%nat -> length x = (ni * nj * nk)%nat ->
  exists X, @DoFFT3 L ni nj nk sf x = Ok X /\ @DoInverseFFT3 L ni nj nk sf X = Ok x.
Proof.
  intros Hi Hj Hk Hx. destruct (fwd3 ni nj nk sf x Hi Hx) as (y & Hy & HN & E). set (X := gr2c (prod_sys (cyc nk) (cyc nj)) ni y). exists X. split; auto.
  assert (HX : length X = (nk * nj * (ni / 2 + 1))%nat) by (unfold X, gr2c; rewrite map_length, seq_length; reflexivity).
  rewrite inv3 by exact HX. f_equal. rewrite c2r3_g by auto.
  assert (HG : length (gc2r (prod_sys (cyc nk) (cyc nj)) ni X) = (ni * nj * nk)%nat) by (unfold gc2r; rewrite map_length, seq_length; fold (sys3 nk nj ni); rewrite dN3; lia).
  apply (nth_ext' _ _ 0); [rewrite map_length; etransitivity; [exact HG|auto]|].
  intros i Hil. rewrite map_length in Hil. etransitivity; [apply (nth_map' _ _ i 0 0); exact Hil|].
  assert (Hil' : (i < ni * nj * nk)%nat) by (rewrite <- HG; exact Hil).
  unfold X. rewrite round_nth by (auto using cyc_good, prod_good; fold (sys3 nk nj ni); rewrite dN3; lia).
  fold (sys3 nk nj ni). rewrite dN3. replace (nk * nj * ni)%nat with (ni * nj * nk)%nat by lia. rewrite HN. 
  pose proof (fs_is sf (ni * nj * nk) ltac:(apply Nat.mul_pos_pos; nia)) as W. exact (round_aux _ _ _ _ _ _ _ eq_refl eq_refl eq_refl W).
Qed.

Lemma energy_aux (f s x : R) {n} : f = s -> s * s * INR n = 1 -> INR n * ((f * x) * (f * x)) = x * x.
Proof. intros -> H. transitivity (s * s * INR n * (x * x)); [ring|rewrite H; ring]. Qed.
Lemma energy2 ni nj (x : list R) X : (0 < ni)%nat -> (0 < nj)%nat -> length x = (ni * nj)%nat -> @DoFFT2 L ni nj true x = Ok X ->
  rsum nj (fun r => rsum (ni / 2 + 1) (fun k => columns ni k * norm2 (nth (r * (ni / 2 + 1) + k) X (0, 0)))) = sumsq x.
Proof.
  intros Hi Hj Hx H. destruct (fwd2 ni nj true x Hi Hx) as (y & Hy & HN & E).
  assert (EX : X = gr2c (cyc nj) ni y) by (rewrite E in H; injection H as <-; reflexivity). clear E H. subst X.
  pose proof (energy (cyc nj) ni y (cyc_good nj Hj) Hi) as P. cbn [dN cyc] in P. fold (cyc nj) in P. 
  refine (eq_trans P _). clear P. unfold sumsq. rewrite Hx, (Nat.mul_comm nj ni), <- rsum_scal. apply rsum_ext. intros i Hil. rewrite HN.
  assert (Hp : (0 < ni * nj)%nat) by nia. exact (energy_aux _ _ _ (fs_R true _ Hp) (scale_sq _ Hp) ).
Qed.
Lemma energy3 ni nj nk (x : list R) X : (0 < ni)%nat -> (0 < nj)%nat -> (0 < nk)%nat -> length x = (ni * nj * nk)%nat -> @DoFFT3 L ni nj nk true x = Ok X ->
  rsum (nk * nj) (fun r => rsum (ni / 2 + 1) (fun k => columns ni k * norm2 (nth (r * (ni / 2 + 1) + k) X (0, 0)))) = sumsq x.
Proof.
  intros Hi Hj Hk Hx H. destruct (fwd3 ni nj nk true x Hi Hx) as (y & Hy & HN & E).
  assert (EX : X = gr2c (prod_sys (cyc nk) (cyc nj)) ni y) by (rewrite E in H; injection H as <-; reflexivity). clear E H. subst X.
  pose proof (energy (prod_sys (cyc nk) (cyc nj)) ni y (prod_good _ _ (cyc_good nk Hk) (cyc_good nj Hj)) Hi) as P. change (dN (prod_sys (cyc nk) (cyc nj))) with (nk * nj)%nat in P.
  refine (eq_trans P _). clear P. unfold sumsq. rewrite Hx. replace (nk * nj * ni)%nat with (ni * nj * nk)%nat by lia. rewrite <- rsum_scal. apply rsum_ext. intros i Hil. rewrite HN.
  assert (Hp : (0 < ni * nj * nk)%nat) by (apply Nat.mul_pos_pos; nia). exact (energy_aux _ _ _ (fs_R true _ Hp) (scale_sq _ Hp) ).
Qed.
Lemma Ok_inj' {T} (a b : T) : Ok a = Ok b -> a = b.
Proof. intros H. injection H as H. exact H. Qed.
(** in 1D all n values are returned *)
Lemma energy1 (x : list R) X : @ComputeFFT1D L x true 0 = Ok X -> rsum (length X) (fun k => norm2 (nth k X (0, 0))) = sumsq x.
Proof.
  intros H. destruct x as [|x0 x']; [cbn in H; injection H as <-; reflexivity|]. set (x := x0 :: x') in *.
  rewrite (@fft1_ok L (Rlib_sizes o cl)) in H by discriminate. cbv zeta in H. set (n := length x) in *.
  assert (Hn : (0 < n)%nat) by (unfold n, x; cbn; lia).
  set (y := map (fun a : R => / sqrt (INR n) * a) x).
  assert (EX : X = map (fun k => nth (fold_index n k) (gr2c (cyc 1) n y) (0, 0)) (seq 0 n)).
  { apply Ok_inj' in H. rewrite <- H. apply map_ext_in. intros k Hk. apply in_seq in Hk.
    assert (Ey : map (fun a : num L => (@fwd_scale L (length x) * a)%num) x = y).
    { unfold y. apply map_ext. intros a. pose proof (scale_R o cl n Hn) as W. exact (f_equal (fun t => t * a) W). }
    refine (eq_trans (f_equal (fun z => nth (fold_index n k) (Rr2c1 n z) (@czero L)) Ey) _). rewrite r2c1_g by auto. apply nth_indep. unfold gr2c. rewrite map_length, seq_length. cbn [cyc dN].
    clearbody y n. unfold fold_index. pose proof (Nat.div_mod n 2 ltac:(lia)). pose proof (Nat.mod_upper_bound n 2 ltac:(lia)).
    destruct (Nat.leb_spec k (n / 2)); lia. }
  clear H. subst X. rewrite map_length, seq_length.
  pose proof (energy (cyc 1) n y (cyc_good 1 ltac:(lia)) Hn) as P. cbn [dN cyc rsum] in P. fold (cyc 1) in P. rewrite Nat.mul_1_l, Rplus_0_l in P.
  rewrite fold_sum; auto.
  - refine (eq_trans _ (eq_trans P _)).
    + apply rsum_ext. intros k Hk. pose proof (half_lt' n Hn k Hk). rewrite nth_map_seq by auto. unfold fold_index.
      rewrite (proj2 (Nat.leb_le k (n / 2))) by lia. reflexivity.
    + unfold sumsq. fold n. rewrite <- rsum_scal. apply rsum_ext. intros i Hi. unfold y, nthR. rewrite (nth_map' _ _ i 0 0) by exact Hi.
      exact (energy_aux _ _ _ eq_refl (scale_sq n Hn)).
  - intros k Hk. rewrite !nth_map_seq by lia. unfold fold_index. clearbody y n. pose proof (Nat.div_mod n 2 ltac:(lia)). pose proof (Nat.mod_upper_bound n 2 ltac:(lia)).
    destruct (Nat.leb_spec (n - k) (n / 2)); destruct (Nat.leb_spec k (n / 2)); f_equal; f_equal; lia.
Qed.
End R.
