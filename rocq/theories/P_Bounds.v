(** Closed forms of the covariance tables, transforms and fields: no array access fails when the result is no larger than the
    padded grid. *)
From Coq Require Import ZArith List Bool Lia.
From Verif Require Import Base Arith M_Variogram M_Grid M_CovGrid M_Fft M_Field S_CovGrid P_Base P_Grid.
Import ListNotations.
Open Scope nat_scope.

Lemma half_lo n i : i < (n + 1) / 2 <-> 2 * i < n.
Proof.
  pose proof (Nat.div_mod (n + 1) 2 ltac:(lia)). pose proof (Nat.mod_upper_bound (n + 1) 2 ltac:(lia)). lia.
Qed.
Lemma half_le n : (n + 1) / 2 <= n.
Proof. pose proof (Nat.div_mod (n + 1) 2 ltac:(lia)). pose proof (Nat.mod_upper_bound (n + 1) 2 ltac:(lia)). lia. Qed.

Section Cov.
Context {A : Arith}.
Notation num := (num A).

Lemma lag_lo_eq n i (d : num) : i < (n + 1) / 2 -> lag_lo i d = lag n i d.
Proof. intros H. apply half_lo in H. unfold lag, wrapped, lag_lo. destruct (Nat.ltb_spec (2 * i) n); auto; lia. Qed.
Lemma lag_hi_eq n i (d : num) : (n + 1) / 2 <= i -> lag_hi n i d = lag n i d.
Proof.
  intros H. unfold lag, wrapped, lag_hi. destruct (Nat.ltb_spec (2 * i) n) as [E|]; auto. apply half_lo in E. lia.
Qed.

Lemma cov1_ok (v : variogram A) nx dx sx :
  FFTCovGrid1D v nx dx sx = Ok (map (cov1_spec v nx dx sx) (seq 0 nx)).
Proof.
  unfold FFTCovGrid1D. destruct (FindSmoothingFactors v sx (lit A 1 0) (lit A 1 0)) as [[bx b1] b2] eqn:EB.
  pose proof (half_le nx) as Hh.
  rewrite (writes_fun (cov1_spec v nx dx sx)); rewrite repeat_length; auto.
  - intros i a. rewrite in_app_iff, !in_map_iff. unfold cov1_spec. rewrite EB.
    intros [(x & E & Hx)|(x & E & Hx)]; apply In_range in Hx; injection E as <- <-; split; try lia;
      unfold apply_smoothing, smoothing, kernel, lag1, GetCov1.
    + destruct Hx as [_ Hx]. apply half_lo in Hx. apply Nat.ltb_lt in Hx. rewrite Hx. reflexivity.
    + assert (Hx' : 2 * x <? nx = false) by (apply Nat.ltb_ge; destruct (Nat.le_gt_cases nx (2 * x)) as [|E]; auto; apply half_lo in E; lia).
      rewrite Hx'. reflexivity.
  - intros i Hi. rewrite map_app, !map_map. simpl. rewrite !map_id, in_app_iff, !In_range. lia.
Qed.

Lemma cov2_ok (v : variogram A) nx dx ny dy sx sy :
  FFTCovGrid2D v nx dx ny dy sx sy =
  Ok (map (fun x => let '(i, j) := GetIJ nx ny x in cov2_spec v nx dx ny dy sx sy i j) (seq 0 (nx * ny))).
Proof.
  unfold FFTCovGrid2D. destruct (FindSmoothingFactors v sx sy (lit A 1 0)) as [[bx b1] b2] eqn:EB.
  pose proof (half_le nx) as Hhx. pose proof (half_le ny) as Hhy.
  set (F := fun x => let '(i, j) := GetIJ nx ny x in cov2_spec v nx dx ny dy sx sy i j).
  assert (HF : forall i j, i < nx -> j < ny -> F (GetIndex2 nx i j) = cov2_spec v nx dx ny dy sx sy i j).
  { intros. unfold F. rewrite GetIJ_GetIndex by auto. reflexivity. }
  rewrite (writes_fun F); rewrite repeat_length; auto.
  - intros i a Hin. rewrite in_app_iff, !in_flat_map in Hin.
    destruct Hin as [(j & Hj & Hin)|(j & Hj & Hin)]; apply In_range in Hj; rewrite in_app_iff, !in_map_iff in Hin;
      destruct Hin as [(i' & E & Hi)|(i' & E & Hi)]; apply In_range in Hi; injection E as <- <-;
      (split; [apply GetIndex2_lt; lia|]); rewrite HF by lia; unfold cov2_spec; rewrite EB;
      unfold apply_smoothing, smoothing, kernel, GetCov2;
      rewrite ?(lag_lo_eq nx i') by lia; rewrite ?(lag_hi_eq nx i') by lia;
      rewrite ?(lag_lo_eq ny j) by lia; rewrite ?(lag_hi_eq ny j) by lia; reflexivity.
  - intros x Hx. pose proof (GetIndex_GetIJ nx ny x Hx) as Hij. destruct (GetIJ nx ny x) as [i j].
    destruct Hij as (Hi & Hj & <-).
    rewrite in_map_iff.
    destruct (Nat.lt_ge_cases i ((nx + 1) / 2)), (Nat.lt_ge_cases j ((ny + 1) / 2));
      eexists (GetIndex2 nx i j, _); (split; [reflexivity|]); rewrite in_app_iff, !in_flat_map;
      [left|right|left|right]; exists j; rewrite In_range, in_app_iff, !in_map_iff; (split; [lia|]);
      [left|right|right|left]; exists i; rewrite In_range; (split; [reflexivity|lia]).
Qed.

Lemma cov3_ok (v : variogram A) nx dx ny dy nz dz sx sy sz :
  FFTCovGrid3D v nx dx ny dy nz dz sx sy sz =
  Ok (map (fun x => let '(i, j, k) := GetIJK nx ny x in cov3_spec v nx dx ny dy nz dz sx sy sz i j k) (seq 0 (nx * ny * nz))).
Proof.
  unfold FFTCovGrid3D. destruct (FindSmoothingFactors v sx sy sz) as [[bx b1] b2] eqn:EB.
  pose proof (half_le nx) as Hhx. pose proof (half_le ny) as Hhy. pose proof (half_le nz) as Hhz.
  set (F := fun x => let '(i, j, k) := GetIJK nx ny x in cov3_spec v nx dx ny dy nz dz sx sy sz i j k).
  assert (HF : forall i j k, i < nx -> j < ny -> F (GetIndex3 nx ny i j k) = cov3_spec v nx dx ny dy nz dz sx sy sz i j k).
  { intros. unfold F. rewrite GetIJK_GetIndex by auto. reflexivity. }
  rewrite (writes_fun F); rewrite repeat_length; auto.
  - intros i a Hin. rewrite !in_app_iff, !in_flat_map in Hin.
    destruct Hin as [(k & Hk & Hin)|[(k & Hk & Hin)|[(k & Hk & Hin)|(k & Hk & Hin)]]]; apply In_range in Hk;
      rewrite in_flat_map in Hin; destruct Hin as (j & Hj & Hin); apply In_range in Hj; rewrite in_app_iff, !in_map_iff in Hin;
      destruct Hin as [(i' & E & Hi)|(i' & E & Hi)]; apply In_range in Hi; injection E as <- <-;
      (split; [apply GetIndex3_lt; lia|]); rewrite HF by lia; unfold cov3_spec; rewrite EB;
      unfold apply_smoothing, smoothing, kernel, GetCov3;
      rewrite ?(lag_lo_eq nx i') by lia; rewrite ?(lag_hi_eq nx i') by lia;
      rewrite ?(lag_lo_eq ny j) by lia; rewrite ?(lag_hi_eq ny j) by lia;
      rewrite ?(lag_lo_eq nz k) by lia; rewrite ?(lag_hi_eq nz k) by lia; reflexivity.
  - intros x Hx. pose proof (GetIndex_GetIJK nx ny nz x Hx) as Hij. destruct (GetIJK nx ny x) as [[i j] k].
    destruct Hij as (Hi & Hj & Hk & <-).
    rewrite in_map_iff.
    destruct (Nat.lt_ge_cases k ((nz + 1) / 2)), (Nat.lt_ge_cases j ((ny + 1) / 2)), (Nat.lt_ge_cases i ((nx + 1) / 2));
      eexists (GetIndex3 nx ny i j k, _); (split; [reflexivity|]); rewrite !in_app_iff, !in_flat_map;
      [left|left|right; left|right; left|right; right; left|right; right; left|right; right; right|right; right; right];
      exists k; rewrite In_range, in_flat_map; (split; [lia|]);
      exists j; rewrite In_range, in_app_iff, !in_map_iff; (split; [lia|]);
      [left|right|right|left|left|right|left|right]; exists i; rewrite In_range; (split; [reflexivity|lia]).
Qed.

End Cov.

(** ** Transforms and fields *)
Section F.
Context {L : Lib}.
Notation num := (num L).
Notation cplx := (cplx L).
Notation zero := (lit L 0 0).
Definition czero : cplx := (lit L 0 0, lit L 0 0).
Hypothesis HL : fft_sizes L.

Definition fwd_scale (n : nat) : num := (lit L 1 0 / fsqrt L (lit L 1 0 * ofZ L (Z.of_nat n)))%num.

(** index in the stored half spectrum *)
Definition fold_index (n k : nat) : nat := if k <=? n / 2 then k else n - k.

Lemma half_bound n : 0 < n -> n / 2 < n.
Proof. intros. apply Nat.div_lt; lia. Qed.

Lemma fft1_ok (x : list num) (sf : bool) : x <> [] ->
  let n := length x in
  let y := map (fun a => ((if sf then fwd_scale n else lit L 1 0) * a)%num) x in
  ComputeFFT1D x sf 0 = Ok (map (fun k => nth (fold_index n k) (r2c1 L n y) czero) (seq 0 n)).
Proof.
  intros Hx. cbv zeta. unfold ComputeFFT1D. destruct x as [|x0 x]; [congruence|]. clear Hx.
  set (v := x0 :: x). change (length (x0 :: x)) with (length v). set (n := length v).
  change (0 <? 0)%Z with false. cbv iota. change (0 =? 0)%Z with true. cbv iota. cbn [bind]. change (Z.to_nat 0) with 0.
  rewrite Nat.add_0_r.
  assert (Hap : forall s, AddPadding x0 (last v x0) 0 s = []) by reflexivity.
  rewrite Hap, app_nil_r. 
  change (if sf then (lit L 1 0 / fsqrt L (lit L 1 0 * ofZ L (Z.of_nat n)))%num else lit L 1 0) with (if sf then fwd_scale n else lit L 1 0).
  set (y := map (fun a => ((if sf then fwd_scale n else lit L 1 0) * a)%num) v).
  assert (Hy : length y = n) by (unfold y; rewrite map_length; reflexivity).
  unfold fftw. rewrite (proj2 (Nat.leb_le n (length y))) by lia. cbn [bind].
  assert (Hc : length (r2c1 L n y) = n / 2 + 1) by apply HL.
  assert (Hn : 0 < n) by (unfold n, v; simpl; lia).
  pose proof (half_bound n Hn).
  rewrite (rd_Ok _ 0 czero) by lia. cbn [bind].
  rewrite (mapM_Ok _ (fun i => [(i, nth i (r2c1 L n y) czero); (n - i, nth i (r2c1 L n y) czero)])).
  2:{ intros i Hi. apply In_range in Hi. rewrite (rd_Ok _ i czero) by lia. reflexivity. }
  cbn [bind].
  rewrite (writes_fun (fun k => nth (fold_index n k) (r2c1 L n y) czero)); rewrite repeat_length; auto.
  - intros i a [E|Hin].
    + injection E as <- <-. split; auto.
    + apply in_concat in Hin as (l & Hl & Hin). apply in_map_iff in Hl as (k & <- & Hk). apply In_range in Hk.
      clearbody y; clearbody n; unfold fold_index. pose proof (Nat.div_mod n 2 ltac:(lia)). pose proof (Nat.mod_upper_bound n 2 ltac:(lia)).
      destruct Hin as [E|[E|[]]]; injection E as <- <-; (split; [lia|]).
      * destruct (Nat.leb_spec k (n / 2)); auto; lia.
      * destruct (Nat.leb_spec (n - k) (n / 2)); f_equal; lia.
  - intros i Hi. destruct (Nat.eq_dec i 0) as [->|Hi0]; [left; reflexivity|]. right.
    rewrite in_map_iff. pose proof (Nat.div_mod n 2 ltac:(lia)). pose proof (Nat.mod_upper_bound n 2 ltac:(lia)).
    destruct (Nat.le_gt_cases i (n / 2)).
    + eexists (i, _). split; [reflexivity|]. apply in_concat. eexists. split; [apply in_map_iff; exists i; split; [reflexivity|apply In_range; lia]|].
      left. reflexivity.
    + eexists (i, _). split; [reflexivity|]. apply in_concat. eexists. split; [apply in_map_iff; exists (n - i); split; [reflexivity|apply In_range; lia]|].
      right. left. replace (n - (n - i)) with i by lia. reflexivity.
Qed.

Lemma nth_map' {S T} (f : S -> T) l i d d' : i < length l -> nth i (map f l) d' = f (nth i l d).
Proof. intros. rewrite (nth_indep _ d' (f d)) by (rewrite map_length; auto). apply map_nth. Qed.

Lemma fftinv1_ok (X : list cplx) n : 0 < n -> length X = n ->
  ComputeFFTInv1D X (repeat zero n) true = Ok (map (fun x => (x * fwd_scale n)%num) (c2r1 L n X)).
Proof.
  intros Hn HX. unfold ComputeFFTInv1D. destruct X as [|X0 X']; [simpl in HX; lia|].
  set (X := X0 :: X') in *. unfold fftw. rewrite HX.
  pose proof (half_bound n Hn).
  rewrite (proj2 (Nat.leb_le (n / 2 + 1) n)) by lia. cbn [bind]. rewrite repeat_length.
  assert (Hc : length (c2r1 L n X) = n) by apply HL.
  rewrite (mapM_Ok _ (fun i => (nth i (c2r1 L n X) zero * fwd_scale n)%num)).
  2:{ intros i Hi. apply in_seq in Hi. rewrite (rd_Ok _ i zero) by lia. reflexivity. }
  f_equal. apply (nth_ext' _ _ zero); [rewrite !map_length, seq_length; lia|].
  intros i Hi. rewrite map_length, seq_length in Hi. rewrite nth_map_seq by auto.
  rewrite (nth_map' _ _ i zero zero) by lia. reflexivity.
Qed.

(** the half spectra of covariance and noise in 1D *)
Definition spec1 (v : variogram L) n dx sx : list cplx :=
  r2c1 L n (map (fun a => (lit L 1 0 * a)%num) (map (cov1_spec v n dx sx) (seq 0 n))).
Definition nspec1 (n : nat) (noise : list num) : list cplx := r2c1 L n (map (fun a => (fwd_scale n * a)%num) noise).

Lemma field1d_ok (v : variogram L) nx n dx sx noise : 0 < n -> nx <= n -> length noise = n ->
  field1d v nx n dx sx noise =
  Ok (firstn nx (map (fun x => (x * fwd_scale n)%num)
       (c2r1 L n (map (fun k => cmul (clip_sqrt (nth (fold_index n k) (spec1 v n dx sx) czero))
                                     (nth (fold_index n k) (nspec1 n noise) czero)) (seq 0 n))))).
Proof.
  intros Hn Hx Hl. unfold field1d. rewrite cov1_ok. cbn [bind].
  rewrite fft1_ok.
  2:{ destruct n; [lia|discriminate]. }
  rewrite !map_length, seq_length. cbn [bind].
  rewrite fft1_ok by (destruct noise; [simpl in Hl; lia|discriminate]). rewrite Hl. cbn [bind].
  fold (spec1 v n dx sx). fold (nspec1 n noise). rewrite !map_length, seq_length.
  rewrite (mapM_Ok _ (fun k => cmul (clip_sqrt (nth (fold_index n k) (spec1 v n dx sx) czero))
                                     (nth (fold_index n k) (nspec1 n noise) czero))).
  2:{ intros i Hi. apply in_seq in Hi.
      rewrite (rd_Ok _ i (clip_sqrt czero)) by (rewrite !map_length, seq_length; lia). cbn [bind].
      rewrite (rd_Ok _ i czero) by (rewrite !map_length, seq_length; lia). cbn [bind].
      rewrite map_map, !nth_map_seq by lia. reflexivity. }
  cbn [bind]. rewrite fftinv1_ok by (rewrite ?map_length, ?seq_length; auto). cbn [bind].
  set (out := map (fun x => (x * fwd_scale n)%num) _).
  assert (Ho : length out = n) by (unfold out; rewrite map_length; apply HL).
  rewrite (mapM_Ok _ (fun i => nth i out zero)).
  2:{ intros i Hi. apply in_seq in Hi. rewrite (rd_Ok _ i zero) by lia. reflexivity. }
  f_equal. apply (nth_ext' _ _ zero); [rewrite map_length, seq_length, firstn_length; lia|].
  intros i Hi. rewrite map_length, seq_length in Hi. rewrite nth_map_seq by auto.
  rewrite <- (firstn_skipn nx out) at 1. rewrite app_nth1; auto. rewrite firstn_length. lia.
Qed.

Lemma list_prod_map {T} n m (f : nat * nat -> T) (g : nat -> T) :
  (forall i j, i < n -> j < m -> f (i, j) = g (i * m + j)) ->
  map f (list_prod (seq 0 n) (seq 0 m)) = map g (seq 0 (n * m)).
Proof.

  assert (X : forall b, (forall i j, i < n -> j < m -> f (b + i, j) = g (b * m + (i * m + j))) ->
    map f (list_prod (seq b n) (seq 0 m)) = map g (seq (b * m) (n * m))).
  { induction n as [|n IH]; intros b H; [reflexivity|]. cbn [seq list_prod].
    rewrite map_app. replace (S n * m) with (m + n * m) by lia. rewrite seq_app, map_app. f_equal.
    - rewrite map_map. rewrite <- (Nat.add_0_r (b * m)) at 1. 
      assert (Y : forall k, map (fun x => f (b, x)) (seq k (m - k)) = map g (seq (b * m + k) (m - k))).
      { intros k. clear IH. remember (m - k) as r. revert k Heqr. induction r as [|r IHr]; intros k Hr; [reflexivity|].
        cbn [seq map]. f_equal.
        - specialize (H 0 k ltac:(lia) ltac:(lia)). rewrite Nat.add_0_r in H. rewrite H. f_equal.
        - rewrite (IHr (S k)) by lia. f_equal. f_equal. lia. }
      specialize (Y 0). rewrite Nat.sub_0_r in Y. exact Y.
    - replace (b * m + m) with (S b * m) by lia. apply IH.
      intros i j Hi Hj. specialize (H (S i) j ltac:(lia) Hj). replace (S b + i) with (b + S i) by lia. rewrite H. f_equal. lia. }
  intros H. specialize (X 0). simpl in X. apply X. auto.
Qed.

Lemma writes_seq {T} (vs : list T) z N : length vs = N -> writes (combine (seq 0 N) vs) (repeat z N) = Ok vs.
Proof.
  intros H. rewrite (writes_fun (fun i => nth i vs z)); rewrite ?repeat_length.
  - f_equal. apply (nth_ext' _ _ z); [rewrite map_length, seq_length; auto|].
    intros i Hi. rewrite map_length, seq_length in Hi. rewrite nth_map_seq by auto. reflexivity.
  - intros i a Hin. apply (In_nth _ _ (0, z)) in Hin as (n & Hn & E).
    rewrite combine_length, seq_length in Hn. rewrite combine_nth in E by (rewrite seq_length; auto).
    rewrite seq_nth in E by lia. injection E as <- <-. simpl. split; [lia|auto].
  - intros i Hi. apply in_map_iff. exists (i, nth i vs z). split; auto.
    replace (i, nth i vs z) with (nth i (combine (seq 0 N) vs) (0, z)).
    + apply nth_In. rewrite combine_length, seq_length. lia.
    + rewrite combine_nth by (rewrite seq_length; auto). rewrite seq_nth by auto. reflexivity.
Qed.

Lemma init2_ok ni nj (values : list num) : length values = ni * nj -> Initialize2 ni nj values = Ok values.
Proof.
  intros H. unfold Initialize2.
  rewrite (mapM_Ok _ (fun '(j, i) => nth (GetIndex2 ni i j) values zero)).
  2:{ intros [j i] Hin. apply in_prod_iff in Hin as [Hj Hi]. apply in_seq in Hj, Hi.
      apply rd_Ok. rewrite H. apply GetIndex2_lt; lia. }
  cbn [bind].
  rewrite (list_prod_map nj ni _ (fun x => nth x values zero)).
  2:{ intros j i Hj Hi. unfold GetIndex2. f_equal. lia. }
  rewrite writes_seq; [|rewrite map_length, seq_length; lia].
  f_equal. apply (nth_ext' _ _ zero); [rewrite map_length, seq_length; lia|].
  intros i Hi. rewrite map_length, seq_length in Hi. rewrite nth_map_seq by auto. reflexivity.
Qed.

Lemma init3_ok ni nj nk (values : list num) : length values = ni * nj * nk -> Initialize3 ni nj nk values = Ok values.
Proof.
  intros H. unfold Initialize3.
  rewrite (mapM_Ok _ (fun '(k, (j, i)) => nth (GetIndex3 ni nj i j k) values zero)).
  2:{ intros [k [j i]] Hin. apply in_prod_iff in Hin as [Hk Hin]. apply in_prod_iff in Hin as [Hj Hi]. apply in_seq in Hj, Hi, Hk.
      apply rd_Ok. rewrite H. apply GetIndex3_lt; lia. }
  cbn [bind].
  assert (E : map (fun '(k, (j, i)) => nth (GetIndex3 ni nj i j k) values zero) (list_prod (seq 0 nk) (list_prod (seq 0 nj) (seq 0 ni)))
    = map (fun x => nth x values zero) (seq 0 (nk * (nj * ni)))).
  { rewrite <- (list_prod_map nk (nj * ni) (fun '(k, x) => nth (k * (nj * ni) + x) values zero) _) by auto.
    assert (Ep : list_prod (seq 0 nj) (seq 0 ni) = map (fun x => (x / ni, x mod ni)) (seq 0 (nj * ni))).
    { rewrite <- (list_prod_map nj ni (fun p => p) _).
      - rewrite map_id. reflexivity.
      - intros j i Hj Hi. rewrite Nat.div_add_l, Nat.div_small by lia. rewrite Nat.add_0_r, Nat.add_comm, Nat.mod_add by lia.
        rewrite Nat.mod_small by auto. reflexivity. }
    rewrite Ep. generalize (seq 0 nk) as ks. intros ks. induction ks as [|k ks IH]; [reflexivity|].
    cbn [list_prod]. rewrite !map_app, IH. f_equal. rewrite !map_map. apply map_ext_in. intros x Hx. apply in_seq in Hx.
    f_equal. unfold GetIndex3. assert (ni <> 0) by nia. pose proof (Nat.div_mod x ni ltac:(auto)). nia. }
  rewrite E. rewrite writes_seq; [|rewrite map_length, seq_length; nia].
  f_equal. apply (nth_ext' _ _ zero); [rewrite map_length, seq_length; nia|].
  intros i Hi. rewrite map_length, seq_length in Hi. rewrite nth_map_seq by auto. reflexivity.
Qed.

Lemma getreal2_ok ni nj nit njt (real : list num) : ni <= nit -> nj <= njt -> length real = nit * njt ->
  GetRealGrid2 ni nj nit real =
  Ok (map (fun x => let '(i, j) := GetIJ ni nj x in nth (i + nit * j) real zero) (seq 0 (ni * nj))).
Proof.
  intros Hi Hj Hl. unfold GetRealGrid2.
  rewrite (mapM_Ok _ (fun '(i, j) => (GetIndex2 ni i j, nth (i + nit * j) real zero))).
  2:{ intros [i j] Hin. apply in_prod_iff in Hin as [Hi' Hj']. apply in_seq in Hi', Hj'.
      rewrite (rd_Ok _ _ zero) by (rewrite Hl; nia). reflexivity. }
  cbn [bind]. rewrite (writes_fun (fun x => let '(i, j) := GetIJ ni nj x in nth (i + nit * j) real zero)); rewrite repeat_length; auto.
  - intros x a Hin. apply in_map_iff in Hin as ([i j] & E & Hin). injection E as <- <-.
    apply in_prod_iff in Hin as [Hi' Hj']. apply in_seq in Hi', Hj'.
    split; [apply GetIndex2_lt; lia|]. rewrite GetIJ_GetIndex by lia. reflexivity.
  - intros x Hx. pose proof (GetIndex_GetIJ ni nj x Hx) as Hij. destruct (GetIJ ni nj x) as [i j]. destruct Hij as (? & ? & <-).
    rewrite map_map. apply in_map_iff. exists (i, j). split; [reflexivity|]. apply in_prod_iff. rewrite !in_seq. lia.
Qed.

Lemma getreal3_ok ni nj nk nit njt nkt (real : list num) : ni <= nit -> nj <= njt -> nk <= nkt -> length real = nit * njt * nkt ->
  GetRealGrid3 ni nj nk nit njt real =
  Ok (map (fun x => let '(i, j, k) := GetIJK ni nj x in nth (i + nit * j + nit * njt * k) real zero) (seq 0 (ni * nj * nk))).
Proof.
  intros Hi Hj Hk Hl. unfold GetRealGrid3.
  rewrite (mapM_Ok _ (fun '(i, (j, k)) => (GetIndex3 ni nj i j k, nth (i + nit * j + nit * njt * k) real zero))).
  2:{ intros [i [j k]] Hin. apply in_prod_iff in Hin as [Hi' Hin]. apply in_prod_iff in Hin as [Hj' Hk']. apply in_seq in Hi', Hj', Hk'.
      rewrite (rd_Ok _ _ zero); [reflexivity|]. rewrite Hl.
      pose proof (GetIndex3_lt nit njt nkt i j k) as X. unfold GetIndex3 in X. nia. }
  cbn [bind]. rewrite (writes_fun (fun x => let '(i, j, k) := GetIJK ni nj x in nth (i + nit * j + nit * njt * k) real zero)); rewrite repeat_length; auto.
  - intros x a Hin. apply in_map_iff in Hin as ([i [j k]] & E & Hin). injection E as <- <-.
    apply in_prod_iff in Hin as [Hi' Hin]. apply in_prod_iff in Hin as [Hj' Hk']. apply in_seq in Hi', Hj', Hk'.
    split; [apply GetIndex3_lt; lia|]. rewrite GetIJK_GetIndex by lia. reflexivity.
  - intros x Hx. pose proof (GetIndex_GetIJK ni nj nk x Hx) as Hij. destruct (GetIJK ni nj x) as [[i j] k]. destruct Hij as (? & ? & ? & <-).
    rewrite map_map. apply in_map_iff. exists (i, (j, k)). split; [reflexivity|]. rewrite !in_prod_iff, !in_seq. lia.
Qed.

(** covariance tables as lists *)
Definition cov2_list (v : variogram L) nx dx ny dy sx sy : list num :=
  map (fun x => let '(i, j) := GetIJ nx ny x in cov2_spec v nx dx ny dy sx sy i j) (seq 0 (nx * ny)).
Definition cov3_list (v : variogram L) nx dx ny dy nz dz sx sy sz : list num :=
  map (fun x => let '(i, j, k) := GetIJK nx ny x in cov3_spec v nx dx ny dy nz dz sx sy sz i j k) (seq 0 (nx * ny * nz)).

(** the whole periodic field *)
Definition full2 (v : variogram L) nx ny dx dy sx sy (noise : list num) : list num :=
  let C := r2c2 L ny nx (cov2_list v nx dx ny dy sx sy) in
  let W := r2c2 L ny nx (map (fun x => (x * fwd_scale (nx * ny))%num) noise) in
  map (fun x => (x * fwd_scale (nx * ny))%num)
    (c2r2 L ny nx (map (fun i => cmul (nth i W czero) (clip_sqrt (nth i C czero))) (seq 0 ((nx / 2 + 1) * ny)))).
Definition full3 (v : variogram L) nx ny nz dx dy dz sx sy sz (noise : list num) : list num :=
  let C := r2c3 L nz ny nx (cov3_list v nx dx ny dy nz dz sx sy sz) in
  let W := r2c3 L nz ny nx (map (fun x => (x * fwd_scale (nx * ny * nz))%num) noise) in
  map (fun x => (x * fwd_scale (nx * ny * nz))%num)
    (c2r3 L nz ny nx (map (fun i => cmul (nth i W czero) (clip_sqrt (nth i C czero))) (seq 0 ((nx / 2 + 1) * ny * nz)))).

Lemma field2d_ok (v : variogram L) nx ny nxt nyt dx dy sx sy noise :
  nx <= nxt -> ny <= nyt -> length noise = nxt * nyt ->
  field2d v nx ny nxt nyt dx dy sx sy noise =
  Ok (map (fun x => let '(i, j) := GetIJ nx ny x in nth (i + nxt * j) (full2 v nxt nyt dx dy sx sy noise) zero) (seq 0 (nx * ny))).
Proof.
  intros Hx Hy Hl. unfold field2d. rewrite cov2_ok. cbn [bind]. fold (cov2_list v nxt dx nyt dy sx sy).
  rewrite init2_ok by (unfold cov2_list; rewrite map_length, seq_length; reflexivity). cbn [bind].
  assert (HC : length (cov2_list v nxt dx nyt dy sx sy) = nxt * nyt) by (unfold cov2_list; rewrite map_length, seq_length; reflexivity).
  unfold DoFFT2 at 1. unfold fftw. rewrite (proj2 (Nat.leb_le _ _)) by lia. cbn [bind].
  rewrite init2_ok by auto. cbn [bind].
  unfold DoFFT2, fftw. rewrite (proj2 (Nat.leb_le _ _)) by (rewrite map_length; lia). cbn [bind].
  change (lit L 1 0 / fsqrt L (lit L 1 0 * ofZ L (Z.of_nat (nxt * nyt))))%num with (fwd_scale (nxt * nyt)).
  set (C := r2c2 L nyt nxt (cov2_list v nxt dx nyt dy sx sy)).
  set (W := r2c2 L nyt nxt (map (fun x => (x * fwd_scale (nxt * nyt))%num) noise)).
  assert (HCl : length C = nyt * (nxt / 2 + 1)) by apply HL.
  assert (HWl : length W = nyt * (nxt / 2 + 1)) by apply HL.
  rewrite (mapM_Ok _ (fun i => cmul (nth i W czero) (clip_sqrt (nth i C czero)))).
  2:{ intros i Hi. apply in_seq in Hi. rewrite (rd_Ok _ i czero) by lia. cbn [bind].
      rewrite (rd_Ok _ i (clip_sqrt czero)) by (rewrite map_length; lia). cbn [bind]. rewrite map_nth. reflexivity. }
  cbn [bind]. unfold DoInverseFFT2, fftw. rewrite map_length, seq_length.
  rewrite (proj2 (Nat.leb_le _ _)) by lia. cbn [bind].
  rewrite (getreal2_ok nx ny nxt nyt); [reflexivity|auto|auto|].
  rewrite map_length. destruct HL as (_ & _ & _ & H4 & _). rewrite H4. lia.
Qed.

Lemma field3d_ok (v : variogram L) nx ny nz nxt nyt nzt dx dy dz sx sy sz noise :
  nx <= nxt -> ny <= nyt -> nz <= nzt -> length noise = nxt * nyt * nzt ->
  field3d v nx ny nz nxt nyt nzt dx dy dz sx sy sz noise =
  Ok (map (fun x => let '(i, j, k) := GetIJK nx ny x in
        nth (i + nxt * j + nxt * nyt * k) (full3 v nxt nyt nzt dx dy dz sx sy sz noise) zero) (seq 0 (nx * ny * nz))).
Proof.
  intros Hx Hy Hz Hl. unfold field3d. rewrite cov3_ok. cbn [bind]. fold (cov3_list v nxt dx nyt dy nzt dz sx sy sz).
  assert (HC : length (cov3_list v nxt dx nyt dy nzt dz sx sy sz) = nxt * nyt * nzt) by (unfold cov3_list; rewrite map_length, seq_length; reflexivity).
  rewrite init3_ok by auto. cbn [bind].
  unfold DoFFT3 at 1. unfold fftw. rewrite (proj2 (Nat.leb_le _ _)) by nia. cbn [bind].
  rewrite init3_ok by auto. cbn [bind].
  unfold DoFFT3, fftw. rewrite (proj2 (Nat.leb_le _ _)) by (rewrite map_length; nia). cbn [bind].
  change (lit L 1 0 / fsqrt L (lit L 1 0 * ofZ L (Z.of_nat (nxt * nyt * nzt))))%num with (fwd_scale (nxt * nyt * nzt)).
  set (C := r2c3 L nzt nyt nxt (cov3_list v nxt dx nyt dy nzt dz sx sy sz)).
  set (W := r2c3 L nzt nyt nxt (map (fun x => (x * fwd_scale (nxt * nyt * nzt))%num) noise)).
  assert (HCl : length C = nzt * nyt * (nxt / 2 + 1)) by apply HL.
  assert (HWl : length W = nzt * nyt * (nxt / 2 + 1)) by apply HL.
  assert (Hc : nzt * nyt * (nxt / 2 + 1) = (nxt / 2 + 1) * nyt * nzt) by (generalize (nxt / 2); intros; nia).
  rewrite (mapM_Ok _ (fun i => cmul (nth i W czero) (clip_sqrt (nth i C czero)))).
  2:{ intros i Hi. apply in_seq in Hi. rewrite (rd_Ok _ i czero) by lia. cbn [bind].
      rewrite (rd_Ok _ i (clip_sqrt czero)) by (rewrite map_length; lia). cbn [bind]. rewrite map_nth. reflexivity. }
  cbn [bind]. unfold DoInverseFFT3, fftw. rewrite map_length, seq_length.
  rewrite (proj2 (Nat.leb_le _ _)) by lia. cbn [bind].
  rewrite (getreal3_ok nx ny nz nxt nyt nzt); [reflexivity|auto|auto|auto|].
  rewrite map_length. destruct HL as (_ & _ & _ & _ & _ & H6). rewrite H6. nia.
Qed.

End F.
