(** The simulated fields as linear filters of the noise. *)
From Coq Require Import ZArith List Bool Lia Reals Lra Psatz.
From Verif Require Import Base Arith RealArith M_Variogram M_Grid M_CovGrid M_Fft M_Field S_CovGrid S_Spectrum P_Base P_Grid P_Bounds P_Overrun P_VarioKernel P_Dft P_DftList.
Import ListNotations.
Open Scope R_scope.

Lemma clip_R o cl (a b : R) : @clip_sqrt (Rlib o cl) (a, b) = (sqrt (Rmax a 0), 0).
Proof.
  unfold clip_sqrt, csqrt. cbn [fst snd arith Rlib]. 
  assert (E0 : lit Rarith 0 0 = 0) by (cbn; lra). rewrite E0, fmax_R.
  set (m := Rmax a 0). assert (Hm : 0 <= m) by apply Rmax_r. cbn. unfold Reqb, Rltb.
  destruct (Req_EM_T 0 0); [|lra]. destruct (Rlt_dec m 0); [lra|reflexivity].
Qed.
Lemma cmul_R_l o cl (s a b : R) : @cmul (Rlib o cl) (s, 0) (a, b) = (s * a, s * b).
Proof. unfold cmul. cbn. f_equal; ring. Qed.
Lemma cmul_R_r o cl (s a b : R) : @cmul (Rlib o cl) (a, b) (s, 0) = (s * a, s * b).
Proof. unfold cmul. cbn. f_equal; ring. Qed.
Lemma one_mul (x : R) : 1 / 1 * x = x.
Proof. field. Qed.
Lemma scale_R o cl n : (0 < n)%nat -> @fwd_scale (Rlib o cl) n = / sqrt (INR n).
Proof.
  intros H. pose proof (lt_0_INR n H). pose proof (sqrt_lt_R0 _ H0).
  unfold fwd_scale. cbn. rewrite <- INR_IZR_INZ. replace (1 / 1 * INR n) with (INR n) by field. field. lra.
Qed.
Lemma scale_sq n : (0 < n)%nat -> / sqrt (INR n) * / sqrt (INR n) * INR n = 1.
Proof.
  intros H. pose proof (lt_0_INR n H) as HN. pose proof (sqrt_lt_R0 _ HN) as HS. pose proof (sqrt_sqrt (INR n) ltac:(lra)) as E.
  rewrite <- E at 3. field. lra.
Qed.

Lemma cell_R o cl (W C : list (R * R)) q a b : (q < length W)%nat -> (q < length C)%nat -> nth q C (0, 0) = (a, b) ->
  @cmul (Rlib o cl) (@nth (cplx (Rlib o cl)) q W czero) (clip_sqrt (@nth (cplx (Rlib o cl)) q C czero))
  = (sqrt (Rmax a 0) * fst (nth q W (0, 0)), sqrt (Rmax a 0) * snd (nth q W (0, 0))).
Proof.
  intros HW HC E.
  replace (@nth (cplx (Rlib o cl)) q W czero) with (@nth (R * R) q W (0, 0)) by (apply (nth_indep (A := R * R)); auto).
  replace (@nth (cplx (Rlib o cl)) q C czero) with (@nth (R * R) q C (0, 0)) by (apply (nth_indep (A := R * R)); auto).
  rewrite E, clip_R. destruct (nth q W (0, 0)). apply cmul_R_r.
Qed.

(** amplitude filter of a table *)
Definition amp (S : dsys) (c : nat -> R) (k : nat) : R := sqrt (Rmax (fre S c k) 0).
Lemma amp_ng S c k : good S -> (k < dN S)%nat -> amp S c (dng S k) = amp S c k.
Proof. intros G H. unfold amp. rewrite (fre_ng S G) by auto. reflexivity. Qed.
Lemma amp_sq S c k : amp S c k * amp S c k = Rmax (fre S c k) 0.
Proof. apply sqrt_sqrt. apply Rmax_r. Qed.

Section G.
Variable T : dsys.
Variable n : nat.
Hypothesis GT : good T.
Hypothesis Hn : (0 < n)%nat.
Notation S := (rows T n).
Notation N := (dN S).
Notation h := (n / 2 + 1)%nat.

Lemma field_nth (c noise : list R) X j : length noise = N -> (j < N)%nat ->
  (forall k, (k < N)%nat -> (k mod n < h)%nat ->
     nth (stored n k) X (0, 0) = (amp S (nthR c) k * fst (nth (stored n k) (gr2c T n (map (fun x => x * / sqrt (INR N)) noise)) (0, 0)),
                                  amp S (nthR c) k * snd (nth (stored n k) (gr2c T n (map (fun x => x * / sqrt (INR N)) noise)) (0, 0)))) ->
  nth j (gc2r T n X) 0 * / sqrt (INR N) = rsum N (fun l => ker S (amp S (nthR c)) j l * nth l noise 0).
Proof.
  intros Hl Hj HX. pose proof (rows_good T n GT Hn) as GS. pose proof (g_pos S GS) as HN.
  rewrite (filter_nth T n GT Hn (map (fun x => x * / sqrt (INR N)) noise) (amp S (nthR c))); auto.
  - rewrite (rsum_ext _ (fun l => ker S (amp S (nthR c)) j l * nthR _ l) (fun l => / sqrt (INR N) * (ker S (amp S (nthR c)) j l * nth l noise 0))).
    + rewrite rsum_scal. pose proof (scale_sq N HN) as E. set (r := rsum N _). 
      transitivity (/ sqrt (INR N) * / sqrt (INR N) * INR N * r); [ring|]. rewrite E. ring.
    + intros l Hll. unfold nthR at 2. rewrite (nth_map' _ _ l 0 0) by lia. ring.
  - intros. apply amp_ng; auto.
Qed.
End G.

(** ** the kernels *)
Definition ker1 n (c : nat -> R) (i j : nat) : R := ker (sys1 n) (amp (sys1 n) c) i j.
Definition flat2 (nx ny : nat) (c : nat -> nat -> R) (x : nat) : R := c (x mod nx)%nat (x / nx)%nat.
Definition flat3 (nx ny : nat) (c : nat -> nat -> nat -> R) (x : nat) : R := c (x mod nx)%nat ((x / nx) mod ny)%nat (x / nx / ny)%nat.
Definition ker2 nx ny c (i j q : nat) : R := ker (sys2 ny nx) (amp (sys2 ny nx) (flat2 nx ny c)) (j * nx + i) q.
Definition ker3 nx ny nz c (i j k q : nat) : R := ker (sys3 nz ny nx) (amp (sys3 nz ny nx) (flat3 nx ny c)) ((k * ny + j) * nx + i) q.

Lemma fre_ext S x y k : (forall j, (j < dN S)%nat -> x j = y j) -> fre S x k = fre S y k.
Proof. intros H. apply rsum_ext. intros. rewrite H by auto. reflexivity. Qed.
Lemma amp_ext S x y k : (forall j, (j < dN S)%nat -> x j = y j) -> amp S x k = amp S y k.
Proof. intros H. unfold amp. rewrite (fre_ext S x y) by auto. reflexivity. Qed.
Lemma ker_ext S s t i j : (forall k, (k < dN S)%nat -> s k = t k) -> ker S s i j = ker S t i j.
Proof. intros H. unfold ker. f_equal. apply rsum_ext. intros. rewrite H by auto. reflexivity. Qed.

Section R.
Variables (o : Z -> outcome Z) (cl : Z -> Z -> Z).
Notation L := (Rlib o cl).

Lemma field1d_lin (v : variogram L) nx n dx sx noise : (0 < n)%nat -> (nx <= n)%nat -> length noise = n ->
  exists out : list R, @field1d L v nx n dx sx noise = Ok out /\ length out = nx /\
    forall i, (i < nx)%nat -> nth i out 0 = rsum n (fun l => ker1 n (@cov1_spec Rarith v n dx sx) i l * nth l noise 0).
Proof.
  intros Hn Hx Hl. rewrite (field1d_ok (Rlib_sizes o cl)) by auto. eexists. split; [reflexivity|].
  set (full := map _ (c2r1 L n _)). assert (Hfl : length full = n).
  { unfold full. rewrite map_length. apply (Rlib_sizes o cl). }
  split; [rewrite firstn_length; lia|]. intros i Hi.
  assert (F : nth i (firstn nx full) 0 = nth i full 0).
  { rewrite <- (firstn_skipn nx full) at 2. rewrite app_nth1; [reflexivity|rewrite firstn_length; lia]. }
  etransitivity; [exact F|]. unfold full. set (X := map _ (seq 0 n)).
  assert (HXl : length X = n) by (unfold X; rewrite map_length, seq_length; reflexivity).
  transitivity (nth i (gc2r (cyc 1) n X) 0 * / sqrt (INR (dN (rows (cyc 1) n)))).
  { fold (sys1 n). rewrite dN1.
    change (nth i (map (fun x => x * @fwd_scale L n) (Rc2r1 n X)) 0 = nth i (gc2r (cyc 1) n X) 0 * / sqrt (INR n)).
    rewrite c2r1_g, scale_R by auto. rewrite (nth_map' _ _ i 0 0); [reflexivity|]. unfold gc2r. rewrite map_length, seq_length. fold (sys1 n). rewrite dN1. lia. }
  set (c := map (@cov1_spec Rarith v n dx sx) (seq 0 n)).
  rewrite (field_nth (cyc 1) n (cyc_good 1 ltac:(lia)) Hn c noise X i).
  - fold (sys1 n). rewrite dN1. apply rsum_ext. intros l Hll. f_equal. unfold ker1. apply ker_ext. intros k Hk. apply amp_ext. intros j Hj. rewrite dN1 in Hj.
    unfold nthR, c. rewrite nth_map_seq by auto. reflexivity.
  - fold (sys1 n). rewrite dN1. auto.
  - fold (sys1 n). rewrite dN1. lia.
  - fold (sys1 n). rewrite dN1. intros k Hk Hm. assert (Es : stored n k = k) by (unfold stored; rewrite (Nat.div_small k), (Nat.mod_small k) by auto; lia).
    rewrite Es. rewrite (Nat.mod_small k) in Hm by auto.
    unfold X. rewrite nth_map_seq by auto.
    assert (Ef : fold_index n k = k) by (unfold fold_index; destruct (Nat.leb_spec k (n / 2)); auto; lia). rewrite Ef.
    assert (Ec : nth k (@spec1 L v n dx sx) (@czero L) = (fre (sys1 n) (nthR c) k, - fim (sys1 n) (nthR c) k)).
    { unfold spec1. assert (E1 : map (fun a => mul L (lit L 1 0) a) (map (@cov1_spec L v n dx sx) (seq 0 n)) = c).
      { unfold c. rewrite map_map. apply map_ext. intros a. exact (one_mul _). }
      rewrite E1. change (r2c1 L n c) with (Rr2c1 n c). rewrite r2c1_g by auto.
      rewrite (nth_indep _ (@czero L) (0, 0)).
      - rewrite <- Es at 1. apply (gr2c_nth (cyc 1) n Hn c k); [fold (sys1 n); rewrite dN1; auto|rewrite Nat.mod_small; auto].
      - unfold gr2c. rewrite map_length, seq_length. cbn [cyc dN]. lia. }
    assert (Ew : nth k (@nspec1 L n noise) (@czero L) = nth k (gr2c (cyc 1) n (map (fun x => x * / sqrt (INR n)) noise)) (0, 0)).
    { unfold nspec1. change (r2c1 L n) with (Rr2c1 n). rewrite r2c1_g by auto. 
      assert (E1 : map (fun a => mul L (@fwd_scale L n) a) noise = map (fun x => x * / sqrt (INR n)) noise).
      { apply map_ext. intros a. rewrite scale_R by auto. apply Rmult_comm. }
      rewrite E1. apply nth_indep. unfold gr2c. rewrite map_length, seq_length. cbn [cyc dN]. lia. }
    rewrite Ec, Ew. rewrite clip_R. destruct (nth k (gr2c _ _ _) _) as [wr wi]. rewrite cmul_R_l. reflexivity.
Qed.

Lemma GetIJ_flat nx ny x : (x < nx * ny)%nat -> GetIJ nx ny x = (x mod nx, x / nx)%nat.
Proof.
  intros Hx. pose proof (GetIndex_GetIJ nx ny x Hx) as H. destruct (GetIJ nx ny x) as [i j]. destruct H as (Hi & Hj & <-).
  unfold GetIndex2. rewrite Nat.add_comm. destruct (flat_div nx j i Hi) as [-> ->]. reflexivity.
Qed.
Lemma GetIJK_flat nx ny nz x : (x < nx * ny * nz)%nat -> GetIJK nx ny x = (x mod nx, (x / nx) mod ny, x / nx / ny)%nat.
Proof.
  intros Hx. pose proof (GetIndex_GetIJK nx ny nz x Hx) as H. destruct (GetIJK nx ny x) as [[i j] k]. destruct H as (Hi & Hj & Hk & <-).
  unfold GetIndex3. replace (i + j * nx + k * nx * ny)%nat with ((k * ny + j) * nx + i)%nat by ring.
  destruct (flat_div nx (k * ny + j) i Hi) as [-> ->]. destruct (flat_div ny k j Hj) as [-> ->]. reflexivity.
Qed.

Lemma full2_nth (v : variogram L) nx ny dx dy sx sy noise i j : (i < nx)%nat -> (j < ny)%nat -> length noise = (nx * ny)%nat ->
  nth (i + nx * j) (@full2 L v nx ny dx dy sx sy noise) 0
  = rsum (nx * ny) (fun l => ker2 nx ny (@cov2_spec Rarith v nx dx ny dy sx sy) i j l * nth l noise 0).
Proof.
  intros Hi Hj Hl. assert (Hx : (0 < nx)%nat) by lia. assert (Hy : (0 < ny)%nat) by lia. unfold full2. set (X := map _ (seq 0 ((nx / 2 + 1) * ny))).
  assert (HN : (nx * ny = dN (rows (cyc ny) nx))%nat) by (cbn; lia).
  replace (i + nx * j)%nat with (j * nx + i)%nat by lia.
  assert (Hji : (j * nx + i < dN (rows (cyc ny) nx))%nat) by (apply (flat_lt ny nx); auto).
  assert (Hpos : (0 < nx * ny)%nat) by nia.
  transitivity (nth (j * nx + i) (gc2r (cyc ny) nx X) 0 * / sqrt (INR (dN (rows (cyc ny) nx)))).
  { change (nth (j * nx + i) (map (fun x => x * @fwd_scale L (nx * ny)) (Rc2r2 ny nx X)) 0 = nth (j * nx + i) (gc2r (cyc ny) nx X) 0 * / sqrt (INR (dN (rows (cyc ny) nx)))).
    rewrite c2r2_g, scale_R by auto. rewrite HN. rewrite (nth_map' _ _ _ 0 0); [reflexivity|]. unfold gc2r. rewrite map_length, seq_length. auto. }
  set (c := @cov2_list L v nx dx ny dy sx sy).
  rewrite (field_nth (cyc ny) nx (cyc_good ny Hy) Hx c noise X (j * nx + i)).
  - rewrite HN. apply rsum_ext. intros l Hll. f_equal. unfold ker2, sys2. apply ker_ext. intros k Hk. apply amp_ext. intros q Hq.
    unfold nthR, c, cov2_list, flat2. rewrite (nth_map_seq _ _ q) by (rewrite HN; auto). rewrite GetIJ_flat by (rewrite HN; auto). reflexivity.
  - rewrite <- HN. auto.
  - auto.
  - intros k Hk Hm. pose proof (stored_lt (cyc ny) nx k Hk Hm) as Hs. cbn [cyc dN] in Hs.
    unfold X. rewrite nth_map_seq by lia.
    change (r2c2 L ny nx) with (Rr2c2 ny nx). rewrite !r2c2_g by auto. fold c.
    assert (E1 : map (fun x => mul L x (@fwd_scale L (nx * ny))) noise = map (fun x => x * / sqrt (INR (dN (rows (cyc ny) nx)))) noise).
    { apply map_ext. intros a. rewrite scale_R, HN by auto. reflexivity. }
    rewrite E1.
    apply (cell_R o cl _ _ _ (fre (rows (cyc ny) nx) (nthR c) k) (- fim (rows (cyc ny) nx) (nthR c) k)).
    + unfold gr2c. rewrite map_length, seq_length. auto.
    + unfold gr2c. rewrite map_length, seq_length. auto.
    + apply (gr2c_nth (cyc ny) nx Hx c k Hk Hm).
Qed.
Lemma full3_nth (v : variogram L) nx ny nz dx dy dz sx sy sz noise i j k : (i < nx)%nat -> (j < ny)%nat -> (k < nz)%nat -> length noise = (nx * ny * nz)%nat ->
  nth (i + nx * j + nx * ny * k) (@full3 L v nx ny nz dx dy dz sx sy sz noise) 0
  = rsum (nx * ny * nz) (fun l => ker3 nx ny nz (@cov3_spec Rarith v nx dx ny dy nz dz sx sy sz) i j k l * nth l noise 0).
Proof.
  intros Hi Hj Hk Hl. assert (Hx : (0 < nx)%nat) by lia. assert (Hy : (0 < ny)%nat) by lia. assert (Hz : (0 < nz)%nat) by lia.
  unfold full3. set (X := map _ (seq 0 ((nx / 2 + 1) * ny * nz))). set (T := prod_sys (cyc nz) (cyc ny)).
  assert (GT : good T) by (apply prod_good; apply cyc_good; auto).
  assert (HN : (nx * ny * nz = dN (rows T nx))%nat) by (cbn; lia).
  replace (i + nx * j + nx * ny * k)%nat with ((k * ny + j) * nx + i)%nat by lia.
  assert (Hji : ((k * ny + j) * nx + i < dN (rows T nx))%nat) by (apply (flat_lt (nz * ny) nx); auto; apply flat_lt; auto).
  assert (Hpos : (0 < nx * ny * nz)%nat) by (rewrite HN; lia).
  transitivity (nth ((k * ny + j) * nx + i) (gc2r T nx X) 0 * / sqrt (INR (dN (rows T nx)))).
  { change (nth ((k * ny + j) * nx + i) (map (fun x => x * @fwd_scale L (nx * ny * nz)) (Rc2r3 nz ny nx X)) 0 = nth ((k * ny + j) * nx + i) (gc2r T nx X) 0 * / sqrt (INR (dN (rows T nx)))).
    rewrite c2r3_g, scale_R by auto. fold T. rewrite HN. rewrite (nth_map' _ _ _ 0 0); [reflexivity|]. unfold gc2r. rewrite map_length, seq_length. auto. }
  set (c := @cov3_list L v nx dx ny dy nz dz sx sy sz).
  rewrite (field_nth T nx GT Hx c noise X ((k * ny + j) * nx + i)).
  - rewrite HN. apply rsum_ext. intros l Hll. f_equal. unfold ker3, sys3. fold T. apply ker_ext. intros k' Hk'. apply amp_ext. intros q Hq.
    unfold nthR, c, cov3_list, flat3. rewrite (nth_map_seq _ _ q) by (rewrite HN; auto). rewrite (GetIJK_flat nx ny nz) by (rewrite HN; auto). reflexivity.
  - rewrite <- HN. auto.
  - auto.
  - intros k' Hk' Hm. pose proof (stored_lt T nx k' Hk' Hm) as Hs. change (dN T) with (nz * ny)%nat in Hs.
    unfold X. rewrite nth_map_seq by lia.
    change (r2c3 L nz ny nx) with (Rr2c3 nz ny nx). rewrite !r2c3_g by auto. fold T. fold c.
    assert (E1 : map (fun x => mul L x (@fwd_scale L (nx * ny * nz))) noise = map (fun x => x * / sqrt (INR (dN (rows T nx)))) noise).
    { apply map_ext. intros a. rewrite scale_R, HN by auto. reflexivity. }
    rewrite E1.
    apply (cell_R o cl _ _ _ (fre (rows T nx) (nthR c) k') (- fim (rows T nx) (nthR c) k')).
    + unfold gr2c. rewrite map_length, seq_length. auto.
    + unfold gr2c. rewrite map_length, seq_length. auto.
    + apply (gr2c_nth T nx Hx c k' Hk' Hm).
Qed.

Lemma field2d_lin (v : variogram L) nx ny nxt nyt dx dy sx sy noise : (nx <= nxt)%nat -> (ny <= nyt)%nat -> length noise = (nxt * nyt)%nat ->
  exists out : list R, @field2d L v nx ny nxt nyt dx dy sx sy noise = Ok out /\ length out = (nx * ny)%nat /\
    forall i j, (i < nx)%nat -> (j < ny)%nat ->
      nth (i + j * nx) out 0 = rsum (nxt * nyt) (fun l => ker2 nxt nyt (@cov2_spec Rarith v nxt dx nyt dy sx sy) i j l * nth l noise 0).
Proof.
  intros Hx Hy Hl. rewrite (field2d_ok (Rlib_sizes o cl)) by auto. eexists. split; [reflexivity|].
  split; [rewrite map_length, seq_length; reflexivity|]. intros i j Hi Hj.
  rewrite nth_map_seq by (pose proof (GetIndex2_lt nx ny i j Hi Hj) as HI; unfold GetIndex2 in HI; lia). change (i + j * nx)%nat with (GetIndex2 nx i j). rewrite GetIJ_GetIndex by lia.
  rewrite <- (full2_nth v nxt nyt dx dy sx sy noise i j) by (auto; lia). apply nth_indep.
  unfold full2. rewrite map_length. destruct (Rlib_sizes o cl) as (_ & _ & _ & H4 & _). rewrite H4. nia.
Qed.
Lemma field3d_lin (v : variogram L) nx ny nz nxt nyt nzt dx dy dz sx sy sz noise : (nx <= nxt)%nat -> (ny <= nyt)%nat -> (nz <= nzt)%nat -> length noise = (nxt * nyt * nzt)%nat ->
  exists out : list R, @field3d L v nx ny nz nxt nyt nzt dx dy dz sx sy sz noise = Ok out /\ length out = (nx * ny * nz)%nat /\
    forall i j k, (i < nx)%nat -> (j < ny)%nat -> (k < nz)%nat ->
      nth (i + j * nx + k * nx * ny) out 0
      = rsum (nxt * nyt * nzt) (fun l => ker3 nxt nyt nzt (@cov3_spec Rarith v nxt dx nyt dy nzt dz sx sy sz) i j k l * nth l noise 0).
Proof.
  intros Hx Hy Hz Hl. rewrite (field3d_ok (Rlib_sizes o cl)) by auto. eexists. split; [reflexivity|].
  split; [rewrite map_length, seq_length; reflexivity|]. intros i j k Hi Hj Hk.
  pose proof (GetIndex3_lt nx ny nz i j k Hi Hj Hk) as HI. change (i + j * nx + k * nx * ny)%nat with (GetIndex3 nx ny i j k).
  rewrite nth_map_seq by auto. rewrite GetIJK_GetIndex by lia.
  rewrite <- (full3_nth v nxt nyt nzt dx dy dz sx sy sz noise i j k) by (auto; lia). apply nth_indep.
  unfold full3. rewrite map_length. destruct (Rlib_sizes o cl) as (_ & _ & _ & _ & _ & H6). rewrite H6.
  pose proof (GetIndex3_lt nxt nyt nzt i j k ltac:(lia) ltac:(lia) ltac:(lia)) as HI'. unfold GetIndex3 in HI'. nia.
Qed.
End R.
