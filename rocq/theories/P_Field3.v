(** Explicit padding (C21) and noise draws (C14). *)
From Coq Require Import ZArith List Bool Lia Permutation.
From Verif Require Import Base Arith M_Variogram M_Padding M_FftSize M_Grid M_CovGrid M_Fft M_Dsfmt M_Random M_Field M_Api
  S_Api P_Base P_Grid P_Api P_Field P_Field2.
Import ListNotations.
Open Scope nat_scope.

Local Opaque new_generator genrand_uint32 init_gen_rand.

Section P.
Context {L : Lib}.
Variable rec : recursion.
Variable fuel : nat.
Notation num := (num L).

Lemma u64_range z : (0 <= u64 z < 2 ^ 64)%Z.
Proof. unfold u64. apply Z.mod_pos_bound. lia. Qed.

Lemma FGP_range (v : variogram L) n r s p : FindGaussianFieldPadding v n r s = Ok p -> (0 <= p < 2 ^ 64)%Z.
Proof.
  unfold FindGaussianFieldPadding. intros H. apply bind_Ok in H as (a & _ & H). apply bind_Ok in H as (b & _ & H).
  destruct (Z.max a b =? 2 ^ 31 - 1)%Z; try discriminate. injection H as <-. apply u64_range.
Qed.

Lemma desired_same (ps : list Z) i p n : nth_error ps i = Some p -> (0 <= p < 2 ^ 64)%Z -> size_ok n ->
  forall pad, pad = (u64 (p + n) - n)%Z -> int_ok pad -> desired pad ps i = Ok p.
Proof.
  intros Hp Hr Hn pad -> Hi. unfold desired, size_ok, int_ok in *.
  destruct (u64 (p + n) - n <? 0)%Z eqn:E.
  - unfold rd. rewrite Hp. reflexivity.
  - f_equal. unfold u64 in *.
    destruct (Z_lt_le_dec (p + n) (2 ^ 64)) as [Hlt|Hge].
    + rewrite Z.mod_small in * by lia. lia.
    + replace ((p + n) mod 2 ^ 64)%Z with (p + n - 2 ^ 64)%Z in *.
      * lia.
      * symmetry. rewrite <- (Z.mod_small (p + n - 2 ^ 64) (2 ^ 64)) by lia.
        rewrite <- Zminus_mod_idemp_r, Z.mod_same, Z.sub_0_r by lia. reflexivity.
Qed.

Lemma padding_same t (v : variogram L) (d : dims L) (a : adv L) ns st :
  fst (step rec fuel t (CSize v d) st) = Ok (VSizes ns) -> length ns = dim_asked d ->
  accepted (CAdvanced v d a) ->
  a_padx a = Some (nth 0 ns 0 - d_nx d)%Z ->
  (2 <= dim_asked d -> a_pady a = Some (nth 1 ns 0 - opt (d_ny d) 1)%Z) ->
  (3 <= dim_asked d -> a_padz a = Some (nth 2 ns 0 - opt (d_nz d) 1)%Z) ->
  a_sx a = None -> a_sy a = None -> a_sz a = None ->
  step rec fuel t (CAdvanced v d a) st = step rec fuel t (CSimulate v d) st.
Proof.
  intros Hsz Hlen [HA HB] Epx Epy Epz Esx Esy Esz.
  apply args_ok in HA as [x HA]. pose proof HB as (Ipx & Ipy & Ipz). apply adv_args_ok in HB as [y HB].
  rewrite (step_adv _ _ _ _ _ _ _ _ _ HA HB), (step_plain _ _ _ _ _ _ _ HA).
  f_equal. simpl in Hsz. rewrite HA in Hsz. cbn [bind] in Hsz.
  pose proof HA as HD. apply args_inv in HA as (-> & Hnx & Hny & Hnz). apply adv_args_inv in HB as (-> & _).
  apply dim_args in HD. rewrite Esx, Esy, Esz, Epx. cbn [opt].
  cbn [run_core]. unfold sim_core. rewrite <- HD in *.
  set (ny := opt (d_ny d) 1%Z) in *. set (nz := opt (d_nz d) 1%Z) in *.
  set (dy := opt (d_dy d) (lit L (-1) 0)) in *. set (dz := opt (d_dz d) (lit L (-1) 0)) in *.
  unfold omap, FindGridSizeAfterPadding in Hsz. apply bind_Ok in Hsz as (ns' & Hp & E). injection E as ->.
  apply bind_Ok in Hp as (ps & Hp & E). injection E as E.
  unfold SimulateAny.
  assert (Hdim : dimension ny dy nz dz = 1 \/ dimension ny dy nz dz = 2 \/ dimension ny dy nz dz = 3)
    by (unfold dimension; destruct (_ || _)%bool; [auto|destruct (_ || _)%bool; auto]).
  specialize (Ipx _ Epx).
  destruct Hdim as [Hd|[Hd|Hd]]; rewrite Hd in *.
  - (* 1D *)
    unfold FindNDimPadding in Hp. destruct (Z.leb_spec ny 1).
    2:{ destruct (nz <=? 1)%Z; exfalso;
        repeat (apply bind_Ok in Hp as (? & _ & Hp)); injection Hp as <-; subst ns; simpl in Hlen; discriminate. }
    apply bind_Ok in Hp as (px & Hp & E'). injection E' as <-. subst ns. simpl nth in *.
    pose proof (FGP_range _ _ _ _ _ Hp).
    unfold Simulate1D, sizes1. unfold FindNDimPadding. change (1 <=? 1)%Z with true. cbv iota. rewrite Hp. cbn [bind].
    rewrite (desired_same _ 0 px (d_nx d)) by (auto; reflexivity). reflexivity.
  - (* 2D *)
    specialize (Epy ltac:(lia)). rewrite Epy. cbn [opt]. specialize (Ipy _ Epy).
    unfold FindNDimPadding in Hp. destruct (Z.leb_spec ny 1).
    { apply bind_Ok in Hp as (? & _ & Hp); injection Hp as <-; subst ns; simpl in Hlen; discriminate. }
    destruct (Z.leb_spec nz 1).
    2:{ repeat (apply bind_Ok in Hp as (? & _ & Hp)); injection Hp as <-; subst ns; simpl in Hlen; discriminate. }
    apply bind_Ok in Hp as (px & Hp & E'). apply bind_Ok in E' as (py & Hq & E'). injection E' as <-. subst ns. simpl nth in *.
    pose proof (FGP_range _ _ _ _ _ Hp). pose proof (FGP_range _ _ _ _ _ Hq).
    unfold Simulate2D, sizes2. unfold FindNDimPadding. replace (ny <=? 1)%Z with false by lia.
    change (1 <=? 1)%Z with true. cbv iota. rewrite Hp. cbn [bind]. rewrite Hq. cbn [bind].
    rewrite (desired_same _ 0 px (d_nx d)) by (auto; reflexivity).
    rewrite (desired_same _ 1 py ny) by (auto; reflexivity). reflexivity.
  - (* 3D *)
    specialize (Epy ltac:(lia)). rewrite Epy. cbn [opt]. specialize (Ipy _ Epy).
    specialize (Epz ltac:(lia)). rewrite Epz. cbn [opt]. specialize (Ipz _ Epz).
    pose proof Hp as Hp'. unfold FindNDimPadding in Hp. destruct (Z.leb_spec ny 1).
    { apply bind_Ok in Hp as (? & _ & Hp); injection Hp as <-; subst ns; simpl in Hlen; discriminate. }
    destruct (Z.leb_spec nz 1).
    { repeat (apply bind_Ok in Hp as (? & _ & Hp)); injection Hp as <-; subst ns; simpl in Hlen; discriminate. }
    apply bind_Ok in Hp as (px & Hp & E'). apply bind_Ok in E' as (py & Hq & E'). apply bind_Ok in E' as (pz & Hr & E').
    injection E' as <-. subst ns. simpl nth in *.
    pose proof (FGP_range _ _ _ _ _ Hp). pose proof (FGP_range _ _ _ _ _ Hq). pose proof (FGP_range _ _ _ _ _ Hr).
    unfold Simulate3D, sizes3. rewrite Hp'. cbn [bind].
    rewrite (desired_same _ 0 px (d_nx d)) by (auto; reflexivity).
    rewrite (desired_same _ 1 py ny) by (auto; reflexivity).
    rewrite (desired_same _ 2 pz nz) by (auto; reflexivity). reflexivity.
Qed.

(** ** Noise (C14) *)
Lemma nth_error_prod {A B} (l : list A) (l' : list B) i j a b :
  nth_error l i = Some a -> nth_error l' j = Some b ->
  nth_error (list_prod l l') (i * length l' + j) = Some (a, b).
Proof.
  intros Ha Hb. revert i Ha. induction l as [|x l IH]; intros i Ha; [destruct i; discriminate|].
  assert (j < length l') by (apply nth_error_Some; congruence).
  destruct i as [|i]; simpl in *.
  - injection Ha as ->. rewrite nth_error_app1 by (rewrite map_length; auto). rewrite nth_error_map, Hb. reflexivity.
  - rewrite nth_error_app2 by (rewrite map_length; lia). rewrite map_length.
    replace (length l' + i * length l' + j - length l') with (i * length l' + j) by lia. apply IH; auto.
Qed.
Lemma nth_error_seq0 n i : i < n -> nth_error (seq 0 n) i = Some i.
Proof.
  intros H. erewrite nth_error_nth' with (d := 0) by (rewrite seq_length; auto). rewrite seq_nth by auto. reflexivity.
Qed.

Definition idx2 ni nj := map (fun '(i, j) => GetIndex2 ni i j) (list_prod (seq 0 ni) (seq 0 nj)).
Definition idx3 ni nj nk := map (fun '(i, (j, k)) => GetIndex3 ni nj i j k)
                       (list_prod (seq 0 ni) (list_prod (seq 0 nj) (seq 0 nk))).
Lemma idx2_length ni nj : length (idx2 ni nj) = ni * nj.
Proof. unfold idx2. rewrite map_length, prod_length, !seq_length. reflexivity. Qed.
Lemma idx3_length ni nj nk : length (idx3 ni nj nk) = ni * nj * nk.
Proof. unfold idx3. rewrite map_length, !prod_length, !seq_length. lia. Qed.
Lemma idx2_nth ni nj i j : i < ni -> j < nj -> nth_error (idx2 ni nj) (i * nj + j) = Some (GetIndex2 ni i j).
Proof.
  intros. unfold idx2. rewrite nth_error_map.
  pose proof (nth_error_prod (seq 0 ni) (seq 0 nj) i j i j) as E. rewrite !seq_length in E.
  rewrite E by (apply nth_error_seq0; auto). reflexivity.
Qed.
Lemma idx3_nth ni nj nk i j k : i < ni -> j < nj -> k < nk ->
  nth_error (idx3 ni nj nk) ((i * nj + j) * nk + k) = Some (GetIndex3 ni nj i j k).
Proof.
  intros. unfold idx3. rewrite nth_error_map.
  pose proof (nth_error_prod (seq 0 nj) (seq 0 nk) j k j k) as E. rewrite !seq_length in E.
  pose proof (nth_error_prod (seq 0 ni) (list_prod (seq 0 nj) (seq 0 nk)) i (j * nk + k) i (j, k)) as E2.
  rewrite !prod_length, !seq_length in E2.
  replace ((i * nj + j) * nk + k) with (i * (nj * nk) + (j * nk + k)) by lia.
  rewrite E2; [reflexivity|apply nth_error_seq0; auto|apply E; apply nth_error_seq0; auto].
Qed.
Lemma idx2_perm ni nj : Permutation (seq 0 (ni * nj)) (idx2 ni nj).
Proof.
  apply NoDup_Permutation_bis.
  - apply seq_NoDup.
  - rewrite idx2_length, seq_length; auto.
  - intros x Hx. apply in_seq in Hx. pose proof (GetIndex_GetIJ ni nj x ltac:(lia)) as H.
    destruct (GetIJ ni nj x) as [i j]. destruct H as (Hi & Hj & <-).
    eapply nth_error_In. apply idx2_nth; eauto.
Qed.
Lemma idx3_perm ni nj nk : Permutation (seq 0 (ni * nj * nk)) (idx3 ni nj nk).
Proof.
  apply NoDup_Permutation_bis.
  - apply seq_NoDup.
  - rewrite idx3_length, seq_length; auto.
  - intros x Hx. apply in_seq in Hx. pose proof (GetIndex_GetIJK ni nj nk x ltac:(lia)) as H.
    destruct (GetIJK ni nj x) as [[i j] k]. destruct H as (Hi & Hj & Hk & <-).
    eapply nth_error_In. apply idx3_nth; eauto.
Qed.


Lemma scatter {T} (idx : list nat) (xs : list T) z N :
  Permutation (seq 0 N) idx -> length xs = N ->
  exists g, writes (combine idx xs) (repeat z N) = Ok g /\ length g = N /\ Permutation g xs /\
    forall n x d, nth_error idx n = Some x -> nth x g d = nth n xs d.
Proof.
  intros Hp Hl.
  assert (Hli : length idx = N) by (apply Permutation_length in Hp; rewrite seq_length in Hp; auto).
  assert (Hfst : map fst (combine idx xs) = idx).
  { clear - Hli Hl. revert N xs Hli Hl. induction idx as [|a idx IH]; intros N [|x xs] H1 H2; simpl in *; subst; auto; try discriminate.
    f_equal. eapply IH; eauto. }
  destruct (writes_total (combine idx xs) (repeat z N)) as [g Hg].
  { intros i a Hin. rewrite repeat_length. apply in_combine_l in Hin.
    apply (Permutation_in i (Permutation_sym Hp)) in Hin. apply in_seq in Hin. lia. }
  exists g. split; [auto|]. pose proof (writes_length _ _ _ Hg) as Hlg. rewrite repeat_length in Hlg.
  assert (Hn : forall n x d, nth_error idx n = Some x -> nth x g d = nth n xs d).
  { intros n x d Hx.
    assert (n < length idx) by (apply nth_error_Some; congruence).
    assert (Hy : nth_error xs n = Some (nth n xs d)) by (apply nth_error_nth'; lia).
    eapply writes_nodup; eauto.
    - rewrite Hfst. eapply Permutation_NoDup; eauto. apply seq_NoDup.
    - apply nth_error_In with (n := n). remember (nth n xs d) as w. clear - Hx Hy. revert xs n Hx Hy.
      induction idx as [|a idx IH]; intros xs [|n] Hx Hy; simpl in *; try discriminate;
        destruct xs; simpl in *; try discriminate; [congruence|].
      apply IH; auto. }
  split; [auto|]. split; [|auto].
  destruct g as [|g0 g'].
  { simpl in Hlg. destruct xs; [constructor|simpl in Hl; lia]. }
  set (g := g0 :: g') in *.
  assert (Eg : g = map (fun x => nth x g g0) (seq 0 N)).
  { apply (nth_ext' _ _ g0); [rewrite map_length, seq_length; auto|].
    intros i Hi. rewrite nth_map_seq by lia. reflexivity. }
  assert (Ex : xs = map (fun x => nth x g g0) idx).
  { apply (nth_ext' _ _ g0); [rewrite map_length; lia|].
    intros i Hi. destruct (nth_error idx i) as [x|] eqn:E.
    - rewrite <- (Hn i x g0 E). erewrite (nth_error_nth (map _ idx)); [reflexivity|].
      rewrite nth_error_map, E. reflexivity.
    - apply nth_error_None in E. lia. }
  rewrite Eg, Ex at 1. apply Permutation_map. auto.
Qed.

Lemma noise2_spec ni nj (xs : list num) : length xs = ni * nj ->
  exists g, noise_grid2 ni nj xs = Ok g /\ length g = ni * nj /\ Permutation g xs /\
    forall i j d, i < ni -> j < nj -> nth (i + j * ni) g d = nth (i * nj + j) xs d.
Proof.
  intros H. destruct (scatter (idx2 ni nj) xs (lit L 0 0) (ni * nj) (idx2_perm ni nj) H) as (g & Hg & Hl & Hp & Hn).
  exists g. repeat split; auto. intros i j d Hi Hj. apply (Hn (i * nj + j)). rewrite idx2_nth by auto. reflexivity.
Qed.
Lemma noise3_spec ni nj nk (xs : list num) : length xs = ni * nj * nk ->
  exists g, noise_grid3 ni nj nk xs = Ok g /\ length g = ni * nj * nk /\ Permutation g xs /\
    forall i j k d, i < ni -> j < nj -> k < nk -> nth (i + j * ni + k * ni * nj) g d = nth ((i * nj + j) * nk + k) xs d.
Proof.
  intros H. destruct (scatter (idx3 ni nj nk) xs (lit L 0 0) (ni * nj * nk) (idx3_perm ni nj nk) H) as (g & Hg & Hl & Hp & Hn).
  exists g. repeat split; auto. intros i j k d Hi Hj Hk. apply (Hn ((i * nj + j) * nk + k)). rewrite idx3_nth by auto. reflexivity.
Qed.

Lemma draws_length {S} (u : S -> num * S) f n : forall s xs s', draws u f n s = Ok (xs, s') -> length xs = n.
Proof.
  induction n as [|n IH]; intros s xs s' H; simpl in H.
  - injection H as <- _. reflexivity.
  - apply bind_Ok in H as ([x s1] & _ & H). apply bind_Ok in H as ([ys s2] & H & E). injection E as <- _.
    simpl. f_equal. eauto.
Qed.

Lemma draws_app {S} (u : S -> num * S) f n m : forall s,
  draws u f (n + m) s =
  let* (xs, s1) := draws u f n s in let* (ys, s2) := draws u f m s1 in Ok (xs ++ ys, s2).
Proof.
  induction n as [|n IH]; intros s; simpl.
  - destruct draws as [[ys s2]| | |]; reflexivity.
  - destruct (Norm01 u f s) as [[x s1]| | |]; simpl; auto. rewrite IH.
    destruct (draws u f n s1) as [[xs s2]| | |]; simpl; auto.
    destruct (draws u f m s2) as [[ys s3]| | |]; simpl; auto.
Qed.

Lemma narrow_inv z n : narrow z = Ok n -> n = Z.to_nat z /\ (z < 2 ^ 31)%Z.
Proof. unfold narrow. destruct (Z.ltb_spec z (2 ^ 31)); intros E; inversion E; auto. Qed.

Lemma core_dim (v : variogram L) (d : dims L) (a : adv L) t st l st' : 
  step rec fuel t (CAdvanced v d a) st = (Ok (VArray l), st') ->
  let st0 := ensure_init rec t st in
  let ny := opt (d_ny d) 1%Z in let nz := opt (d_nz d) 1%Z in
  let dy := opt (d_dy d) (lit L (-1) 0) in let dz := opt (d_dz d) (lit L (-1) 0) in
  let px := opt (a_padx a) (-1)%Z in let py := opt (a_pady a) (-1)%Z in let pz := opt (a_padz a) (-1)%Z in
  let sx := opt (a_sx a) (lit L 1 0) in let sy := opt (a_sy a) (lit L 1 0) in let sz := opt (a_sz a) (lit L 1 0) in
  exists st1, leaked st1 + leaked st0 = leaked st' /\ gen st1 = gen st' /\
  match dim_asked d with
  | 1 => Simulate1D rec fuel v (d_nx d) (d_dx d) px sx (mkRstate true 0 (gen st0) 0) = Ok (l, st1)
  | 2 => Simulate2D rec fuel v (d_nx d) (d_dx d) ny dy px py sx sy (mkRstate true 0 (gen st0) 0) = Ok (l, st1)
  | _ => Simulate3D rec fuel v (d_nx d) (d_dx d) ny dy nz dz px py pz sx sy sz (mkRstate true 0 (gen st0) 0) = Ok (l, st1)
  end.
Proof.
  intros H. cbv zeta. destruct (step_adv_array _ _ _ _ _ _ _ _ _ H) as (x & y & A & B).
  rewrite (step_adv _ _ _ _ _ _ _ _ _ A B) in H. pose proof A as D.
  apply args_inv in A as [-> _]. apply adv_args_inv in B as [-> _]. apply dim_args in D. rewrite <- D.
  cbn [run_core] in H. unfold sim_core, SimulateAny in H.
  set (st0 := ensure_init rec t st) in *.
  destruct (dimension _ _ _ _) as [|[|[|n]]].
  1, 4: destruct Simulate3D as [[l1 s1]| | |]; cbn [bind after_core] in H; try discriminate; injection H as <- <-; exists s1; auto.
  - destruct Simulate1D as [[l1 s1]| | |]; cbn [bind after_core] in H; try discriminate; injection H as <- <-; exists s1; auto.
  - destruct Simulate2D as [[l1 s1]| | |]; cbn [bind after_core] in H; try discriminate; injection H as <- <-; exists s1; auto.
Qed.

(** the noise of a 3D simulation: consecutive draws of the global generator *)
Lemma noise_3d t (v : variogram L) (d : dims L) (a : adv L) st l st' : dim_asked d = 3 ->
  step rec fuel t (CAdvanced v d a) st = (Ok (VArray l), st') ->
  exists nx ny nz xs noise,
    (exists zx zy zz, sizes3 v (d_nx d) (d_dx d) (opt (d_ny d) 1%Z) (opt (d_dy d) (lit L (-1) 0)) (opt (d_nz d) 1%Z) (opt (d_dz d) (lit L (-1) 0))
         (opt (a_padx a) (-1)%Z) (opt (a_pady a) (-1)%Z) (opt (a_padz a) (-1)%Z) = Ok (zx, zy, zz) /\
       nx = Z.to_nat zx /\ ny = Z.to_nat zy /\ nz = Z.to_nat zz) /\
    draws (Unif01 rec) fuel (nx * ny * nz) (gen (ensure_init rec t st)) = Ok (xs, gen st') /\
    length xs = nx * ny * nz /\ length noise = nx * ny * nz /\ Permutation noise xs /\
    (forall i j k z, i < nx -> j < ny -> k < nz ->
       nth (i + j * nx + k * nx * ny) noise z = nth ((i * ny + j) * nz + k) xs z) /\
    field3d v (Z.to_nat (d_nx d)) (Z.to_nat (opt (d_ny d) 1%Z)) (Z.to_nat (opt (d_nz d) 1%Z)) nx ny nz
      (d_dx d) (opt (d_dy d) (lit L (-1) 0)) (opt (d_dz d) (lit L (-1) 0))
      (opt (a_sx a) (lit L 1 0)) (opt (a_sy a) (lit L 1 0)) (opt (a_sz a) (lit L 1 0)) noise = Ok l.
Proof.
  intros Hd H. apply core_dim in H as (st1 & _ & Hg & H). rewrite Hd in H. unfold Simulate3D in H. cbn [gen] in H.
  apply bind_Ok in H as ([[a1 a2] a3] & Hs & H).
  apply bind_Ok in H as (nx & Hx1 & H). apply bind_Ok in H as (ny & Hy1 & H). apply bind_Ok in H as (nz & Hz1 & H).
  apply narrow_inv in Hx1 as [Hx1 _]. apply narrow_inv in Hy1 as [Hy1 _]. apply narrow_inv in Hz1 as [Hz1 _].
  apply bind_Ok in H as ([xs dd] & Hx & H). apply bind_Ok in H as (noise & Hn & H).
  apply bind_Ok in H as (out & Hf & E). injection E as <- <-. cbn [gen] in Hg. subst dd.
  pose proof (draws_length _ _ _ _ _ _ Hx) as Hl.
  destruct (noise3_spec nx ny nz xs Hl) as (g & Eg & A & B & C). rewrite Hn in Eg. injection Eg as <-.
  exists nx, ny, nz, xs, noise. repeat split; auto. exists a1, a2, a3. auto.
Qed.

(** 1D and 2D: consecutive draws of a generator seeded with one draw of the global one *)
Lemma noise_2d t (v : variogram L) (d : dims L) (a : adv L) st l st' : dim_asked d = 2 ->
  step rec fuel t (CAdvanced v d a) st = (Ok (VArray l), st') ->
  let g := gen (ensure_init rec t st) in
  gen st' = snd (genrand_uint32 rec g) /\
  exists nx ny xs noise end_,
    (exists zx zy, sizes2 v (d_nx d) (d_dx d) (opt (d_ny d) 1%Z) (opt (d_dy d) (lit L (-1) 0))
         (opt (a_padx a) (-1)%Z) (opt (a_pady a) (-1)%Z) = Ok (zx, zy) /\ nx = Z.to_nat zx /\ ny = Z.to_nat zy) /\
    draws (Unif01 rec) fuel (nx * ny) (init_gen_rand (fst (genrand_uint32 rec g))) = Ok (xs, end_) /\
    length xs = nx * ny /\ length noise = nx * ny /\ Permutation noise xs /\
    (forall i j z, i < nx -> j < ny -> nth (i + j * nx) noise z = nth (i * ny + j) xs z) /\
    field2d v (Z.to_nat (d_nx d)) (Z.to_nat (opt (d_ny d) 1%Z)) nx ny
      (d_dx d) (opt (d_dy d) (lit L (-1) 0)) (opt (a_sx a) (lit L 1 0)) (opt (a_sy a) (lit L 1 0)) noise = Ok l.
Proof.
  intros Hd H. cbv zeta. apply core_dim in H as (st1 & _ & Hg & H). rewrite Hd in H. unfold Simulate2D in H.
  rewrite new_generator_eq in H. cbn [gen] in H.
  apply bind_Ok in H as ([a1 a2] & Hs & H).
  apply bind_Ok in H as (nx & Hx1 & H). apply bind_Ok in H as (ny & Hy1 & H).
  apply narrow_inv in Hx1 as [Hx1 _]. apply narrow_inv in Hy1 as [Hy1 _].
  apply bind_Ok in H as ([xs dd] & Hx & H). apply bind_Ok in H as (noise & Hn & H).
  apply bind_Ok in H as (out & Hf & E). injection E as <- <-. split; [rewrite <- Hg; reflexivity|].
  pose proof (draws_length _ _ _ _ _ _ Hx) as Hl.
  destruct (noise2_spec nx ny xs Hl) as (g & Eg & A & B & C). rewrite Hn in Eg. injection Eg as <-.
  exists nx, ny, xs, noise, dd. repeat split; auto. exists a1, a2. auto.
Qed.

Lemma noise_1d t (v : variogram L) (d : dims L) (a : adv L) st l st' : dim_asked d = 1 ->
  step rec fuel t (CAdvanced v d a) st = (Ok (VArray l), st') ->
  let g := gen (ensure_init rec t st) in
  gen st' = snd (genrand_uint32 rec g) /\
  exists nx noise end_,
    (exists zx, sizes1 v (d_nx d) (d_dx d) (opt (a_padx a) (-1)%Z) = Ok zx /\ nx = Z.to_nat zx) /\
    draws (Unif01 rec) fuel nx (init_gen_rand (fst (genrand_uint32 rec g))) = Ok (noise, end_) /\
    length noise = nx /\
    field1d v (Z.to_nat (d_nx d)) nx (d_dx d) (opt (a_sx a) (lit L 1 0)) noise = Ok l.
Proof.
  intros Hd H. cbv zeta. apply core_dim in H as (st1 & _ & Hg & H). rewrite Hd in H. unfold Simulate1D in H.
  rewrite new_generator_eq in H. cbn [gen] in H.
  apply bind_Ok in H as (a1 & Hs & H).
  apply bind_Ok in H as (nx & Hx1 & H). apply narrow_inv in Hx1 as [Hx1 _].
  apply bind_Ok in H as ([xs dd] & Hx & H). 
  apply bind_Ok in H as (out & Hf & E). injection E as <- <-. split; [rewrite <- Hg; reflexivity|].
  pose proof (draws_length _ _ _ _ _ _ Hx) as Hl.
  exists nx, xs, dd. repeat split; auto. exists a1. auto.
Qed.

End P.
