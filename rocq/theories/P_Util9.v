(** Examples and refutations. *)
From Coq Require Import ZArith Bool Reals Lia Lra String.
From Coq Require Import List.
From Verif Require Import Base Arith RealArith M_Variogram M_CovGrid M_Field S_Spectrum S_Vario P_Vario P_DftProps M_Util S_Util P_Base P_Util P_Util2 P_Util3 P_Util4 P_Util5 P_Util6 P_Util7 P_Util8.
Import ListNotations.
Open Scope R_scope.

(** 2 by 2 cells of size 1, resolution 1: one part, with all four cells, from each corner *)
Definition square : ev := mkEv 2 2 1 1 1 0 (fun x => exp (- x)).
Definition corners : list cell := [(0, 0, 0); (1, 1, 0)]%nat.
Definition four : list cell := [(0, 0, 0); (1, 0, 0); (0, 1, 0); (1, 1, 0)]%nat.
Lemma square_in p : in_grid square p <-> In p four.
Proof.
  destruct p as [[i j] k]. cbn. split.
  - intros (Hi & Hj & Hk). assert (k = 0%nat) by lia. subst. destruct i as [|[|]], j as [|[|]]; try lia; auto.
  - intros [E|[E|[E|[E|[]]]]]; injection E as <- <- <-; lia.
Qed.
Lemma square_dist r p : distance square r p =
  let '(i, j, _) := r in let '(i', j', _) := p in sqrt ((INR i - INR i') ^ 2 + (INR j - INR j') ^ 2).
Proof. destruct r as [[i j] k], p as [[i' j'] k']. unfold distance. cbn [ev_dx ev_dy ev_dz square]. f_equal. ring. Qed.
Lemma sqrt2_range : 1 <= sqrt 2 < 2.
Proof. pose proof (sqrt_sqrt 2 ltac:(lra)). pose proof (sqrt_lt_R0 2 ltac:(lra)). nra. Qed.
Lemma square_far r : In r corners -> farthest square r (sqrt 2).
Proof.
  intros H. assert (exists q, in_grid square q /\ distance square r q = sqrt 2) as Q.
  { destruct H as [<-|[<-|[]]]; [exists (1, 1, 0)%nat|exists (0, 0, 0)%nat]; (split; [apply square_in; cbn; auto 10|]); rewrite square_dist; f_equal; cbn [INR]; ring. }
  split; [exact Q|]. intros p Hp. apply square_in in Hp. rewrite square_dist.
  destruct H as [<-|[<-|[]]]; destruct Hp as [<-|[<-|[<-|[<-|[]]]]]; apply sqrt_le_1_alt; cbn [INR]; lra.
Qed.
Lemma square_parts : parts (sqrt 2) 1 1.
Proof. pose proof sqrt2_range. unfold parts. cbn [INR Nat.add]. lra. Qed.
Lemma square_cells r : In r corners -> cells_in square r (sqrt 2) 1 0 four.
Proof.
  intros H. split.
  - unfold four. repeat constructor; cbn; intuition discriminate.
  - intros p. rewrite <- square_in. split; [|tauto]. intros Hp. split; [exact Hp|]. destruct (square_far r H) as [_ F]. specialize (F p Hp).
    assert (0 <= distance square r p) by apply (dist_nonneg square r p).
    split; [lia|]. cbn [INR Nat.add]. destruct (Req_EM_T (distance square r p) (sqrt 2)) as [E|E]; [right; split; auto|left]. 
    replace (sqrt 2 * 0 / 1) with 0 by field. replace (sqrt 2 * 1 / 1) with (sqrt 2) by field. lra.
Qed.
Lemma square_suits r : In r corners -> suits square 1 r.
Proof.
  intros H. split; [apply square_in; destruct H as [<-|[<-|[]]]; cbn; auto|]. exists (sqrt 2). split; [now apply square_far|]. apply sqrt2_range.
Qed.
Definition steady (s : nat) : option (list R) * nat := (Some [INR s; 1; 2; 3], S s).
Lemma c59_example : proper square /\ suits square 1 origin /\ (forall r, In r corners -> suits square 1 r) /\
  simulated steady (2 + 1) 0%nat = Some ([[0; 1; 2; 3]; [1; 1; 2; 3]; [2; 1; 2; 3]], 3%nat) /\
  farthest square origin (sqrt 2) /\ parts (sqrt 2) 1 1 /\
  (forall r, In r corners -> farthest square r (sqrt 2) /\ parts (sqrt 2) 1 1 /\ cells_in square r (sqrt 2) 1 0 four) /\
  filter (fun r => (0 <? 1)%nat) corners <> [] /\ four <> [].
Proof.
  split; [discriminate|]. split; [apply square_suits; now left|]. split; [apply square_suits|]. split.
  - cbn [Nat.add simulated steady INR]. replace (1 + 1) with 2 by ring. reflexivity.
  - split; [apply square_far; now left|]. split; [apply square_parts|]. split; [|split; discriminate].
    intros r H. split; [now apply square_far|]. split; [apply square_parts|now apply square_cells].
Qed.

(** noise for all simulations *)
Lemma noises_example n nmax : (0 < n)%nat ->
  expectation (Ex n) /\ Ex n (fun _ => 1) = 1 /\
  (forall w, List.length (repeat (nz n w) (2 + nmax)) = (2 + nmax)%nat /\ forall x, In x (repeat (nz n w) (2 + nmax)) -> List.length x = n) /\
  forall i, (i < 2 + nmax)%nat -> white (Ex n) n (fun w => nth i (repeat (nz n w) (2 + nmax)) []).
Proof.
  intros Hn. destruct (white_example n Hn) as (H1 & H2 & H3). split; [exact H1|]. split.
  - unfold Ex. assert (P : 0 < INR n) by (now apply lt_0_INR).
    assert (G : forall m, rsum m (fun _ : nat => 1 + 1) = 2 * INR m).
    { induction m as [|m IH]; [cbn; ring|]. rewrite S_INR. cbn [rsum]. rewrite IH. ring. }
    rewrite G. field. lra.
  - split.
    + intros w. split; [apply repeat_length|]. intros x Hx. apply repeat_spec in Hx. subst x. apply H2.
    + intros i Hi. assert (G : forall w, nth i (repeat (nz n w) (2 + nmax)) [] = nz n w).
      { intros w. apply (repeat_spec (2 + nmax) (nz n w)). apply nth_In. now rewrite repeat_length. }
      destruct H1 as (X1 & _). destruct H2 as [H2 H2']. split.
      * intros w. rewrite G. apply H2.
      * intros a b Ha Hb. rewrite <- (H2' a b Ha Hb). apply X1. intros w. now rewrite G.
Qed.

Lemma expo_ok (o : Z -> outcome Z) (cl : Z -> Z -> Z) : exists v : variogram (Rlib o cl),
  @CreateVariogram Rarith "exponential" 10 10 10 0 0 1 = Ok v /\ vt v = EXPONENTIAL.
Proof. eexists. split; reflexivity. Qed.

(** exponential variograms: above the correlation at the distance reported *)
Theorem c60_refuted : forall (o : Z -> outcome Z) (cl : Z -> Z -> Z) s main perp depth azi dp pw (v : variogram (Rlib o cl)),
  @CreateVariogram Rarith s main perp depth azi dp pw = Ok v -> 0 < main -> perp <> 0 -> depth <> 0 -> 0 < pw -> vt v = EXPONENTIAL ->
  forall nx n nmax (dx sx : R), (2 <= nx)%nat -> 0 < dx -> (0 < nmax)%nat -> (2 * nx <= n)%nat -> 99999 / 100000 <= sx ->
  forall (W : Type) (E : (W -> R) -> R) (noises : W -> list (list R)), expectation E -> E (fun _ => 1) = 1 ->
  (forall w, List.length (noises w) = (2 + nmax)%nat /\ forall x, In x (noises w) -> List.length x = n) ->
  (forall i, (i < 2 + nmax)%nat -> white E n (fun w => nth i (noises w) [])) ->
  forall k, (k < nx - 2)%nat ->
  exists est : W -> R,
    (forall w, exists distances estimates samples,
       estimate_variogram (next_field v nx n dx sx) (row nx dx (@GetCorr1 Rarith v)) nmax dx [origin] (noises w) = (Ret (distances, estimates, samples), []) /\
       nth k distances 0 = INR (k + 1) * dx /\ nth k estimates None = Some (est w)) /\
    @GetCorr1 Rarith v (INR (k + 1) * dx) < E est.
Proof.
  intros o cl s main perp depth azi dp pw v HC Hm Hp Hd Hw HT nx n nmax dx sx Hnx Hdx Hmx Hn Hsx W E noises HE HU HL HW k Hk.
  destruct (row_mean o cl s main perp depth azi dp pw v HC Hm Hp Hd Hw (or_introl HT) nx n nmax dx sx Hnx Hdx Hmx ltac:(lia) Hsx W E noises HE HU HL HW k Hk) as (est & E1 & E2).
  exists est. split; [exact E1|]. rewrite E2. replace (Nat.min k (n - k)) with k by lia.
  apply (corr_strict o cl s main perp depth azi dp pw v HC Hm Hp Hd Hw _ _ HT).
  assert (INR k < INR (k + 1)) by (apply lt_INR; lia). pose proof (pos_INR k). split; [apply Rmult_le_pos; lra|apply Rmult_lt_compat_r; lra].
Qed.
Theorem c66_refuted : forall (o : Z -> outcome Z) (cl : Z -> Z -> Z) s main perp depth azi dp pw (v : variogram (Rlib o cl)),
  @CreateVariogram Rarith s main perp depth azi dp pw = Ok v -> 0 < main -> perp <> 0 -> depth <> 0 -> 0 < pw -> vt v = EXPONENTIAL ->
  forall nx n nmax (dx sx : R), (2 <= nx)%nat -> 0 < dx -> (0 < nmax)%nat -> (2 * nx <= n)%nat -> 99999 / 100000 <= sx ->
  forall (W : Type) (E : (W -> R) -> R) (noises : W -> list (list R)), expectation E -> E (fun _ => 1) = 1 ->
  (forall w, List.length (noises w) = (2 + nmax)%nat /\ forall x, In x (noises w) -> List.length x = n) ->
  (forall i, (i < 2 + nmax)%nat -> white E n (fun w => nth i (noises w) [])) ->
  forall k, (k < nx - 2)%nat ->
  exists dev : W -> R,
    (forall w, exists d, analysed (next_field v nx n dx sx) (row nx dx (@GetCorr1 Rarith v)) nmax dx (noises w) = (Ret d, []) /\ nth k d None = Some (dev w)) /\
    0 < E dev.
Proof.
  intros o cl s main perp depth azi dp pw v HC Hm Hp Hd Hw HT nx n nmax dx sx Hnx Hdx Hmx Hn Hsx W E noises HE HU HL HW k Hk.
  destruct (analysed_mean o cl s main perp depth azi dp pw v HC Hm Hp Hd Hw (or_introl HT) nx n nmax dx sx Hnx Hdx Hmx ltac:(lia) Hsx W E noises HE HU HL HW k Hk) as (est & E1 & E2).
  exists est. split; [exact E1|]. rewrite E2. replace (Nat.min k (n - k)) with k by lia.
  assert (@GetCorr1 Rarith v (INR (k + 1) * dx) < @GetCorr1 Rarith v (INR k * dx)).
  { apply (corr_strict o cl s main perp depth azi dp pw v HC Hm Hp Hd Hw _ _ HT).
    assert (INR k < INR (k + 1)) by (apply lt_INR; lia). pose proof (pos_INR k). split; [apply Rmult_le_pos; lra|apply Rmult_lt_compat_r; lra]. }
  cbn in *; lra.
Qed.

(** whatever the fields *)
Theorem c60_first : forall nx dx corr (S : Type) (sim : S -> option (list R) * S) nmax s a b xs s', (3 <= nx)%nat -> 0 < dx -> (0 < nmax)%nat ->
  simulated sim (2 + nmax) s = Some (a :: b :: xs, s') -> (forall x, In x (a :: b :: xs) -> List.length x = nx) ->
  exists distances estimates samples, estimate_variogram sim (row nx dx corr) nmax dx [origin] s = (Ret (distances, estimates, samples), s') /\
    nth 0 distances 0 = dx /\ nth 0 estimates None = Some 1.
Proof.
  intros nx dx corr S sim nmax s a b xs s' Hnx Hdx Hm H Hl.
  destruct (row_estimate nx dx corr ltac:(lia) Hdx S sim nmax s a b xs s' Hm H Hl) as (ds & es & ns & E1 & _ & E3).
  exists ds, es, ns. split; [exact E1|]. destruct (E3 0%nat ltac:(lia)) as [-> ->]. split.
  - change (INR (0 + 1)) with 1. ring.
  - f_equal. rewrite (average_ext _ (fun _ => 1)).
    + apply average_const. intros ->. apply simulated_length in H. cbn in H. lia.
    + intros x _. field.
Qed.

(** the dummy data for an exponential correlation *)
Theorem c61_refuted : forall nx dx range nmax, (3 <= nx)%nat -> 0 < dx -> 0 < range -> (0 < nmax)%nat ->
  let corr := fun x => exp (- 3 * (x / range)) in
  exists distances estimates samples,
    estimate_variogram (patched (row nx dx corr)) (row nx dx corr) nmax dx [origin] tt = (Ret (distances, estimates, samples), tt) /\
    true_variogram (patched (row nx dx corr)) (row nx dx corr) dx tt = (Ret (distances, map corr distances), tt) /\
    forall k, (k < nx - 2)%nat -> exists y, nth k estimates None = Some y /\ corr (nth k distances 0) < y.
Proof.
  intros nx dx range nmax Hnx Hdx Hr Hm corr.
  assert (M : forall x y, x < y -> corr y < corr x).
  { intros x y H. unfold corr. apply exp_increasing. assert (x / range < y / range) by (apply Rmult_lt_compat_r; [now apply Rinv_0_lt_compat|auto]). lra. }
  destruct (dummy_row nx dx corr nmax Hnx Hdx Hm) as (ds & es & ns & E1 & E2 & E3).
  - unfold corr. replace (-3 * (0 / range)) with 0 by (field; lra). apply exp_0.
  - intros x Hx. destruct (Rle_lt_or_eq_dec 0 x Hx) as [H|<-].
    + apply Rlt_le. replace 1 with (corr 0); [now apply M|]. unfold corr. replace (-3 * (0 / range)) with 0 by (field; lra). apply exp_0.
    + unfold corr. replace (-3 * (0 / range)) with 0 by (field; lra). rewrite exp_0. lra.
  - exists ds, es, ns. split; [exact E1|]. split; [exact E2|]. intros k Hk. destruct (E3 k Hk) as [E4 E5]. exists (corr (INR k * dx)).
    split; [exact E5|]. rewrite E4. apply M. apply Rmult_lt_compat_r; [lra|]. apply lt_INR. lia.
Qed.

(** the last deviation and the last ten simulations *)
Theorem c65_last : forall nx dx corr (S : Type) (sim : S -> option (list R) * S) nmax s a b xs s', (2 <= nx)%nat -> 0 < dx -> (0 < nmax)%nat ->
  simulated sim (2 + nmax) s = Some (a :: b :: xs, s') -> (forall x, In x (a :: b :: xs) -> List.length x = nx) ->
  exists d m, analysed sim (row nx dx corr) nmax dx s = (Ret d, s') /\ List.length d = (nx - 1)%nat /\
  (m <= nmax < m + 10)%nat /\ (m mod 10 = 1)%nat /\
  forall k, (k < nx - 2)%nat ->
    nth k d None = Some (average (map (fun x => 1 - (nth k x 0 - nth 0 x 0) ^ 2 / 2) (firstn m xs)) - corr (INR (k + 1) * dx)).
Proof.
  intros nx dx corr S sim nmax s a b xs s' Hnx Hdx Hm H Hl.
  destruct (row_analysed nx dx corr S sim nmax s a b xs s' Hnx Hdx Hm H Hl) as (d & E1 & E2 & E3).
  exists d, (10 * ((nmax - 1) / 10) + 1)%nat. split; [exact E1|]. split; [exact E2|]. split; [|split; [|exact E3]].
  - pose proof (Nat.div_mod (nmax - 1) 10 ltac:(lia)). pose proof (Nat.mod_upper_bound (nmax - 1) 10 ltac:(lia)). lia.
  - rewrite Nat.add_comm, Nat.mul_comm, Nat.mod_add by lia. reflexivity.
Qed.

(** the points of EmpiricalVariogram2 *)
Lemma points_ok nx ny nz corr : INR nx <= 2000000000 -> INR ny <= 2000000000 -> INR nz <= 2000000000 ->
  let e := unit_ev nx ny nz corr in
  (forall r, NoDup (short_points e r)) /\ (forall step, NoDup (sample_points e step)) /\
  (forall p, in_grid e p -> distance e origin p <= 5000000000) /\
  (forall r p, In p (short_points e r) <-> in_grid e p /\ distance e origin p < r) /\
  (forall step p, In p (sample_points e step) <-> in_grid e p /\ let '(i, j, k) := p in (i mod step = 0 /\ j mod step = 0 /\ k mod step = 0)%nat).
Proof.
  intros Hx Hy Hz e. split; [|split; [|split; [|split]]].
  - intros r. apply NoDup_filter, nodup_cells.
  - intros s. apply NoDup_filter, nodup_cells.
  - intros [[i j] k] (Hi & Hj & Hk). cbn in Hi, Hj, Hk. change (dist e origin (i, j, k) <= 5000000000). unfold e. rewrite unit_dist. unfold sq.
    apply lt_INR in Hi, Hj, Hk. pose proof (pos_INR i). pose proof (pos_INR j). pose proof (pos_INR k).
    rewrite <- (sqrt_pow2 5000000000) by lra. apply sqrt_le_1_alt. rewrite !plus_INR, !mult_INR.
    assert (A : forall a, 0 <= a <= 2000000000 -> a * a <= 2000000000 * 2000000000) by (intros; apply Rmult_le_compat; lra).
    pose proof (A (INR i) ltac:(lra)). pose proof (A (INR j) ltac:(lra)). pose proof (A (INR k) ltac:(lra)). lra.
  - intros r p. unfold short_points. rewrite filter_In, in_tuple. change (dist e origin p) with (distance e origin p).
    destruct (Rlt_dec (distance e origin p) r); split; intros [H1 H2]; split; auto; try discriminate; contradiction.
  - intros s [[i j] k]. unfold sample_points. rewrite filter_In, in_tuple, !andb_true_iff, !Nat.eqb_eq. tauto.
Qed.
