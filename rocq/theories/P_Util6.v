(** Reference points. *)
From Coq Require Import ZArith List Bool Reals Lia Lra.
From Verif Require Import M_Util S_Util P_Base P_Util.
Import ListNotations.

Lemma nodup_map_in {A B} (f : A -> B) l : NoDup l -> (forall x y, In x l -> In y l -> f x = f y -> x = y) -> NoDup (map f l).
Proof.
  induction 1 as [|x l Hx Hl IH]; intros H; cbn [map]; constructor.
  - rewrite in_map_iff. intros (y & E & Hy). apply H in E; [subst; contradiction|now right|now left].
  - apply IH. intros a b Ha Hb. apply H; now right.
Qed.

Lemma picked (e : ev) ps : NoDup ps -> (forall k, In k ps -> (k < ev_nx e * ev_ny e * ev_nz e)%nat) ->
  NoDup (map (fun k => nth k (tuple_indexes e) origin) ps) /\
  forall p, In p (map (fun k => nth k (tuple_indexes e) origin) ps) -> in_grid e p.
Proof.
  intros N H. assert (L : length (tuple_indexes e) = (ev_nx e * ev_ny e * ev_nz e)%nat) by apply length_cells. split.
  - apply nodup_map_in; auto. intros x y Hx Hy E. eapply NoDup_nth; [apply nodup_cells| | |exact E]; fold (tuple_indexes e); rewrite L; auto.
  - intros p Hp. apply in_map_iff in Hp as (k & <- & Hk). apply in_tuple. apply nth_In. rewrite L. auto.
Qed.

Lemma c63_all (e : ev) : exists l, pick_reference_points e All = Ret l /\ NoDup l /\ forall p, In p l <-> in_grid e p.
Proof. eexists. split; [reflexivity|]. split; [apply nodup_cells|]. intros p. apply in_tuple. Qed.
Lemma c63_one e st : (0 < ev_nx e)%nat -> (0 < ev_ny e)%nat -> (0 < ev_nz e)%nat -> st = Origo \/ st = Center ->
  exists p, pick_reference_points e st = Ret [p] /\ in_grid e p.
Proof.
  intros Hx Hy Hz [->| ->]; eexists; (split; [reflexivity|]); unfold in_grid, origin; repeat split; auto; apply Nat.div_lt; lia.
Qed.
Lemma c63_random e ps : NoDup ps -> (forall k, In k ps -> (k < ev_nx e * ev_ny e * ev_nz e)%nat) ->
  exists l, pick_reference_points e (Random ps) = Ret l /\ NoDup l /\ (forall p, In p l -> in_grid e p) /\ length l = length ps.
Proof.
  intros N H. eexists. split; [reflexivity|]. destruct (picked e ps N H) as [A B]. split; [exact A|]. split; [exact B|]. apply map_length.
Qed.

Open Scope Z_scope.
Lemma c63_regular e n offset : let N := Z.of_nat (ev_nx e * ev_ny e * ev_nz e) in 1 <= n <= N -> 0 <= offset < N ->
  exists l, pick_reference_points e (Regular n offset) = Ret l /\ NoDup l /\ (forall p, In p l -> in_grid e p) /\ l <> [] /\
    (offset = 0 -> n <= Z.of_nat (length l) < 2 * n) /\ (offset < N / n -> n <= Z.of_nat (length l) < 2 * n).
Proof.
  intros N Hn Ho. cbn [pick_reference_points]. assert (L : length (tuple_indexes e) = (ev_nx e * ev_ny e * ev_nz e)%nat) by apply length_cells.
  rewrite L. fold N. destruct (Z.eqb_spec n 0); [lia|]. rewrite Z.quot_div_nonneg by lia. set (q := N / n).
  assert (Hq : 1 <= q) by (apply Z.div_le_lower_bound; lia).
  assert (Hr : N = q * n + N mod n) by (rewrite Z.mul_comm; apply Z.div_mod; lia).
  pose proof (Z.mod_pos_bound N n ltac:(lia)) as Hm. set (r := N mod n) in *.
  destruct (Z.eqb_spec q 0); [lia|]. eexists. split; [reflexivity|].
  unfold slice_from. fold N. destruct (Z.ltb_spec 0 q); [|lia]. destruct (Z.ltb_spec offset 0); [lia|].
  unfold clamp. rewrite Z.min_r, Z.max_r by lia. set (c := (N - offset + q - 1) / q).
  assert (Hc1 : 1 <= c) by (apply Z.div_le_lower_bound; lia).
  assert (Hc2 : c * q <= N - offset + q - 1) by (rewrite Z.mul_comm; apply Z.mul_div_le; lia).
  assert (Hc3 : N - offset + q - 1 < (c + 1) * q).
  { pose proof (Z.mod_pos_bound (N - offset + q - 1) q ltac:(lia)). pose proof (Z.div_mod (N - offset + q - 1) q ltac:(lia)). fold c in H2. nia. }
  destruct (picked e (map (fun k => Z.to_nat (offset + Z.of_nat k * q)) (seq 0 (Z.to_nat c)))) as [A B].
  - apply nodup_map_in; [apply seq_NoDup|]. intros x y _ _ E. apply Z2Nat.inj in E; nia.
  - intros k Hk. apply in_map_iff in Hk as (t & <- & Ht). apply in_seq in Ht. apply Nat2Z.inj_lt. fold N. rewrite Z2Nat.id by nia.
    assert (Z.of_nat t <= c - 1) by lia. nia.
  - split; [exact A|]. split; [exact B|]. rewrite !map_length, seq_length, Z2Nat.id by lia.
    assert (G : offset < q -> n <= c < 2 * n).
    { intros Ho2. split.
      - assert (n < c + 1); [|lia]. apply Z.mul_lt_mono_pos_r with q; [lia|]. nia.
      - assert (c - 1 < 2 * n - 1); [|lia]. apply Z.mul_lt_mono_pos_r with q; [lia|]. nia. }
    split; [|split].
    + intros E. apply (f_equal (@length cell)) in E. rewrite !map_length, seq_length in E. cbn in E. lia.
    + intros ->. apply G. lia.
    + exact G.
Qed.
Lemma c63_errors e offset : 
  pick_reference_points e (Regular 0 offset) = Raise ZeroDivision /\
  forall n, Z.of_nat (ev_nx e * ev_ny e * ev_nz e) < n -> pick_reference_points e (Regular n offset) = Raise ValueError.
Proof.
  split; [reflexivity|]. intros n Hn. cbn [pick_reference_points]. destruct (Z.eqb_spec n 0); [lia|].
  replace (length (tuple_indexes e)) with (ev_nx e * ev_ny e * ev_nz e)%nat by (symmetry; apply length_cells).
  rewrite Z.quot_small by lia. reflexivity.
Qed.

(** a grid with one row in y and several in z *)
Lemma c64 (S : Type) (sim : S -> option (list R) * S) e nmax resolution refs s : ev_ny e = 1%nat -> (1 < ev_nz e)%nat -> (0 < ev_nx e)%nat ->
  exists x s', estimate_variogram sim e nmax resolution refs s = (Raise x, s').
Proof.
  intros Hy Hz Hx. unfold estimate_variogram, find_midpoints, mbind at 1, simulate. 
  unfold mbind at 1. destruct (sim s) as [[l|] s1]; [|eauto]. destruct (reshape e l) as [g|x]; [|eauto].
  unfold mbind at 1, lift, binned_variogram_statistics, calculate_deltas. rewrite Hy. cbn [Nat.eqb].
  destruct (Nat.eqb_spec (ev_nz e) 1); [lia|]. destruct (Nat.eqb_spec (ev_nx e) 0); [lia|]. cbn [andb negb rbind]. eauto.
Qed.

(** offsets beyond the grid, and negative ones *)
Open Scope Z_scope.
Lemma c62_offsets e n offset : let N := Z.of_nat (ev_nx e * ev_ny e * ev_nz e) in 1 <= n <= N ->
  (0 <= offset < N -> pick_reference_points e (Regular n (offset - N)) = pick_reference_points e (Regular n offset)) /\
  (offset < - N -> pick_reference_points e (Regular n offset) = pick_reference_points e (Regular n 0)) /\
  (N <= offset -> pick_reference_points e (Regular n offset) = Ret []).
Proof.
  intros N Hn. cbn [pick_reference_points]. assert (L : length (tuple_indexes e) = (ev_nx e * ev_ny e * ev_nz e)%nat) by apply length_cells.
  rewrite L. fold N. destruct (Z.eqb_spec n 0); [lia|]. rewrite Z.quot_div_nonneg by lia. set (q := N / n).
  assert (Hq : 1 <= q) by (apply Z.div_le_lower_bound; lia). destruct (Z.eqb_spec q 0); [lia|].
  unfold slice_from. fold N. destruct (Z.ltb_spec 0 q); [|lia]. unfold clamp. repeat split; intros Ho.
  - destruct (Z.ltb_spec (offset - N) 0); [|lia]. destruct (Z.ltb_spec offset 0); [lia|]. now replace (offset - N + N) with offset by lia.
  - destruct (Z.ltb_spec offset 0); [|lia]. cbn [Z.ltb Z.compare]. rewrite (Z.min_r N (offset + N)), (Z.max_l 0 (offset + N)), (Z.min_r N 0) by lia. reflexivity.
  - destruct (Z.ltb_spec offset 0); [lia|]. rewrite Z.min_l, Z.max_r by lia. replace (N - N + q - 1) with (q - 1) by lia. rewrite Z.div_small by lia. reflexivity.
Qed.
(** a negative number of points walks backwards from the offset *)
Lemma c62_backwards e n offset : let N := Z.of_nat (ev_nx e * ev_ny e * ev_nz e) in 1 <= n <= N ->
  exists l, pick_reference_points e (Regular (- n) offset) = Ret l /\ NoDup l /\ (forall p, In p l -> in_grid e p) /\
    (offset = -1 -> n <= Z.of_nat (length l) < 2 * n) /\ (offset = 0 -> l = [origin]).
Proof.
  intros N Hn. cbn [pick_reference_points]. assert (L : length (tuple_indexes e) = (ev_nx e * ev_ny e * ev_nz e)%nat) by apply length_cells.
  rewrite L. fold N. destruct (Z.eqb_spec (- n) 0); [lia|]. rewrite Z.quot_opp_r by lia. rewrite Z.quot_div_nonneg by lia. set (q := N / n).
  assert (Hq : 1 <= q) by (apply Z.div_le_lower_bound; lia).
  assert (Hr : N = q * n + N mod n) by (rewrite Z.mul_comm; apply Z.div_mod; lia).
  pose proof (Z.mod_pos_bound N n ltac:(lia)) as Hm. set (r := N mod n) in *.
  destruct (Z.eqb_spec (- q) 0); [lia|]. eexists. split; [reflexivity|].
  unfold slice_from. fold N. destruct (Z.ltb_spec 0 (- q)); [lia|].
  set (s := clamp (-1) (N - 1) (if offset <? 0 then offset + N else offset)).
  assert (Hs : -1 <= s <= N - 1) by (unfold s, clamp; lia). replace (s + 1 - - q - 1) with (s + q) by lia. rewrite Z.opp_involutive. set (c := (s + q) / q).
  assert (Hc0 : 0 <= c) by (apply Z.div_pos; lia).
  assert (Hc2 : c * q <= s + q) by (rewrite Z.mul_comm; apply Z.mul_div_le; lia).
  assert (Hc3 : s + q < (c + 1) * q).
  { pose proof (Z.mod_pos_bound (s + q) q ltac:(lia)). pose proof (Z.div_mod (s + q) q ltac:(lia)). fold c in H1. nia. }
  destruct (picked e (map (fun k => Z.to_nat (s + Z.of_nat k * - q)) (seq 0 (Z.to_nat c)))) as [A B].
  - apply nodup_map_in; [apply seq_NoDup|]. intros x y Hx Hy E. apply in_seq in Hx, Hy. assert (Z.of_nat x <= c - 1) by lia. assert (Z.of_nat y <= c - 1) by lia. apply Z2Nat.inj in E; nia.
  - intros k Hk. apply in_map_iff in Hk as (t & <- & Ht). apply in_seq in Ht. apply Nat2Z.inj_lt. fold N. assert (Z.of_nat t <= c - 1) by lia. rewrite Z2Nat.id by nia. nia.
  - split; [exact A|]. split; [exact B|]. rewrite !map_length, seq_length, Z2Nat.id by lia. split.
    + intros Eo. assert (Es : s = N - 1) by (unfold s, clamp; subst offset; cbn [Z.ltb Z.compare]; lia). rewrite Es in *. split.
      * assert (n < c + 1); [|lia]. apply Z.mul_lt_mono_pos_r with q; [lia|]. nia.
      * assert (c - 1 < 2 * n - 1); [|lia]. apply Z.mul_lt_mono_pos_r with q; [lia|]. nia.
    + intros Eo. assert (Es : s = 0) by (unfold s, clamp; subst offset; cbn [Z.ltb Z.compare]; lia).
      assert (Ec : c = 1) by (unfold c; rewrite Es; cbn [Z.add]; apply Z.div_same; lia). rewrite Ec, Es. cbn.
      assert (X : (0 < length (tuple_indexes e))%nat) by (rewrite L; lia).
      unfold tuple_indexes, find_indexes. destruct (ev_nx e) as [|a], (ev_ny e) as [|b], (ev_nz e) as [|d]; try lia. reflexivity.
Qed.
