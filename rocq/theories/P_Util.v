(** Cells, distances and bins. *)
From Coq Require Import ZArith List Bool Reals Lia Lra Permutation.
From Flocq Require Import Core.Raux.
From Verif Require Import M_Util S_Util.
Import ListNotations.
Open Scope R_scope.

Lemma in_cells nx ny nz i j k : In (i, j, k) (find_indexes nx ny nz) <-> (i < nx /\ j < ny /\ k < nz)%nat.
Proof.
  unfold find_indexes. rewrite in_map_iff. split.
  - intros ([i' [j' k']] & E & H). injection E as -> -> ->. apply in_prod_iff in H as [H1 H2]. apply in_prod_iff in H2 as [H2 H3].
    apply in_seq in H1, H2, H3. lia.
  - intros H. exists (i, (j, k)). split; [reflexivity|]. rewrite !in_prod_iff, !in_seq. lia.
Qed.
Lemma in_tuple e p : In p (tuple_indexes e) <-> in_grid e p.
Proof. destruct p as [[i j] k]. apply in_cells. Qed.

Lemma nodup_prod {S T} (l : list S) (l' : list T) : NoDup l -> NoDup l' -> NoDup (list_prod l l').
Proof.
  intros Hl Hl'. induction Hl as [|x l Hx Hl IH]; cbn [list_prod]; [constructor|].
  assert (A : forall m : list T, NoDup m -> NoDup (map (fun y => (x, y)) m)).
  { induction 1; cbn [map]; constructor; auto. rewrite in_map_iff. intros (y & E & Hy). injection E as ->. contradiction. }
  specialize (A l' Hl').
  assert (Hm : forall a b, In (a, b) (map (fun y : T => (x, y)) l') -> x = a).
  { intros a b H. apply in_map_iff in H as (y & E & _). now injection E. }
  revert Hm A. generalize (map (fun y : T => (x, y)) l').
  intros m Hm A. induction A as [|[a b] m Ha A IHm]; cbn [app]; [exact IH|].
  constructor; [|apply IHm; intros a0 b0 H0; apply (Hm a0 b0); right; exact H0].
  rewrite in_app_iff. intros [H|H]; [contradiction|].
  pose proof (Hm a b (or_introl eq_refl)) as E. subst a. apply in_prod_iff in H as [H _]. contradiction.
Qed.
Lemma nodup_cells nx ny nz : NoDup (find_indexes nx ny nz).
Proof.
  unfold find_indexes. assert (N : NoDup (list_prod (seq 0 nx) (list_prod (seq 0 ny) (seq 0 nz)))).
  { repeat apply nodup_prod; apply seq_NoDup. }
  revert N. generalize (list_prod (seq 0 nx) (list_prod (seq 0 ny) (seq 0 nz))) as l.
  induction 1 as [|[i [j k]] l H N IH]; cbn [map]; constructor; auto.
  rewrite in_map_iff. intros ([i' [j' k']] & E & H'). injection E as -> -> ->. contradiction.
Qed.
Lemma length_cells nx ny nz : length (find_indexes nx ny nz) = (nx * ny * nz)%nat.
Proof. unfold find_indexes. rewrite map_length, !prod_length, !seq_length. lia. Qed.

Lemma cell_eqb_eq p q : cell_eqb p q = true <-> p = q.
Proof.
  destruct p as [[i j] k], q as [[i' j'] k']. unfold cell_eqb. rewrite !andb_true_iff, !Nat.eqb_eq. split; [|intros E; injection E; auto].
  intros [[-> ->] ->]. reflexivity.
Qed.
Lemma exists_cell e p : existsb (cell_eqb p) (tuple_indexes e) = true <-> in_grid e p.
Proof.
  rewrite existsb_exists, <- in_tuple. split.
  - intros (q & H & E). apply cell_eqb_eq in E. now subst.
  - intros H. exists p. split; auto. now apply cell_eqb_eq.
Qed.

(** distances *)
Lemma dist_nonneg e p q : 0 <= dist e p q.
Proof. destruct p as [[i j] k], q as [[i' j'] k']. apply sqrt_pos. Qed.
Lemma dist_self e p : dist e p p = 0.
Proof. destruct p as [[i j] k]. unfold dist. rewrite !Rminus_eq_0. replace (0 ^ 2 + 0 ^ 2 + 0 ^ 2) with 0 by ring. apply sqrt_0. Qed.

Lemma diff2_le d i i' n : (i < n)%nat -> (i' < n)%nat -> (d * INR i - d * INR i') ^ 2 <= (d * 0 - d * INR (n - 1)) ^ 2.
Proof.
  intros H H'. assert (0 <= d * d) by apply Rle_0_sqr.
  assert (A : (INR i - INR i') ^ 2 <= INR (n - 1) ^ 2).
  { assert (INR i <= INR (n - 1)) by (apply le_INR; lia). assert (INR i' <= INR (n - 1)) by (apply le_INR; lia).
    pose proof (pos_INR i). pose proof (pos_INR i'). nra. }
  replace ((d * INR i - d * INR i') ^ 2) with (d * d * (INR i - INR i') ^ 2) by ring.
  replace ((d * 0 - d * INR (n - 1)) ^ 2) with (d * d * INR (n - 1) ^ 2) by ring. nra.
Qed.

Definition last_cell (e : ev) : cell := (ev_nx e - 1, ev_ny e - 1, ev_nz e - 1)%nat.
Lemma dist_diag e p q : in_grid e p -> in_grid e q -> dist e p q <= dist e origin (last_cell e).
Proof.
  destruct p as [[i j] k], q as [[i' j'] k']. cbn [in_grid]. intros (Hi & Hj & Hk) (Hi' & Hj' & Hk').
  unfold dist, origin, last_cell. apply sqrt_le_1_alt. change (INR 0) with 0.
  pose proof (diff2_le (ev_dx e) i i' _ Hi Hi'). pose proof (diff2_le (ev_dy e) j j' _ Hj Hj').
  pose proof (diff2_le (ev_dz e) k k' _ Hk Hk'). lra.
Qed.
Lemma last_in e p : in_grid e p -> in_grid e (last_cell e).
Proof. destruct p as [[i j] k]. cbn. lia. Qed.
Lemma origin_in e p : in_grid e p -> in_grid e origin.
Proof. destruct p as [[i j] k]. cbn. lia. Qed.

Lemma maximum_ge l x : In x l -> x <= maximum l.
Proof.
  induction l as [|y l IH]; [intros []|]. cbn [maximum fold_right]. intros [->|H]; [apply Rmax_l|].
  apply Rle_trans with (maximum l); [auto|apply Rmax_r].
Qed.
Lemma maximum_in l : (forall x, In x l -> 0 <= x) -> l <> [] -> In (maximum l) l.
Proof.
  induction l as [|y l IH]; [congruence|]. intros Hp _. cbn [maximum fold_right].
  assert (P : 0 <= y) by (apply Hp; now left).
  destruct l as [|z l].
  - cbn. left. unfold Rmax. destruct (Rle_dec y 0); lra.
  - specialize (IH ltac:(intros; apply Hp; now right) ltac:(congruence)). change (fold_right Rmax 0 (z :: l)) with (maximum (z :: l)).
    unfold Rmax. destruct (Rle_dec y (maximum (z :: l))); [now right|now left].
Qed.

Definition far (e : ev) (ref : cell) : R := maximum (map (dist e ref) (tuple_indexes e)).
Lemma far_is e ref : in_grid e ref -> farthest e ref (far e ref).
Proof.
  intros H. unfold far. split.
  - assert (I : In (maximum (map (dist e ref) (tuple_indexes e))) (map (dist e ref) (tuple_indexes e))).
    { apply maximum_in.
      - intros x Hx. apply in_map_iff in Hx as (p & <- & _). apply dist_nonneg.
      - intros E. apply map_eq_nil in E. apply in_tuple in H. rewrite E in H. destruct H. }
    apply in_map_iff in I as (p & E & I). exists p. split; [now apply in_tuple|exact E].
  - intros p Hp. apply maximum_ge. apply in_map_iff. exists p. split; auto. now apply in_tuple.
Qed.
Lemma farthest_unique e ref m m' : farthest e ref m -> farthest e ref m' -> m = m'.
Proof. intros [(p & Hp & <-) H1] [(p' & Hp' & <-) H2]. apply Rle_antisym; auto. Qed.
Lemma farthest_eq e ref m : in_grid e ref -> farthest e ref m -> far e ref = m.
Proof. intros H Hm. apply (farthest_unique e ref); auto using far_is. Qed.
Lemma far_le_origin e ref : in_grid e ref -> far e ref <= far e origin.
Proof.
  intros H. destruct (far_is e ref H) as [(p & Hp & <-) _].
  apply Rle_trans with (dist e origin (last_cell e)); [now apply dist_diag|].
  destruct (far_is e origin (origin_in e ref H)) as [_ F]. apply F. now apply (last_in e ref).
Qed.

(** bins *)
Lemma parts_trunc m r nb : 0 < r -> 0 <= m -> (parts m r nb <-> Ztrunc (m / r) = Z.of_nat nb).
Proof.
  intros Hr Hm. assert (0 <= m / r) by (apply Rmult_le_pos; [lra|left; now apply Rinv_0_lt_compat]).
  rewrite Ztrunc_floor by auto. unfold parts.
  assert (A : m / r * r = m) by (field; lra).
  rewrite plus_INR, !INR_IZR_INZ. split.
  - intros [H1 H2]. apply Zfloor_imp. rewrite plus_IZR. change (IZR (Z.of_nat 1)) with 1 in H2. split.
    + apply Rmult_le_reg_r with r; [auto|]. rewrite A. lra.
    + apply Rmult_lt_reg_r with r; [auto|]. rewrite A. lra.
  - intros E. rewrite <- E. change (IZR (Z.of_nat 1)) with 1. pose proof (Zfloor_lb (m / r)). pose proof (Zfloor_ub (m / r)).
    split.
    + rewrite <- A at 2. apply Rmult_le_compat_r; lra.
    + rewrite <- A at 1. apply Rmult_lt_compat_r; lra.
Qed.

Lemma bin_part m nb k x : 0 < m -> (0 < nb)%nat -> 0 <= x <= m -> (k < nb)%nat -> (bin_of m nb x = k <-> in_part m nb k x).
Proof.
  intros Hm Hn Hx Hk. unfold bin_of, in_part.
  assert (Hnb : 0 < INR nb) by (apply lt_0_INR; auto).
  destruct (Rle_dec m x) as [Hge|Hlt].
  - assert (x = m) by lra. subst x. split.
    + intros <-. split; [lia|]. right. split; [lia|reflexivity].
    + intros [_ [[_ H]|[H _]]]; [|lia]. exfalso.
      assert (m * INR (k + 1) / INR nb <= m); [|lra].
      unfold Rdiv. apply Rmult_le_reg_r with (INR nb); [auto|]. rewrite Rmult_assoc, Rinv_l, Rmult_1_r by lra.
      apply Rmult_le_compat_l; [lra|]. apply le_INR. lia.
  - assert (P : 0 <= x * INR nb / m) by (apply Rmult_le_pos; [apply Rmult_le_pos; lra|left; now apply Rinv_0_lt_compat]).
    assert (A : forall y, y <= x * INR nb / m <-> m * y / INR nb <= x).
    { intros y. split; intros H.
      - apply Rmult_le_reg_r with (INR nb); [auto|]. unfold Rdiv. rewrite Rmult_assoc, Rinv_l, Rmult_1_r by lra.
        apply Rmult_le_compat_l with (r := m) in H; [|lra]. replace (m * (x * INR nb / m)) with (x * INR nb) in H by (field; lra). exact H.
      - apply Rmult_le_reg_l with m; [auto|]. replace (m * (x * INR nb / m)) with (x * INR nb) by (field; lra).
        apply Rmult_le_compat_r with (r := INR nb) in H; [|lra]. unfold Rdiv in H. rewrite Rmult_assoc, Rinv_l, Rmult_1_r in H by lra. exact H. }
    assert (F : Zfloor (x * INR nb / m) = Z.of_nat k <-> m * INR k / INR nb <= x < m * INR (k + 1) / INR nb).
    { rewrite (INR_IZR_INZ k), (INR_IZR_INZ (k + 1)), Nat2Z.inj_add, plus_IZR. change (IZR (Z.of_nat 1)) with 1. split.
      - intros E. rewrite <- E. split; [apply A, Zfloor_lb|]. apply Rnot_le_lt. intros H. apply A in H.
        pose proof (Zfloor_ub (x * INR nb / m)). lra.
      - intros [H1 H2]. apply Zfloor_imp. rewrite plus_IZR. split; [now apply A|]. apply Rnot_le_lt. intros H. apply A in H. lra. }
    assert (0 <= Zfloor (x * INR nb / m))%Z by (apply Zfloor_lub; exact P).
    split.
    + intros <-. split; [exact Hk|]. left. apply F. lia.
    + intros [_ [H0|[_ H0]]]; [|lra]. apply F in H0. lia.
Qed.
