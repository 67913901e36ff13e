(** Groups of cells at the same distance. *)
From Coq Require Import ZArith List Bool Reals Lia Lra Permutation.
From Verif Require Import S_Spectrum M_Util S_Util P_Base P_Util P_Util2 P_Util3.
Import ListNotations.
Open Scope R_scope.

Section Sep.
Variable d : list R.
Hypothesis Hsep : forall i j, (i < length d)%nat -> (j < length d)%nat -> near (nth i d 0) (nth j d 0) = true -> nth i d 0 = nth j d 0.

Lemma near_refl x : near x x = true.
Proof. unfold near. rewrite Rminus_eq_0, Rabs_R0. destruct (Rlt_dec 0 (1 / 10000000000)); [reflexivity|lra]. Qed.

Definition level (x : R) : list nat := filter (fun j => if Req_EM_T (nth j d 0) x then true else false) (seq 0 (length d)).
Lemma in_level x j : In j (level x) <-> (j < length d)%nat /\ nth j d 0 = x.
Proof.
  unfold level. rewrite filter_In, in_seq. destruct (Req_EM_T (nth j d 0) x); split; intros H; try (destruct H; split; auto; lia).
Qed.
Lemma grow_level l x : (forall i, In i l -> (i < length d)%nat /\ nth i d 0 = x) -> l <> [] -> grow d l = level x.
Proof.
  intros H Hl. unfold grow, level. apply filter_ext_in. intros j Hj. apply in_seq in Hj.
  destruct (Req_EM_T (nth j d 0) x) as [E|E].
  - apply existsb_exists. destruct l as [|i l]; [congruence|]. exists i. split; [now left|].
    destruct (H i (or_introl eq_refl)) as [_ ->]. rewrite E. apply near_refl.
  - apply not_true_iff_false. rewrite existsb_exists. intros (i & Hi & Hn). destruct (H i Hi) as [Hi1 Hi2].
    apply Hsep in Hn; auto; [congruence|lia].
Qed.
Lemma component_level i : (i < length d)%nat -> component d i = level (nth i d 0).
Proof.
  intros Hi. unfold component. assert (N : level (nth i d 0) <> []).
  { intros E. assert (I : In i (level (nth i d 0))) by now apply in_level. rewrite E in I. destruct I. }
  rewrite (grow_level [i] (nth i d 0)); [|intros j [<-|[]]; auto|discriminate].
  generalize (length d) at 1. intros k. induction k as [|k IH]; [reflexivity|].
  change (Nat.iter (S k) (grow d) (level (nth i d 0))) with (grow d (Nat.iter k (grow d) (level (nth i d 0)))). rewrite IH.
  apply grow_level; auto. intros j Hj. now apply in_level.
Qed.

Definition firsts : list nat := filter (fun i => (hd (length d) (component d i) =? i)%nat) (seq 0 (length d)).

Lemma filter_hd (f : nat -> bool) n b df : (exists i, (b <= i < b + n)%nat /\ f i = true) ->
  let h := hd df (filter f (seq b n)) in (b <= h < b + n)%nat /\ f h = true /\ forall j, (b <= j < h)%nat -> f j = false.
Proof.
  revert b. induction n as [|n IH]; intros b (i & Hi & Hf); [lia|]. cbn [seq filter]. destruct (f b) eqn:E.
  - cbn [hd]. repeat split; auto; lia.
  - destruct (IH (S b)) as (H1 & H2 & H3).
    + exists i. split; auto. assert (i <> b) by congruence. lia.
    + repeat split; auto; try lia. intros j Hj. destruct (Nat.eq_dec j b) as [->|]; auto. apply H3. lia.
Qed.
Lemma level_hd i : (i < length d)%nat -> let h := hd (length d) (component d i) in
  (h < length d)%nat /\ nth h d 0 = nth i d 0 /\ In h firsts.
Proof.
  intros Hi. rewrite component_level by auto.
  destruct (filter_hd (fun j => if Req_EM_T (nth j d 0) (nth i d 0) then true else false) (length d) 0 (length d)) as (H1 & H2 & H3).
  - exists i. split; [lia|]. destruct (Req_EM_T (nth i d 0) (nth i d 0)); congruence.
  - fold (level (nth i d 0)) in *. cbv zeta. set (h := hd (length d) (level (nth i d 0))) in *.
    assert (E : nth h d 0 = nth i d 0) by (destruct (Req_EM_T (nth h d 0) (nth i d 0)); [auto|discriminate]).
    repeat split; auto; [lia|]. apply filter_In. split; [apply in_seq; lia|]. rewrite component_level by lia. rewrite E. apply Nat.eqb_refl.
Qed.
Lemma in_firsts i : In i firsts <-> (i < length d)%nat /\ hd (length d) (component d i) = i.
Proof. unfold firsts. rewrite filter_In, in_seq, Nat.eqb_eq. intuition lia. Qed.

Lemma group_dists_eq : group_dists d = map (fun i => nth i d 0) firsts.
Proof.
  unfold group_dists, distance_groups. fold firsts. rewrite map_map. apply map_ext_in. intros i Hi. apply in_firsts in Hi as [Hi1 Hi2].
  f_equal. destruct (component d i) as [|h l] eqn:E; cbn [hd] in *; [lia|exact Hi2].
Qed.
Lemma groups_eq : distance_groups d = map level (group_dists d).
Proof.
  rewrite group_dists_eq. unfold distance_groups. fold firsts. rewrite map_map. apply map_ext_in. intros i Hi. apply in_firsts in Hi as [Hi1 _].
  now apply component_level.
Qed.
Lemma group_dists_nodup : NoDup (group_dists d).
Proof.
  rewrite group_dists_eq.
  assert (N : NoDup firsts) by (apply NoDup_filter, seq_NoDup).
  assert (I : forall x y, In x firsts -> In y firsts -> nth x d 0 = nth y d 0 -> x = y).
  { intros x y Hx Hy E. apply in_firsts in Hx as [Hx1 Hx2], Hy as [Hy1 Hy2]. rewrite component_level in Hx2, Hy2 by auto. congruence. }
  revert N I. generalize firsts. induction 1 as [|x l Hx Hl IH]; intros H; cbn [map]; constructor.
  - rewrite in_map_iff. intros (y & E & Hy). apply H in E; [subst; contradiction|now right|now left].
  - apply IH. intros a b Ha Hb. apply H; now right.
Qed.
Lemma in_group_dists x : In x (group_dists d) <-> exists i, (i < length d)%nat /\ nth i d 0 = x.
Proof.
  rewrite group_dists_eq, in_map_iff. split.
  - intros (i & <- & Hi). apply in_firsts in Hi. exists i. tauto.
  - intros (i & Hi & <-). destruct (level_hd i Hi) as (H1 & H2 & H3). eexists. split; [exact H2|exact H3].
Qed.
End Sep.

(** square roots of different integers up to 10^19 are further apart than 1e-10 *)
Lemma sqrt_apart (a b : nat) (M : R) : (a < b)%nat -> sqrt (INR b) <= M -> 0 < M -> / (2 * M) <= sqrt (INR b) - sqrt (INR a).
Proof.
  intros H HM HM0. assert (Hb : 1 <= INR b) by (change 1 with (INR 1); apply le_INR; lia).
  assert (Sb : sqrt (INR b) * sqrt (INR b) = INR b) by (apply sqrt_sqrt; lra).
  assert (Sa : sqrt (INR a) * sqrt (INR a) = INR a) by (apply sqrt_sqrt, pos_INR).
  assert (Pb : 0 < sqrt (INR b)) by (apply sqrt_lt_R0; lra). pose proof (sqrt_pos (INR a)) as Pa.
  assert (D : INR a + 1 <= INR b) by (rewrite <- S_INR; apply le_INR; lia).
  assert (L : sqrt (INR a) <= sqrt (INR b)) by (apply sqrt_le_1_alt; lra).
  apply Rmult_le_reg_r with (2 * M); [lra|]. rewrite Rinv_l by lra.
  assert ((sqrt (INR b) - sqrt (INR a)) * (sqrt (INR b) + sqrt (INR a)) = INR b - INR a) by (ring_simplify; nra).
  nra.
Qed.

Definition sq (p : cell) : nat := let '(i, j, k) := p in (i * i + j * j + k * k)%nat.
Lemma unit_dist nx ny nz corr p : dist (unit_ev nx ny nz corr) origin p = sqrt (INR (sq p)).
Proof.
  destruct p as [[i j] k]. unfold dist, origin, unit_ev, sq. cbn [ev_dx ev_dy ev_dz]. f_equal. rewrite !plus_INR, !mult_INR. change (INR 0) with 0. ring.
Qed.
Lemma unit_apart nx ny nz corr p q M : dist (unit_ev nx ny nz corr) origin p <= M -> dist (unit_ev nx ny nz corr) origin q <= M ->
  0 < M -> M <= 5000000000 ->
  near (dist (unit_ev nx ny nz corr) origin p) (dist (unit_ev nx ny nz corr) origin q) = true ->
  dist (unit_ev nx ny nz corr) origin p = dist (unit_ev nx ny nz corr) origin q.
Proof.
  rewrite !unit_dist. intros Hp Hq HM0 HM. unfold near.
  destruct (Rlt_dec (Rabs (sqrt (INR (sq p)) - sqrt (INR (sq q)))) (1 / 10000000000)) as [H|]; [intros _|discriminate].
  assert (I : 1 / 10000000000 <= / (2 * M)).
  { unfold Rdiv. rewrite Rmult_1_l. apply Rinv_le_contravar; lra. }
  destruct (Nat.lt_total (sq p) (sq q)) as [L|[E|L]]; [|now rewrite E|]; exfalso.
  - pose proof (sqrt_apart _ _ M L Hq HM0). rewrite Rabs_minus_sym, Rabs_pos_eq in H by lra || (assert (0 < / (2 * M)) by (apply Rinv_0_lt_compat; lra); lra). lra.
  - pose proof (sqrt_apart _ _ M L Hp HM0). assert (0 < / (2 * M)) by (apply Rinv_0_lt_compat; lra). rewrite Rabs_pos_eq in H by lra. lra.
Qed.

Section Groups.
Variables (nx ny nz : nat) (corr : R -> R) (pts : list cell).
Let e := unit_ev nx ny nz corr.
Let d := map (dist e origin) pts.
Hypothesis Hnear : forall p, In p pts -> distance e origin p <= 5000000000.

Lemma nth_d i : (i < length pts)%nat -> nth i d 0 = dist e origin (nth i pts origin).
Proof. intros H. unfold d. rewrite (nth_indep _ 0 (dist e origin origin)) by (now rewrite map_length). apply map_nth. Qed.
Lemma length_d : length d = length pts.
Proof. apply map_length. Qed.
Lemma sep i j : (i < length d)%nat -> (j < length d)%nat -> near (nth i d 0) (nth j d 0) = true -> nth i d 0 = nth j d 0.
Proof.
  rewrite length_d. intros Hi Hj. rewrite !nth_d by auto.
  apply (unit_apart nx ny nz corr _ _ 5000000000); try lra; apply (Hnear (nth _ pts origin)), nth_In; auto.
Qed.

Theorem c65_groups : let groups := distance_groups d in let dists := group_dists d in
  length groups = length dists /\ NoDup dists /\ (forall x, In x dists <-> exists p, In p pts /\ x = distance e origin p) /\
  forall k, (k < length groups)%nat -> NoDup (nth k groups []) /\
    forall i, In i (nth k groups []) <-> (i < length pts)%nat /\ distance e origin (nth i pts origin) = nth k dists 0.
Proof.
  cbv zeta. rewrite (groups_eq d sep), map_length. split; [reflexivity|]. split; [apply (group_dists_nodup d sep)|]. split.
  - intros x. rewrite (in_group_dists d sep). rewrite length_d. split.
    + intros (i & Hi & <-). exists (nth i pts origin). split; [now apply nth_In|]. now apply nth_d.
    + intros (p & Hp & ->). apply In_nth with (d := origin) in Hp as (i & Hi & <-). exists i. split; auto. now apply nth_d.
  - intros k Hk. assert (E : nth k (map (level d) (group_dists d)) [] = level d (nth k (group_dists d) 0)).
    { rewrite (nth_indep _ [] (level d 0)) by (now rewrite map_length). apply map_nth. }
    rewrite E. split; [apply NoDup_filter, seq_NoDup|]. intros i. rewrite in_level, length_d. split; intros [Hi Ex]; (split; [exact Hi|]); rewrite <- Ex; [symmetry|];
      now apply nth_d.
Qed.

Hypothesis Hnd : NoDup pts.
(** per distance: the average over the fields of the average over the cells at that distance *)
Theorem c65_value : forall gs k x cells, gs <> [] -> nth_error (group_dists d) k = Some x ->
  NoDup cells -> (forall p, In p cells <-> In p pts /\ distance e origin p = x) ->
  nth k (group_means e pts gs) None = Some (average (map (fun g => average (map (fun p => (g p - g origin) ^ 2) cells)) gs)).
Proof.
  intros gs k x cells Hgs Hk Nc Hc. unfold group_means. fold d.
  assert (Hk' : (k < length (group_dists d))%nat) by (apply nth_error_Some; congruence).
  assert (LG : length (distance_groups d) = length (group_dists d)) by (rewrite (groups_eq d sep), map_length; reflexivity).
  rewrite nth_map_seq by lia.
  assert (EG : forall g, nth k (group_data e pts g) None = Some (average (map (fun p => (g p - g origin) ^ 2) cells))).
  { intros g. unfold group_data. fold d. rewrite (groups_eq d sep), map_map.
    set (F := fun x0 => mean (map (fun i => (g (nth i pts origin) - g origin) ^ 2) (level d x0))).
    rewrite (nth_indep _ None (F 0)) by (rewrite map_length; auto). rewrite (map_nth F).
    assert (Ex : nth k (group_dists d) 0 = x) by (apply nth_error_nth with (d := 0) in Hk; exact Hk). rewrite Ex. unfold F.
    rewrite <- map_map with (f := fun i => nth i pts origin) (g := fun p => (g p - g origin) ^ 2).
    assert (P : Permutation (map (fun i => nth i pts origin) (level d x)) cells).
    { apply NoDup_Permutation; auto.
      - assert (N : NoDup (level d x)) by (apply NoDup_filter, seq_NoDup).
        assert (B : forall i, In i (level d x) -> (i < length pts)%nat) by (intros i Hi; apply in_level in Hi; rewrite length_d in Hi; tauto).
        revert N B. generalize (level d x). induction 1 as [|i l Hi Hl IH]; intros B; cbn [map]; constructor.
        + rewrite in_map_iff. intros (j & E & Hj). assert (j = i); [|subst; contradiction].
          eapply (proj1 (NoDup_nth pts origin)); eauto; apply B; [now right|now left].
        + apply IH. intros j Hj. apply B. now right.
      - intros p. rewrite Hc, in_map_iff. split.
        + intros (i & <- & Hi). apply in_level in Hi as [Hi1 Hi2]. rewrite length_d in Hi1. split; [now apply nth_In|].
          rewrite <- Hi2. symmetry. now apply nth_d.
        + intros [Hp1 Hp2]. apply In_nth with (d := origin) in Hp1 as (i & Hi & <-). exists i. split; auto. apply in_level. rewrite length_d.
          split; auto. rewrite nth_d by auto. exact Hp2. }
    rewrite mean_average.
    - f_equal. apply average_perm, Permutation_map, P.
    - intros E. apply map_eq_nil in E. rewrite E in P. apply Permutation_nil in P. subst cells.
      assert (I : In x (group_dists d)) by (eapply nth_error_In; eauto). apply (in_group_dists d sep) in I as (i & Hi & Ei). rewrite length_d in Hi.
      apply (Hc (nth i pts origin)). split; [now apply nth_In|]. rewrite <- Ei. symmetry. now apply nth_d. }
  assert (FM : flat_map (fun g => match nth k (group_data e pts g) None with Some x0 => [x0] | None => [] end) gs
               = map (fun g => average (map (fun p => (g p - g origin) ^ 2) cells)) gs).
  { clear Hgs. induction gs as [|g gs IH]; cbn [flat_map map]; [reflexivity|]. rewrite EG, IH. reflexivity. }
  rewrite FM. apply mean_average. destruct gs; [congruence|discriminate].
Qed.
End Groups.

(** its expectation: twice one minus the average covariance *)
Theorem c65_mean : forall (W : Type) (E : (W -> R) -> R) nx ny nz corr pts (gs : W -> list grid) nmax (C : cell -> cell -> R) k x cells,
  let e := unit_ev nx ny nz corr in
  expectation E -> E (fun _ => 1) = 1 ->
  (forall p, In p pts -> distance e origin p <= 5000000000) -> NoDup pts -> (0 < nmax)%nat -> (forall w, length (gs w) = nmax) ->
  (forall i p q, (i < nmax)%nat -> E (fun w => nth i (gs w) (fun _ => 0) p * nth i (gs w) (fun _ => 0) q) = C p q) ->
  (forall p, C p p = 1) ->
  nth_error (group_dists (map (dist e origin) pts)) k = Some x -> NoDup cells -> (forall p, In p cells <-> In p pts /\ distance e origin p = x) ->
  exists est : W -> R, (forall w, nth k (group_means e pts (gs w)) None = Some (est w)) /\
    E est = 2 * (1 - average (map (C origin) cells)).
Proof.
  intros W E nx ny nz corr pts gs nmax C k x cells e HE HU Hn Nd Hm Lg HC H1 Hk Nc Hc.
  exists (fun w => average (map (fun g => average (map (fun p => (g p - g origin) ^ 2) cells)) (gs w))). split.
  - intros w. apply (c65_value nx ny nz corr pts Hn Nd (gs w) k x cells); auto. intros Z. specialize (Lg w). rewrite Z in Lg. cbn in Lg. lia.
  - pose proof HE as (X1 & X2 & X3).
    assert (Hne : cells <> []).
    { intros Z. subst cells. apply nth_error_In in Hk. apply (proj1 (proj2 (proj2 (c65_groups nx ny nz corr pts Hn)))) in Hk as (p & Hp & Ex).
      apply (Hc p). auto. }
    rewrite (X1 _ (fun w => average (map (fun i => average (map (fun p => (nth i (gs w) (fun _ => 0) p - nth i (gs w) (fun _ => 0) origin) ^ 2) cells)) (seq 0 nmax)))).
    2:{ intros w. rewrite (as_seq (gs w) (fun _ => 0)) at 1. rewrite map_map, Lg. reflexivity. }
    rewrite (E_average E (fun w i => average (map (fun p => (nth i (gs w) (fun _ => 0) p - nth i (gs w) (fun _ => 0) origin) ^ 2) cells))) by auto.
    rewrite (average_ext _ (fun _ => 2 * (1 - average (map (C origin) cells)))).
    { apply average_const. destruct nmax; [lia|discriminate]. }
    intros i Hi. apply in_seq in Hi.
    rewrite (E_average E (fun w p => (nth i (gs w) (fun _ => 0) p - nth i (gs w) (fun _ => 0) origin) ^ 2)) by auto.
    rewrite (average_ext _ (fun p => 2 + -2 * C origin p)).
    + rewrite !average_total, !map_length, total_map_lin. assert (0 < INR (length cells)) by (apply lt_0_INR; destruct cells; [congruence|cbn; lia]). field. lra.
    + intros p _. set (g := fun w => nth i (gs w) (fun _ => 0)).
      rewrite (X1 _ (fun w => 1 * (g w p * g w p) + (1 * (g w origin * g w origin) + (-2) * (g w origin * g w p)))) by (intros; unfold g; ring).
      rewrite (X2 (fun w => 1 * (g w p * g w p))), (X2 (fun w => 1 * (g w origin * g w origin))), !X3. unfold g. rewrite !HC, !H1 by lia. ring.
Qed.
