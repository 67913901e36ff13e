(** What estimate_variogram returns. *)
From Coq Require Import ZArith List Bool Reals Lia Lra Permutation.
From Flocq Require Import Core.Raux.
From Verif Require Import M_Util S_Util P_Base P_Util.
Import ListNotations.
Open Scope R_scope.

Lemma combine_maps {A B C} (f : A -> B) (h : A -> C) l : combine (map f l) (map h l) = map (fun p => (f p, h p)) l.
Proof. induction l as [|x l IH]; cbn; [reflexivity|]. now rewrite IH. Qed.
Lemma filter_maps {A B} (f : A -> B) (t : B -> bool) l : filter t (map f l) = map f (filter (fun x => t (f x)) l).
Proof. induction l as [|x l IH]; cbn; [reflexivity|]. destruct (t (f x)); cbn; now rewrite IH. Qed.

Definition bin_cells (e : ev) (ref : cell) (m : R) (nb k : nat) : list cell :=
  filter (fun p => (bin_of m nb (dist e ref p) =? k)%nat) (tuple_indexes e).
Lemma bin_cells_in e ref m nb k : 0 < m -> (0 < nb)%nat -> (k < nb)%nat -> farthest e ref m ->
  cells_in e ref m nb k (bin_cells e ref m nb k).
Proof.
  intros Hm Hn Hk [_ F]. split.
  - apply NoDup_filter. apply nodup_cells.
  - intros p. unfold bin_cells. rewrite filter_In, in_tuple, Nat.eqb_eq. split.
    + intros [Hp E]. split; [exact Hp|]. apply bin_part; auto. split; [apply dist_nonneg|now apply F].
    + intros [Hp E]. split; [exact Hp|]. apply bin_part; auto. split; [apply dist_nonneg|now apply F].
Qed.

Lemma average_total l : average l = total l / INR (length l).
Proof. reflexivity. Qed.
Lemma total_perm l l' : Permutation l l' -> total l = total l'.
Proof. unfold total. induction 1; cbn [fold_right] in *; lra. Qed.
Lemma cells_in_perm e ref m nb k l l' : cells_in e ref m nb k l -> cells_in e ref m nb k l' -> Permutation l l'.
Proof. intros [N H] [N' H']. apply NoDup_Permutation; auto. intros p. rewrite H, H'. reflexivity. Qed.
Lemma average_perm l l' : Permutation l l' -> average l = average l'.
Proof. intros H. rewrite ?average_total. now rewrite (total_perm _ _ H), (Permutation_length H). Qed.

Lemma mean_average l : l <> [] -> mean l = Some (average l).
Proof. destruct l; [congruence|reflexivity]. Qed.
Lemma total_map_lin {A} (f : A -> R) a b l : total (map (fun x => a + b * f x) l) = INR (length l) * a + b * total (map f l).
Proof.
  induction l as [|x l IH]; cbn [map total fold_right length].
  - change (INR 0) with 0. ring.
  - change (fold_right Rplus 0 (map (fun x => a + b * f x) l)) with (total (map (fun x => a + b * f x) l)).
    change (fold_right Rplus 0 (map f l)) with (total (map f l)). rewrite IH, S_INR. ring.
Qed.
Lemma total_ext {A} (f g : A -> R) l : (forall x, In x l -> f x = g x) -> total (map f l) = total (map g l).
Proof.
  intros H. f_equal. apply map_ext_in. exact H.
Qed.
Lemma average_pair g ref l : l <> [] ->
  1 - average (map (fun p => (g p - g ref) ^ 2) l) / 2 = average (map (pair_value g ref) l).
Proof.
  intros H. rewrite ?average_total. rewrite !map_length.
  assert (0 < INR (length l)) by (apply lt_0_INR; destruct l; [congruence|cbn; lia]).
  rewrite (total_ext (pair_value g ref) (fun p => 1 + (-/2) * (g p - g ref) ^ 2)) by (intros; unfold pair_value; field).
  rewrite total_map_lin. field. lra.
Qed.

Definition nbins (e : ev) (resolution : R) (ref : cell) : nat := Z.to_nat (Ztrunc (far e ref / resolution)).

Section Est.
Variable e : ev.
Variable resolution : R.
Hypothesis Hr : 0 < resolution.
Hypothesis Hpr : proper e.

Lemma proper_test : ((ev_ny e =? 1) && negb (ev_nz e =? 1))%nat%bool = false.
Proof. destruct (Nat.eqb_spec (ev_ny e) 1) as [E|E]; [|reflexivity]. rewrite (Hpr E). reflexivity. Qed.

Lemma nbins_trunc ref : Ztrunc (far e ref / resolution) = Z.of_nat (nbins e resolution ref).
Proof.
  unfold nbins. rewrite Z2Nat.id; [reflexivity|].
  assert (0 <= far e ref).
  { unfold far. destruct (tuple_indexes e) as [|p l]; [cbn; lra|]. apply Rle_trans with (dist e ref p); [apply dist_nonneg|].
    apply maximum_ge. now left. }
  assert (0 <= far e ref / resolution) by (apply Rmult_le_pos; [lra|left; now apply Rinv_0_lt_compat]).
  rewrite Ztrunc_floor by auto. apply Zfloor_lub. exact H0.
Qed.
Lemma far_nonneg ref : in_grid e ref -> 0 <= far e ref.
Proof. intros H. destruct (far_is e ref H) as [(p & _ & <-) _]. apply dist_nonneg. Qed.
Lemma nbins_parts ref nb : in_grid e ref -> (parts (far e ref) resolution nb <-> nbins e resolution ref = nb).
Proof.
  intros H. rewrite parts_trunc by auto using far_nonneg. rewrite nbins_trunc. lia.
Qed.
Lemma nbins_pos ref : in_grid e ref -> (0 < nbins e resolution ref)%nat -> 0 < far e ref.
Proof.
  intros H Hn. pose proof (proj2 (nbins_parts ref _ H) eq_refl) as [H1 _].
  assert (1 <= INR (nbins e resolution ref)) by (change 1 with (INR 1); apply le_INR; lia). nra.
Qed.
Lemma nbins_le ref : in_grid e ref -> (nbins e resolution ref <= nbins e resolution origin)%nat.
Proof.
  intros H. unfold nbins. apply Z2Nat.inj_le; try (rewrite nbins_trunc; lia).
  apply Ztrunc_le. apply Rmult_le_compat_r; [left; now apply Rinv_0_lt_compat|]. now apply far_le_origin.
Qed.

Lemma stats_ok g ref : in_grid e ref -> (0 < nbins e resolution ref)%nat ->
  binned_variogram_statistics e resolution g ref =
  Ret (map (fun k => mean (map (fun p => (g p - g ref) ^ 2) (bin_cells e ref (far e ref) (nbins e resolution ref) k)))
           (seq 0 (nbins e resolution ref)),
       map (edge (far e ref) (nbins e resolution ref)) (seq 0 (nbins e resolution ref + 1))).
Proof.
  intros H Hn. unfold binned_variogram_statistics, calculate_deltas. rewrite proper_test. cbn [andb]. rewrite (proj2 (exists_cell e ref) H). cbn [rbind].
  destruct (Req_EM_T resolution 0); [lra|]. rewrite !map_map. cbn [fst snd].
  unfold binned_statistic. change (maximum (map (fun x => dist e ref x) (tuple_indexes e))) with (far e ref).
  rewrite nbins_trunc. destruct (Z.leb_spec (Z.of_nat (nbins e resolution ref)) 0); [lia|]. rewrite Nat2Z.id.
  f_equal. f_equal. apply map_ext. intros k. f_equal.
  rewrite (combine_maps (fun x => dist e ref x) (fun x => (g x - g ref) ^ 2)), filter_maps, map_map. reflexivity.
Qed.

Definition contrib (g : grid) (k : nat) (ref : cell) : option R :=
  if (k <? nbins e resolution ref)%nat
  then mean (map (pair_value g ref) (bin_cells e ref (far e ref) (nbins e resolution ref) k))
  else Some 0.

Lemma means_eq g ref k : option_map (fun x => 1 - x / 2) (mean (map (fun p => (g p - g ref) ^ 2) (bin_cells e ref (far e ref) (nbins e resolution ref) k)))
  = mean (map (pair_value g ref) (bin_cells e ref (far e ref) (nbins e resolution ref) k)).
Proof.
  destruct (bin_cells e ref (far e ref) (nbins e resolution ref) k) as [|p l] eqn:E; [reflexivity|].
  rewrite !mean_average by discriminate. cbn [option_map]. f_equal. apply average_pair. discriminate.
Qed.

Definition used (k : nat) (refs : list cell) : list cell := filter (fun r => (k <? nbins e resolution r)%nat) refs.

Lemma map_seq_app {A} (f : nat -> A) a x n : (a <= n)%nat ->
  map f (seq 0 a) ++ repeat x (n - a) = map (fun k => if (k <? a)%nat then f k else x) (seq 0 n).
Proof.
  intros H. replace n with (a + (n - a))%nat at 2 by lia. rewrite seq_app, map_app. f_equal.
  - apply map_ext_in. intros k Hk. apply in_seq in Hk. destruct (Nat.ltb_spec k a); [reflexivity|lia].
  - cbn [Nat.add]. generalize (n - a)%nat. intros r.
    assert (G : forall b, (a <= b)%nat -> repeat x r = map (fun k => if (k <? a)%nat then f k else x) (seq b r)).
    { induction r as [|r IH]; intros b Hb; cbn [seq map repeat]; [reflexivity|].
      destruct (Nat.ltb_spec b a); [lia|]. f_equal. apply IH. lia. }
    apply G. lia.
Qed.
Lemma repeat_seq {A} (x : A) n : repeat x n = map (fun _ => x) (seq 0 n).
Proof.
  generalize 0%nat. induction n as [|n IH]; intros b; cbn; [reflexivity|]. now rewrite (IH (S b)).
Qed.

Lemma references_ok g n refs : n = nbins e resolution origin ->
  Forall (fun r => in_grid e r /\ (0 < nbins e resolution r)%nat) refs ->
  forall (a : nat -> option R) (c : nat -> R),
  references e resolution g n refs (map a (seq 0 n)) (map c (seq 0 n)) =
  Ret (map (fun k => fold_left oplus (map (contrib g k) refs) (a k)) (seq 0 n),
       map (fun k => c k + INR (length (used k refs))) (seq 0 n)).
Proof.
  intros En HF. induction HF as [|r refs [Hg Hn] HF IH]; intros a c; cbn [references map fold_left].
  - f_equal. f_equal. apply map_ext. intros k. cbn. ring.
  - rewrite stats_ok by auto. cbn [rbind]. rewrite !map_map, !map_length, seq_length.
    pose proof (nbins_le r Hg) as Hle. rewrite <- En in Hle.
    destruct (Nat.ltb_spec n (nbins e resolution r)); [lia|].
    rewrite map_seq_app by auto. rewrite (repeat_seq 1 (nbins e resolution r)), map_seq_app by auto.
    unfold vplus. rewrite !combine_maps, !map_map. cbn [fst snd]. rewrite IH. f_equal. f_equal.
    + apply map_ext. intros k. f_equal. unfold contrib. destruct (k <? nbins e resolution r)%nat; [|reflexivity]. now rewrite means_eq.
    + apply map_ext. intros k. cbn [used filter]. fold (used k refs). destruct (k <? nbins e resolution r)%nat.
      * cbn [length]. rewrite S_INR. ring.
      * ring.
Qed.

Definition local (g : grid) (refs : list cell) (k : nat) : option R :=
  over (fold_left oplus (map (contrib g k) refs) (Some 0)) (INR (length (used k refs))).

Section Sim.
Context {S : Type}.
Variable sim : S -> option (list R) * S.

Lemma simulate_ok s x s' : sim s = (Some x, s') -> length x = (ev_nx e * ev_ny e * ev_nz e)%nat ->
  simulate sim e s = (Ret (as_grid e x), s').
Proof. intros H Hl. unfold simulate. rewrite H. unfold reshape. rewrite Hl, Nat.eqb_refl. reflexivity. Qed.

Lemma simulations_ok n refs : n = nbins e resolution origin ->
  Forall (fun r => in_grid e r /\ (0 < nbins e resolution r)%nat) refs ->
  forall nmax s xs s', simulated sim nmax s = Some (xs, s') -> Forall (fun x => length x = (ev_nx e * ev_ny e * ev_nz e)%nat) xs ->
  forall (a : nat -> option R) (c : nat -> R),
  simulations sim e resolution n refs nmax (map a (seq 0 n)) (map c (seq 0 n)) s =
  (Ret (map (fun k => fold_left oplus (map (fun x => local (as_grid e x) refs k) xs) (a k)) (seq 0 n),
        map (fun k => c k + INR nmax * INR (length (used k refs))) (seq 0 n)), s').
Proof.
  intros En HF. induction nmax as [|nmax IH]; intros s xs s' H Hl a c; cbn [simulated simulations] in *.
  - injection H as <- <-. unfold mret. cbn [map fold_left]. do 3 f_equal. apply map_ext. intros k. change (INR 0) with 0. ring.
  - destruct (sim s) as [[x|] s1] eqn:E; [|discriminate]. destruct (simulated sim nmax s1) as [[xs1 s2]|] eqn:E1; [|discriminate].
    injection H as <- <-. inversion Hl; subst.
    unfold mbind at 1. rewrite (simulate_ok _ _ _ E) by auto. unfold mbind at 1, lift.
    rewrite (repeat_seq (Some 0)), (repeat_seq 0), references_ok by auto.
    rewrite combine_maps, map_map. cbn [fst snd]. unfold vplus. rewrite !combine_maps, !map_map. cbn [fst snd].
    rewrite (IH _ _ _ E1) by auto. do 3 f_equal.
    + apply map_ext. intros k. cbn [map fold_left]. f_equal. f_equal. unfold local. now rewrite Rplus_0_l.
    + apply map_ext. intros k. rewrite S_INR. ring.
Qed.

Lemma midpoints_ok s x s' : sim s = (Some x, s') -> length x = (ev_nx e * ev_ny e * ev_nz e)%nat ->
  in_grid e origin -> (0 < nbins e resolution origin)%nat ->
  find_midpoints sim e resolution s =
  (Ret (map (fun k => far e origin * INR (k + 1) / INR (nbins e resolution origin)) (seq 0 (nbins e resolution origin))), s').
Proof.
  intros H Hl Ho Hn. unfold find_midpoints. unfold mbind at 1. rewrite (simulate_ok _ _ _ H Hl). unfold mbind, lift.
  rewrite stats_ok by auto. unfold mret. f_equal. f_equal.
  set (N := nbins e resolution origin) in *. set (m := far e origin).
  rewrite (nth_map_seq (edge m N) (N + 1) 1) by lia. rewrite (nth_map_seq (edge m N) (N + 1) 0) by lia.
  rewrite seq_app, map_app. cbn [seq map]. rewrite removelast_last. rewrite map_map. apply map_ext. intros k. unfold edge.
  assert (0 < INR N) by (apply lt_0_INR; auto). rewrite plus_INR. change (INR 1) with 1. change (INR 0) with 0. field. lra.
Qed.

Theorem estimate_ok nmax refs s a b xs s' : in_grid e origin -> (0 < nbins e resolution origin)%nat ->
  Forall (fun r => in_grid e r /\ (0 < nbins e resolution r)%nat) refs ->
  simulated sim (2 + nmax) s = Some (a :: b :: xs, s') ->
  Forall (fun x => length x = (ev_nx e * ev_ny e * ev_nz e)%nat) (a :: b :: xs) ->
  estimate_variogram sim e nmax resolution refs s =
  let n := nbins e resolution origin in
  (Ret (map (fun k => far e origin * INR (k + 1) / INR n) (seq 0 n),
        map (fun k => over (fold_left oplus (map (fun x => local (as_grid e x) refs k) xs) (Some 0)) (INR nmax)) (seq 0 n),
        map (fun k => INR nmax * INR (length (used k refs))) (seq 0 n)), s').
Proof.
  intros Ho Hn HF H Hl. cbn [Nat.add simulated] in H.
  destruct (sim s) as [[a'|] s1] eqn:E1; [|discriminate]. destruct (sim s1) as [[b'|] s2] eqn:E2; [|discriminate].
  destruct (simulated sim nmax s2) as [[xs' s3]|] eqn:E3; [|discriminate].
  assert (X : a' = a /\ b' = b /\ xs' = xs /\ s3 = s') by (injection H; auto). destruct X as (-> & -> & -> & ->). clear H.
  inversion Hl as [|? ? Ha Hl1]; subst. inversion Hl1 as [|? ? Hb Hl2]; subst.
  unfold estimate_variogram. unfold mbind at 1. rewrite (midpoints_ok _ _ _ E1) by auto.
  unfold mbind at 1. unfold true_variogram. unfold mbind at 1. rewrite (midpoints_ok _ _ _ E2) by auto. unfold mret at 1.
  rewrite !map_length, !seq_length. cbv zeta. set (n := nbins e resolution origin).
  unfold mbind at 1. rewrite (repeat_seq (Some 0)), (repeat_seq 0).
  rewrite (simulations_ok n refs eq_refl HF nmax s2 xs s' E3 Hl2). unfold mret. rewrite map_map. do 3 f_equal.
  apply map_ext. intros k. ring.
Qed.
End Sim.

(** closed forms *)
Lemma fold_oplus l : forall x, fold_left oplus (map Some l) (Some x) = Some (x + total l).
Proof.
  induction l as [|y l IH]; intros x; cbn [map fold_left total fold_right]; [f_equal; ring|].
  cbn [oplus]. rewrite IH. f_equal. change (fold_right Rplus 0 l) with (total l). ring.
Qed.
Lemma fold_oplus_none l : fold_left oplus l None = None.
Proof. induction l as [|y l IH]; cbn [fold_left]; auto. Qed.
Lemma fold_oplus_in l x : In None l -> fold_left oplus l x = None.
Proof.
  revert x. induction l as [|y l IH]; intros x; [intros []|]. cbn [fold_left]. intros [->|H]; [|now apply IH].
  replace (oplus x None) with (@None R) by (destruct x; reflexivity). apply fold_oplus_none.
Qed.

End Est.
