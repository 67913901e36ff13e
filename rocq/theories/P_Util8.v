(** The deviations that are sampled along the way, and the padding analyzer. *)
From Coq Require Import ZArith Bool Reals Lia Lra String.
From Coq Require Import List.
From Flocq Require Import Core.Raux.
From Verif Require Import Base Arith RealArith M_Variogram M_CovGrid M_Field S_Spectrum S_Vario P_Vario M_Util S_Util P_Base P_Util P_Util2 P_Util3 P_Util4.
Import ListNotations.
Open Scope R_scope.

Section Fed.
Variable e : ev.
Variable resolution : R.
Hypothesis Hr : 0 < resolution.
Hypothesis Hpr : proper e.
Context {S : Type}.
Variable sim : S -> option (list R) * S.

Definition sampled (step : nat) (t : nat) : bool := ((0 <? step) && (t mod step =? 0))%nat%bool.
Definition so_far (refs : list cell) (xs : list (list R)) (a : nat -> option R) (trv : nat -> R) (t i k : nat) : option R :=
  ominus (over (fold_left oplus (map (fun x => local e resolution (as_grid e x) refs k) (firstn (Datatypes.S (t - i)) xs)) (a k)) (INR (t + 1))) (trv k).

Lemma fed_ok n refs step (trv : nat -> R) : n = nbins e resolution origin ->
  Forall (fun r => in_grid e r /\ (0 < nbins e resolution r)%nat) refs ->
  forall nmax s xs s', simulated sim nmax s = Some (xs, s') -> Forall (fun x => length x = (ev_nx e * ev_ny e * ev_nz e)%nat) xs ->
  forall i (a : nat -> option R) fed,
  simulations_fed sim e resolution n refs step (map trv (seq 0 n)) i nmax (map a (seq 0 n)) fed s =
  (Ret (fed ++ map (fun t => map (so_far refs xs a trv t i) (seq 0 n)) (filter (sampled step) (seq i nmax))), s').
Proof.
  intros En HF. induction nmax as [|nmax IH]; intros s xs s' H Hl i a fed; cbn [simulated simulations_fed] in *.
  - injection H as <- <-. unfold mret. cbn [seq filter map]. now rewrite app_nil_r.
  - destruct (sim s) as [[x|] s1] eqn:E; [|discriminate]. destruct (simulated sim nmax s1) as [[xs1 s2]|] eqn:E1; [|discriminate].
    injection H as <- <-. inversion Hl; subst x0 l.
    unfold mbind at 1. rewrite (simulate_ok e sim _ _ _ E) by auto. unfold mbind at 1, lift.
    rewrite (repeat_seq (Some 0)), (repeat_seq 0), references_ok by auto.
    rewrite combine_maps, map_map. cbn [fst snd]. unfold vplus. rewrite !combine_maps, !map_map. cbn [fst snd].
    rewrite (IH _ _ _ E1) by auto. f_equal. f_equal. cbn [seq filter]. fold (sampled step i).
    set (a' := fun k => oplus (a k) (over (fold_left oplus (map (contrib e resolution (as_grid e x) k) refs) (Some 0)) (0 + INR (length (used e resolution k refs))))).
    assert (A : forall k, a' k = oplus (a k) (local e resolution (as_grid e x) refs k)) by (intros k; unfold a', local; now rewrite Rplus_0_l).
    assert (T : map (fun t => map (so_far refs xs1 a' trv t (i + 1)) (seq 0 n)) (filter (sampled step) (seq (i + 1) nmax))
             = map (fun t => map (so_far refs (x :: xs1) a trv t i) (seq 0 n)) (filter (sampled step) (seq (Datatypes.S i) nmax))).
    { replace (Datatypes.S i) with (i + 1)%nat by lia. apply map_ext_in. intros t Ht. apply filter_In in Ht as [Ht _]. apply in_seq in Ht.
      apply map_ext. intros k. unfold so_far. replace (t - i)%nat with (Datatypes.S (t - (i + 1))) by lia.
      cbn [firstn map fold_left]. now rewrite <- A. }
    rewrite T. destruct (sampled step i); cbn [map].
    + rewrite <- app_assoc. f_equal. cbn [app]. f_equal. unfold deviation. rewrite combine_maps, map_map. cbn [fst snd]. apply map_ext. intros k.
      unfold so_far. rewrite Nat.sub_diag. cbn [firstn map fold_left]. now rewrite <- A.
    + reflexivity.
Qed.

Lemma sampled_rev step nmax : (0 < step)%nat -> (0 < nmax)%nat ->
  exists l, rev (filter (sampled step) (seq 0 nmax)) = (step * ((nmax - 1) / step))%nat :: l.
Proof.
  intros Hs Hn. set (t := (step * ((nmax - 1) / step))%nat).
  assert (Ht : (t <= nmax - 1)%nat) by (apply Nat.mul_div_le; lia).
  assert (Ht2 : (nmax - 1 < t + step)%nat).
  { unfold t. pose proof (Nat.div_mod (nmax - 1) step ltac:(lia)). pose proof (Nat.mod_upper_bound (nmax - 1) step ltac:(lia)). lia. }
  replace nmax with (t + 1 + (nmax - 1 - t))%nat by lia. rewrite !seq_app, !filter_app, !rev_app_distr. cbn [Nat.add seq].
  assert (Z : filter (sampled step) (seq (t + 1) (nmax - 1 - t)) = []).
  { clear Hn.
    assert (G : forall b c, (t < b)%nat -> (b + c <= t + step)%nat -> filter (sampled step) (seq b c) = []).
    { intros b c. revert b. induction c as [|c IH]; intros b Hb Hc; cbn [seq filter]; [reflexivity|].
      assert (M : (b mod step)%nat = (b - t)%nat).
      { replace b with ((b - t) + ((nmax - 1) / step) * step)%nat at 1 by (unfold t in *; lia). rewrite Nat.mod_add by lia. apply Nat.mod_small. lia. }
      unfold sampled at 1. rewrite M. destruct (Nat.eqb_spec (b - t) 0); [lia|]. rewrite andb_false_r. apply IH; lia. }
    apply G; lia. }
  rewrite Z. cbn [rev app filter]. assert (St : sampled step t = true).
  { unfold sampled, t. rewrite Nat.mul_comm, Nat.mod_mul by lia. destruct (Nat.ltb_spec 0 step); [reflexivity|lia]. }
  rewrite St. cbn [rev app]. eauto.
Qed.
End Fed.

Lemma row_local nx dx corr x k : (2 <= nx)%nat -> 0 < dx -> (k < nx - 2)%nat ->
  local (row nx dx corr) dx (as_grid (row nx dx corr) x) [origin] k = Some (1 - (nth k x 0 - nth 0 x 0) ^ 2 / 2).
Proof.
  intros Hnx Hdx Hk. set (e := row nx dx corr).
  destruct (local_value e dx Hdx (fun _ => INR (nx - 1) * dx) (fun _ => (nx - 1)%nat) (fun _ => [(k, 0, 0)%nat]) [origin] k (as_grid e x)) as (_ & H & _).
  { intros r [<-|[]]. split; [now apply row_origin|]. split; [now apply row_far|]. split; [now apply row_parts|]. now apply row_cells. }
  cbn [filter] in H. destruct (Nat.ltb_spec k (nx - 1)); [|lia]. rewrite H by (intros; discriminate). f_equal.
  cbn [map]. unfold average at 1 2. cbn [fold_right length]. change (INR 1) with 1.
  unfold pair_value, as_grid, origin, e. cbn [ev_nx ev_ny row].
  replace (k + nx * (0 + 1 * 0))%nat with k by lia. replace (0 + nx * (0 + 1 * 0))%nat with 0%nat by lia. field.
Qed.

Theorem row_analysed : forall nx dx corr (S : Type) (sim : S -> option (list R) * S) nmax s a b xs s', (2 <= nx)%nat -> 0 < dx -> (0 < nmax)%nat ->
  simulated sim (2 + nmax) s = Some (a :: b :: xs, s') -> (forall x, In x (a :: b :: xs) -> length x = nx) ->
  exists d, analysed sim (row nx dx corr) nmax dx s = (Ret d, s') /\ length d = (nx - 1)%nat /\
  forall k, (k < nx - 2)%nat ->
    nth k d None = Some (average (map (fun x => 1 - (nth k x 0 - nth 0 x 0) ^ 2 / 2) (firstn (10 * ((nmax - 1) / 10) + 1) xs)) - corr (INR (k + 1) * dx)).
Proof.
  intros nx dx corr S sim nmax s a b xs s' Hnx Hdx Hm H Hl. set (e := row nx dx corr).
  pose proof (row_proper nx dx corr) as Hpr. pose proof (row_suits nx dx corr Hnx Hdx) as Ho. fold e in Hpr, Ho.
  destruct (suits_bins e dx origin Hdx Ho) as [Ho1 Ho2].
  cbn [Nat.add simulated] in H.
  destruct (sim s) as [[a'|] s1] eqn:E1; [|discriminate]. destruct (sim s1) as [[b'|] s2] eqn:E2; [|discriminate].
  destruct (simulated sim nmax s2) as [[xs' s3]|] eqn:E3; [|discriminate].
  assert (X : a' = a /\ b' = b /\ xs' = xs /\ s3 = s') by (injection H; auto). destruct X as (-> & -> & -> & ->). clear H.
  assert (Le : (ev_nx e * ev_ny e * ev_nz e)%nat = nx) by (cbn; lia).
  unfold analysed, estimate_convergence. unfold mbind at 1. unfold mbind at 1.
  rewrite (midpoints_ok e dx Hdx Hpr sim _ _ _ E1) by (auto; rewrite Le; apply Hl; now left).
  unfold mbind at 1. unfold true_variogram. unfold mbind at 1.
  rewrite (midpoints_ok e dx Hdx Hpr sim _ _ _ E2) by (auto; rewrite Le; apply Hl; right; now left). unfold mret at 1.
  rewrite !map_map, !map_length, !seq_length. rewrite (repeat_seq (Some 0)).
  rewrite (fed_ok e dx Hdx Hpr sim _ [origin] 10 _ eq_refl) with (xs := xs) (s' := s'); auto.
  2:{ apply Forall_forall. intros x Hx. rewrite Le. apply Hl. right. now right. }
  destruct (sampled_rev 10 nmax ltac:(lia) Hm) as (l & El). set (t := (10 * ((nmax - 1) / 10))%nat) in *.
  cbn [app]. rewrite <- map_rev, El. cbn [map]. eexists. split; [reflexivity|].
  assert (EN : nbins e dx origin = (nx - 1)%nat).
  { apply nbins_parts; auto. rewrite (farthest_eq e origin _ Ho1 (row_far nx dx corr Hnx Hdx)). now apply row_parts. }
  rewrite EN, map_length, seq_length. split; [reflexivity|]. intros k Hk. rewrite nth_map_seq by lia.
  unfold so_far. rewrite Nat.sub_0_r.
  assert (Lx : length xs = nmax) by (eapply simulated_length; eauto).
  assert (Ht : (t <= nmax - 1)%nat) by (apply Nat.mul_div_le; lia).
  replace (Datatypes.S t) with (t + 1)%nat by lia.
  rewrite (fold_zero _ (fun _ => true) (fun x => 1 - (nth k x 0 - nth 0 x 0) ^ 2 / 2)) by (intros x _; apply row_local; auto).
  rewrite Rplus_0_l. assert (Ff : forall l : list (list R), filter (fun _ => true) l = l) by (clear; induction l; cbn [filter]; congruence).
  rewrite Ff. unfold over. assert (0 < INR (t + 1)) by (apply lt_0_INR; lia). destruct (Req_EM_T (INR (t + 1)) 0); [lra|].
  cbn [ominus option_map]. f_equal. f_equal.
  - rewrite average_total, map_length, firstn_length_le by lia. reflexivity.
  - rewrite (farthest_eq e origin _ Ho1 (row_far nx dx corr Hnx Hdx)). change (ev_corr e) with corr. f_equal.
    assert (0 < INR (nx - 1)) by (apply lt_0_INR; lia). field. lra.
Qed.

(** the axis given for the deviations *)
Lemma axis_nth nx (dx : R) k : (3 <= nx)%nat -> (k < nx - 1)%nat -> nth k (axis (nx - 1) dx) 0 = INR k * dx * (INR (nx - 1) / INR (nx - 2)).
Proof.
  intros Hn Hk. unfold axis. rewrite nth_map_seq by auto. replace (nx - 1 - 1)%nat with (nx - 2)%nat by lia.
  assert (0 < INR (nx - 2)) by (apply lt_0_INR; lia). field. lra.
Qed.
(** never the distance of the cells compared, nor the distance of the true value subtracted (except at no cell and at the last one) *)
Lemma axis_wrong nx dx k : (3 <= nx)%nat -> 0 < dx -> (k < nx - 2)%nat -> 
  ((0 < k)%nat -> nth k (axis (nx - 1) dx) 0 <> INR k * dx) /\ nth k (axis (nx - 1) dx) 0 <> INR (k + 1) * dx.
Proof.
  intros Hn Hdx Hk. rewrite axis_nth by lia. assert (P : 0 < INR (nx - 2)) by (apply lt_0_INR; lia).
  assert (N : INR (nx - 1) = INR (nx - 2) + 1) by (rewrite <- S_INR; f_equal; lia).
  assert (K : INR k < INR (nx - 2)) by (apply lt_INR; lia).
  assert (F : INR (nx - 1) / INR (nx - 2) = 1 + / INR (nx - 2)) by (rewrite N; field; lra). rewrite F.
  assert (I : 0 < / INR (nx - 2)) by now apply Rinv_0_lt_compat.
  assert (D : 0 <= INR k * dx) by (apply Rmult_le_pos; [apply pos_INR|lra]). split.
  - intros Hk0 E. assert (0 < INR k) by (now apply lt_0_INR). assert (0 < INR k * dx) by (apply Rmult_lt_0_compat; lra). nra.
  - intros E. rewrite plus_INR in E. change (INR 1) with 1 in E.
    assert (E2 : INR k * / INR (nx - 2) = 1).
    { apply Rmult_eq_reg_r with dx; [|lra]. lra. }
    assert (E3 : INR k = INR (nx - 2)) by (apply Rmult_eq_reg_r with (/ INR (nx - 2)); [rewrite Rinv_r by lra; exact E2|lra]). lra.
Qed.
Lemma or_default_eq s : or_default None default_seed = default_seed /\ or_default (Some 0%Z) default_seed = default_seed /\
  (s <> 0%Z -> or_default (Some s) default_seed = s).
Proof. repeat split. intros H. unfold or_default. destruct (Z.eqb_spec s 0); congruence. Qed.

(** the mean deviation with fields that have exactly the variogram asked for *)
Theorem analysed_mean : forall (o : Z -> outcome Z) (cl : Z -> Z -> Z) s main perp depth azi dp pw (v : variogram (Rlib o cl)),
  @CreateVariogram Rarith s main perp depth azi dp pw = Ok v -> 0 < main -> perp <> 0 -> depth <> 0 -> 0 < pw ->
  (vt v = EXPONENTIAL \/ vt v = SPHERICAL \/ vt v = CONSTANT \/ vt v = GENERAL_EXPONENTIAL /\ pw <= 1) ->
  forall nx n nmax (dx sx : R), (2 <= nx)%nat -> 0 < dx -> (0 < nmax)%nat -> (nx <= n)%nat -> 99999 / 100000 <= sx ->
  forall (W : Type) (E : (W -> R) -> R) (noises : W -> list (list R)), expectation E -> E (fun _ => 1) = 1 ->
  (forall w, List.length (noises w) = (2 + nmax)%nat /\ forall x, In x (noises w) -> List.length x = n) ->
  (forall i, (i < 2 + nmax)%nat -> white E n (fun w => nth i (noises w) [])) ->
  forall k, (k < nx - 2)%nat ->
  exists dev : W -> R,
    (forall w, exists d, analysed (next_field v nx n dx sx) (row nx dx (@GetCorr1 Rarith v)) nmax dx (noises w) = (Ret d, []) /\ nth k d None = Some (dev w)) /\
    E dev = @GetCorr1 Rarith v (INR (Nat.min k (n - k)) * dx) - @GetCorr1 Rarith v (INR (k + 1) * dx).
Proof.
  intros o cl s main perp depth azi dp pw v HC Hmain Hperp Hdepth Hpw HT nx n nmax dx sx Hnx Hdx Hm Hn Hsx W E noises HE HU HL HW k Hk.
  set (t := (10 * ((nmax - 1) / 10))%nat). assert (Ht : (t <= nmax - 1)%nat) by (apply Nat.mul_div_le; lia).
  set (f := fld o cl v nx n dx sx W noises). set (c := @GetCorr1 Rarith v (INR (k + 1) * dx) : R).
  exists (fun w => average (map (fun i => 1 - (nth k (f w i) 0 - nth 0 (f w i) 0) ^ 2 / 2) (seq 0 (t + 1))) + - c * 1). split.
  - intros w. destruct (row_fields o cl v nx n nmax dx sx Hn W noises HL ltac:(lia) w) as (a & b & E1 & E2).
    destruct (row_analysed nx dx (@GetCorr1 Rarith v) _ (next_field v nx n dx sx) nmax (noises w) a b _ [] Hnx Hdx Hm E1 E2) as (d & F1 & F2 & F3).
    exists d. split; [exact F1|]. rewrite (F3 k Hk). fold t c f. rewrite firstn_map.
    replace (firstn (t + 1) (seq 0 nmax)) with (seq 0 (t + 1)).
    + rewrite map_map. f_equal. ring.
    + symmetry. replace (seq 0 nmax) with (seq 0 (t + 1) ++ seq (t + 1) (nmax - (t + 1))).
      * rewrite firstn_app, seq_length, Nat.sub_diag, firstn_O, app_nil_r. apply firstn_all2. rewrite seq_length. lia.
      * transitivity (seq 0 ((t + 1) + (nmax - (t + 1)))); [symmetry; apply (seq_app (t + 1) (nmax - (t + 1)) 0)|f_equal; lia].
  - pose proof HE as (X1 & X2 & X3).
    rewrite (X2 (fun w => average (map (fun i => 1 - (nth k (f w i) 0 - nth 0 (f w i) 0) ^ 2 / 2) (seq 0 (t + 1)))) (fun _ => - c * 1)), (X3 (- c) (fun _ => 1)), HU.
    unfold f. rewrite (fields_mean o cl s main perp depth azi dp pw v HC Hmain Hperp Hdepth Hpw HT nx n nmax dx sx Hn Hsx W E noises); auto; try lia.
    + fold c. match goal with |- ?a = ?b => change (@eq R a b) end. ring.
    + replace (t + 1)%nat with (Datatypes.S t) by lia. discriminate.
    + intros i Hi. apply in_seq in Hi. lia.
Qed.
