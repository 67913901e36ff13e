(** The estimate in terms of averages, and its expectation. *)
From Coq Require Import ZArith List Bool Reals Lia Lra Permutation.
From Flocq Require Import Core.Raux.
From Verif Require Import S_Spectrum M_Util S_Util P_Base P_Util P_Util2.
Import ListNotations.
Open Scope R_scope.

Lemma simulated_length {S} (sim : S -> option (list R) * S) n : forall s xs s', simulated sim n s = Some (xs, s') -> length xs = n.
Proof.
  induction n as [|n IH]; intros s xs s' H; cbn [simulated] in H.
  - injection H as <- <-. reflexivity.
  - destruct (sim s) as [[x|] s1]; [|discriminate]. destruct (simulated sim n s1) as [[xs1 s2]|] eqn:E; [|discriminate].
    injection H as <- <-. cbn [length]. f_equal. eapply IH; eauto.
Qed.

Lemma total_app a b : total (a ++ b) = total a + total b.
Proof. unfold total. induction a as [|x a IH]; cbn [app fold_right]; [ring|]. rewrite IH. ring. Qed.
Lemma fold_zero {A} (f : A -> option R) (u : A -> bool) (h : A -> R) l :
  (forall x, In x l -> f x = Some (if u x then h x else 0)) ->
  forall a, fold_left oplus (map f l) (Some a) = Some (a + total (map h (filter u l))).
Proof.
  unfold total. induction l as [|x l IH]; intros H a; cbn [map fold_left filter fold_right]; [f_equal; ring|].
  rewrite (H x (or_introl eq_refl)). cbn [oplus]. rewrite IH by (intros; apply H; now right). f_equal.
  destruct (u x); cbn [map fold_right]; ring.
Qed.

Section Est.
Variable e : ev.
Variable resolution : R.
Hypothesis Hr : 0 < resolution.

(** the choices made in a statement agree with the model's *)
Lemma choice r f nb k l : in_grid e r -> farthest e r f -> parts f resolution nb -> cells_in e r f nb k l ->
  far e r = f /\ nbins e resolution r = nb /\ ((k < nb)%nat -> Permutation (bin_cells e r f nb k) l).
Proof.
  intros Hg Hf Hp Hc. pose proof (farthest_eq e r f Hg Hf) as E. subst f.
  assert (En : nbins e resolution r = nb) by (apply nbins_parts; auto). repeat split; auto.
  intros Hk. apply (cells_in_perm e r (far e r) nb k); auto. apply bin_cells_in; auto; try lia.
  apply (nbins_pos e resolution); auto. lia.
Qed.

Lemma local_value (far_ : cell -> R) (nb : cell -> nat) (cells : cell -> list cell) refs k g :
  (forall r, In r refs -> in_grid e r /\ farthest e r (far_ r) /\ parts (far_ r) resolution (nb r) /\ cells_in e r (far_ r) (nb r) k (cells r)) ->
  used e resolution k refs = filter (fun r => (k <? nb r)%nat) refs /\
  (filter (fun r => (k <? nb r)%nat) refs <> [] -> (forall r, In r (filter (fun r => (k <? nb r)%nat) refs) -> cells r <> []) ->
   local e resolution g refs k = Some (average (map (fun r => average (map (pair_value g r) (cells r))) (filter (fun r => (k <? nb r)%nat) refs)))) /\
  (filter (fun r => (k <? nb r)%nat) refs = [] \/ (exists r, In r (filter (fun r => (k <? nb r)%nat) refs) /\ cells r = []) ->
   local e resolution g refs k = None).
Proof.
  intros H. assert (EU : used e resolution k refs = filter (fun r => (k <? nb r)%nat) refs).
  { unfold used. apply filter_ext_in. intros r Hi. destruct (H r Hi) as (Hg & Hf & Hp & Hc).
    destruct (choice r _ _ _ _ Hg Hf Hp Hc) as (_ & -> & _). reflexivity. }
  split; [exact EU|]. unfold local. rewrite EU. set (u := filter (fun r => (k <? nb r)%nat) refs). split.
  - intros Hu Hc0.
    rewrite (fold_zero (contrib e resolution g k) (fun r => (k <? nb r)%nat) (fun r => average (map (pair_value g r) (cells r)))).
    + fold u. unfold over. assert (0 < INR (length u)) by (apply lt_0_INR; destruct u; [congruence|cbn; lia]).
      destruct (Req_EM_T (INR (length u)) 0); [lra|]. rewrite average_total, map_length, Rplus_0_l. reflexivity.
    + intros r Hi. destruct (H r Hi) as (Hg & Hf & Hp & Hc). destruct (choice r _ _ _ _ Hg Hf Hp Hc) as (E1 & E2 & E3).
      unfold contrib. rewrite E2. destruct (Nat.ltb_spec k (nb r)) as [Hk|Hk]; [|reflexivity]. specialize (E3 Hk).
      assert (Hn : cells r <> []).
      { apply Hc0. unfold u. apply filter_In. split; auto. now apply Nat.ltb_lt. }
      rewrite E1. rewrite mean_average.
      * f_equal. apply average_perm, Permutation_map, E3.
      * intros E4. apply map_eq_nil in E4. rewrite E4 in E3. apply Permutation_nil in E3. contradiction.
  - intros [Hu|(r & Hi & He)].
    + rewrite Hu. unfold over. change (INR (length (@nil cell))) with 0.
      destruct (fold_left oplus (map (contrib e resolution g k) refs) (Some 0)); [|reflexivity]. destruct (Req_EM_T 0 0); [reflexivity|lra].
    + rewrite fold_oplus_in; [reflexivity|]. apply in_map_iff. exists r. unfold u in Hi. apply filter_In in Hi as [Hi Hk].
      split; auto. destruct (H r Hi) as (Hg & Hf & Hp & Hc). destruct (choice r _ _ _ _ Hg Hf Hp Hc) as (E1 & E2 & E3).
      apply Nat.ltb_lt in Hk. specialize (E3 Hk). unfold contrib. rewrite E2. apply Nat.ltb_lt in Hk. rewrite Hk. rewrite E1.
      rewrite He in E3. apply Permutation_sym, Permutation_nil in E3. rewrite E3. reflexivity.
Qed.
End Est.

Lemma suits_bins e resolution r : 0 < resolution -> suits e resolution r -> in_grid e r /\ (0 < nbins e resolution r)%nat.
Proof.
  intros Hr (Hg & m & Hf & Hm). split; auto. rewrite <- (farthest_eq e r m Hg Hf) in Hm.
  destruct (Nat.eq_dec (nbins e resolution r) 0) as [E|]; [|lia]. apply (nbins_parts e resolution Hr r 0 Hg) in E as [_ E].
  change (INR (0 + 1)) with 1 in E. lra.
Qed.

Theorem c59 : forall (S : Type) (sim : S -> option (list R) * S) e nmax resolution refs s a b xs s',
  proper e -> 0 < resolution -> (0 < nmax)%nat ->
  suits e resolution origin -> (forall r, In r refs -> suits e resolution r) ->
  simulated sim (2 + nmax) s = Some (a :: b :: xs, s') ->
  (forall x, In x (a :: b :: xs) -> length x = (ev_nx e * ev_ny e * ev_nz e)%nat) ->
  exists distances estimates samples, estimate_variogram sim e nmax resolution refs s = (Ret (distances, estimates, samples), s') /\
  forall m n, farthest e origin m -> parts m resolution n ->
  length distances = n /\ length estimates = n /\ length samples = n /\
  forall k, (k < n)%nat ->
  nth k distances 0 = m * INR (k + 1) / INR n /\
  forall (far_ : cell -> R) (nb : cell -> nat) (cells : cell -> list cell),
  (forall r, In r refs -> farthest e r (far_ r) /\ parts (far_ r) resolution (nb r) /\ cells_in e r (far_ r) (nb r) k (cells r)) ->
  let u := filter (fun r => (k <? nb r)%nat) refs in
  nth k samples 0 = INR nmax * INR (length u) /\
  (u <> [] -> (forall r, In r u -> cells r <> []) ->
   nth k estimates None = Some (average (map (fun x => average (map (fun r => average (map (pair_value (as_grid e x) r) (cells r))) u)) xs))) /\
  (u = [] \/ (exists r, In r u /\ cells r = []) -> nth k estimates None = None).
Proof.
  intros S sim e nmax resolution refs s a b xs s' Hpr Hr Hm Ho Hrefs H Hl.
  destruct (suits_bins _ _ _ Hr Ho) as [Ho1 Ho2].
  rewrite (estimate_ok e resolution Hr Hpr sim nmax refs s a b xs s'); auto.
  2:{ apply Forall_forall. intros r Hi. apply suits_bins; auto. }
  2:{ apply Forall_forall. exact Hl. }
  cbv zeta. eexists _, _, _. split; [reflexivity|]. intros m n Hf Hp.
  pose proof (farthest_eq e origin m Ho1 Hf) as E. assert (En : nbins e resolution origin = n) by (apply nbins_parts; auto; now rewrite E).
  rewrite En, E. rewrite !map_length, !seq_length. split; [reflexivity|]. split; [reflexivity|]. split; [reflexivity|].
  intros k Hk. rewrite !nth_map_seq by auto. split; [reflexivity|]. intros far_ nb cells Hc. set (u := filter (fun r => (k <? nb r)%nat) refs).
  assert (Hc' : forall r, In r refs -> in_grid e r /\ farthest e r (far_ r) /\ parts (far_ r) resolution (nb r) /\ cells_in e r (far_ r) (nb r) k (cells r)).
  { intros r Hi. split; auto. apply Hrefs; auto. }
  assert (Lx : length xs = nmax).
  { apply simulated_length in H. cbn [length Nat.add] in H. lia. }
  assert (Nm : 0 < INR nmax) by (apply lt_0_INR; auto).
  split; [|split].
  - destruct (local_value e resolution Hr far_ nb cells refs k (fun _ => 0) Hc') as (-> & _). reflexivity.
  - intros Hu Hne.
    rewrite (fold_zero (fun x => local e resolution (as_grid e x) refs k) (fun _ => true)
               (fun x => average (map (fun r => average (map (pair_value (as_grid e x) r) (cells r))) u))).
    + rewrite average_total, map_length, Lx. unfold over. destruct (Req_EM_T (INR nmax) 0); [lra|]. do 2 f_equal. rewrite Rplus_0_l. f_equal. f_equal.
      clear. induction xs as [|x xs IH]; cbn [filter]; congruence.
    + intros x _. apply (local_value e resolution Hr far_ nb cells refs k (as_grid e x) Hc'); auto.
  - intros Hu. destruct xs as [|x xs]; [cbn in Lx; lia|]. rewrite fold_oplus_in; [reflexivity|].
    cbn [map]. left. apply (local_value e resolution Hr far_ nb cells refs k (as_grid e x) Hc'); auto.
Qed.

(** expectations of averages *)
Lemma E_const0 {W} (E : (W -> R) -> R) : expectation E -> E (fun _ => 0) = 0.
Proof. intros (H1 & H2 & H3). rewrite (H1 (fun _ => 0) (fun _ => 0 * 0)) by (intros; ring). rewrite (H3 0 (fun _ => 0)). ring. Qed.
Lemma E_total {W A} (E : (W -> R) -> R) (f : W -> A -> R) l : expectation E ->
  E (fun w => total (map (f w) l)) = total (map (fun x => E (fun w => f w x)) l).
Proof.
  intros HE. pose proof HE as (H1 & H2 & H3). unfold total. induction l as [|x l IH]; cbn [map fold_right]; [now apply E_const0|].
  rewrite H2, IH. reflexivity.
Qed.
Lemma E_average {W A} (E : (W -> R) -> R) (f : W -> A -> R) l : expectation E ->
  E (fun w => average (map (f w) l)) = average (map (fun x => E (fun w => f w x)) l).
Proof.
  intros HE. pose proof HE as (H1 & H2 & H3). rewrite average_total, map_length, <- E_total by auto.
  rewrite (H1 _ (fun w => / INR (length l) * total (map (f w) l))).
  - rewrite H3. unfold Rdiv. ring.
  - intros w. rewrite average_total, map_length. unfold Rdiv. ring.
Qed.
Lemma E_pair {W} (E : (W -> R) -> R) (g : W -> grid) C r p : expectation E -> E (fun _ => 1) = 1 ->
  E (fun w => g w r * g w r) = 1 -> E (fun w => g w p * g w p) = 1 -> E (fun w => g w r * g w p) = C ->
  E (fun w => pair_value (g w) r p) = C.
Proof.
  intros (H1 & H2 & H3) HU Hr Hp HC. unfold pair_value.
  rewrite (H1 _ (fun w => (1 + (-/2) * (g w r * g w r)) + ((-/2) * (g w p * g w p) + 1 * (g w r * g w p)))) by (intros; field).
  rewrite (H2 (fun w => 1 + (-/2) * (g w r * g w r)) (fun w => (-/2) * (g w p * g w p) + 1 * (g w r * g w p))).
  rewrite (H2 (fun w => 1) (fun w => (-/2) * (g w r * g w r))), (H2 (fun w => (-/2) * (g w p * g w p)) (fun w => 1 * (g w r * g w p))), !H3.
  rewrite HU, Hr, Hp, HC. field.
Qed.
Lemma average_ext {A} (f g : A -> R) l : (forall x, In x l -> f x = g x) -> average (map f l) = average (map g l).
Proof. intros H. f_equal. apply map_ext_in. exact H. Qed.
Lemma average_const {A} (c : R) (l : list A) : l <> [] -> average (map (fun _ => c) l) = c.
Proof.
  intros H. rewrite average_total, map_length, (total_ext (fun _ => c) (fun x => c + 0 * 0)) by (intros; ring).
  rewrite (total_map_lin (fun _ => 0)). assert (0 < INR (length l)) by (apply lt_0_INR; destruct l; [congruence|cbn; lia]). field. lra.
Qed.

Lemma as_seq {A} (l : list A) d : l = map (fun i => nth i l d) (seq 0 (length l)).
Proof.
  apply nth_ext with (d := d) (d' := d); [now rewrite map_length, seq_length|]. intros i Hi. rewrite nth_map_seq by auto. reflexivity.
Qed.

(** unbiased at the cells' own distances *)
Theorem c59_mean : forall (W S : Type) (E : (W -> R) -> R) (sim : S -> option (list R) * S) e nmax resolution refs
    (s s' : W -> S) (a b : W -> list R) (xs : W -> list (list R)) (C : cell -> cell -> R),
  expectation E -> E (fun _ => 1) = 1 ->
  proper e -> 0 < resolution -> (0 < nmax)%nat ->
  suits e resolution origin -> (forall r, In r refs -> suits e resolution r) ->
  (forall w, simulated sim (2 + nmax) (s w) = Some (a w :: b w :: xs w, s' w)) ->
  (forall w x, In x (a w :: b w :: xs w) -> length x = (ev_nx e * ev_ny e * ev_nz e)%nat) ->
  (forall i p q, (i < nmax)%nat -> in_grid e p -> in_grid e q ->
     E (fun w => as_grid e (nth i (xs w) []) p * as_grid e (nth i (xs w) []) q) = C p q) ->
  (forall p, in_grid e p -> C p p = 1) ->
  forall m n, farthest e origin m -> parts m resolution n -> forall k, (k < n)%nat ->
  forall (far_ : cell -> R) (nb : cell -> nat) (cells : cell -> list cell),
  (forall r, In r refs -> farthest e r (far_ r) /\ parts (far_ r) resolution (nb r) /\ cells_in e r (far_ r) (nb r) k (cells r)) ->
  let u := filter (fun r => (k <? nb r)%nat) refs in
  u <> [] -> (forall r, In r u -> cells r <> []) ->
  exists est : W -> R,
    (forall w, exists distances estimates samples, estimate_variogram sim e nmax resolution refs (s w) = (Ret (distances, estimates, samples), s' w) /\
       nth k estimates None = Some (est w)) /\
    E est = average (map (fun r => average (map (C r) (cells r))) u).
Proof.
  intros W S E sim e nmax resolution refs s s' a b xs C HE HU Hpr Hr Hm Ho Hrefs H Hl HC H1 m n Hf Hp k Hk far_ nb cells Hc u Hu Hne.
  exists (fun w => average (map (fun x => average (map (fun r => average (map (pair_value (as_grid e x) r) (cells r))) u)) (xs w))). split.
  - intros w. destruct (c59 S sim e nmax resolution refs (s w) (a w) (b w) (xs w) (s' w) Hpr Hr Hm Ho Hrefs (H w) (Hl w)) as (ds & es & ns & E1 & E2).
    exists ds, es, ns. split; [exact E1|]. destruct (E2 m n Hf Hp) as (_ & _ & _ & E3). destruct (E3 k Hk) as (_ & E4).
    destruct (E4 far_ nb cells Hc) as (_ & E5 & _). apply E5; auto.
  - pose proof HE as (X1 & X2 & X3).
    assert (Lx : forall w, length (xs w) = nmax).
    { intros w. pose proof (simulated_length _ _ _ _ _ (H w)) as L. cbn [length Nat.add] in L. lia. }
    rewrite (X1 _ (fun w => average (map (fun i => average (map (fun r => average (map (pair_value (as_grid e (nth i (xs w) [])) r) (cells r))) u)) (seq 0 nmax)))).
    2:{ intros w. rewrite (as_seq (xs w) []) at 1. rewrite map_map, Lx. reflexivity. }
    rewrite (E_average E (fun w i => average (map (fun r => average (map (pair_value (as_grid e (nth i (xs w) [])) r) (cells r))) u))) by auto.
    rewrite (average_ext _ (fun _ => average (map (fun r => average (map (C r) (cells r))) u))).
    + apply average_const. destruct nmax; [lia|discriminate].
    + intros i Hi. apply in_seq in Hi.
      rewrite (E_average E (fun w r => average (map (pair_value (as_grid e (nth i (xs w) [])) r) (cells r)))) by auto.
      apply average_ext. intros r Hru.
      rewrite (E_average E (fun w p => pair_value (as_grid e (nth i (xs w) [])) r p)) by auto.
      apply average_ext. intros p Hpc.
      assert (Hri : In r refs) by (unfold u in Hru; apply filter_In in Hru; tauto).
      destruct (Hc r Hri) as (_ & _ & Hcc). apply Hcc in Hpc as [Hpg _]. destruct (Hrefs r Hri) as [Hrg _].
      apply (E_pair E (fun w => as_grid e (nth i (xs w) []))); auto; rewrite HC by (auto; lia); auto.
Qed.
