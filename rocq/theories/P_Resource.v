(** C82: the resource extrapolator. *)
From Coq Require Import ZArith Bool String Lia Reals Lra Psatz Sorted List.
From Verif Require Import Base Arith M_Variogram M_Dsfmt M_Random M_Field M_Api M_Resource S_Api S_Resource P_Base.
Import ListNotations.
Open Scope Z_scope.

(** ** sizes *)
Lemma sorted_eq (l l' : list Z) : StronglySorted Z.lt l -> StronglySorted Z.lt l' -> (forall x, In x l <-> In x l') -> l = l'.
Proof.
  intros H. revert l'. induction H as [|a l Hl IH Ha]; intros l' H' E.
  - destruct l' as [|b l']; auto. exfalso. apply (E b). now left.
  - destruct H' as [|b l' Hl' Hb]; [exfalso; apply (E a); now left|].
    rewrite Forall_forall in Ha, Hb.
    assert (a = b) as ->.
    { destruct (proj1 (E a) (or_introl eq_refl)) as [|Ia]; auto. destruct (proj2 (E b) (or_introl eq_refl)) as [|Ib]; auto.
      specialize (Ha _ Ib). specialize (Hb _ Ia). lia. }
    f_equal. apply IH; auto. intros x. specialize (E x). cbn in E. split; intros I.
    + destruct (proj1 E (or_intror I)) as [<-|]; auto. specialize (Ha _ I). lia.
    + destruct (proj2 E (or_intror I)) as [<-|]; auto. specialize (Hb _ I). lia.
Qed.
Lemma sorted_map_seq (f : nat -> Z) n : (forall i j, (i < j)%nat -> f i < f j) -> StronglySorted Z.lt (map f (seq 0 n)).
Proof.
  intros Hf. generalize 0%nat as s. induction n as [|n IH]; intros s; cbn; constructor; auto.
  apply Forall_forall. intros x Hx. apply in_map_iff in Hx. destruct Hx as (j & <- & Hj). apply in_seq in Hj. apply Hf. lia.
Qed.
Lemma sorted_filter (p : Z -> bool) l : StronglySorted Z.lt l -> StronglySorted Z.lt (filter p l).
Proof.
  induction 1 as [|a l Hl IH Ha]; cbn; [constructor|]. destruct (p a); auto. constructor; auto.
  rewrite Forall_forall in *. intros x Hx. apply filter_In in Hx. now apply Ha.
Qed.
Lemma range_sizes nmin nmax nstep : 0 < nstep -> py_range nmin (nmax + 1) nstep = Returned (wanted_sizes nmin nmax nstep).
Proof.
  intros Hs. unfold py_range. destruct (Z.eqb_spec nstep 0); [lia|]. destruct (Z.ltb_spec 0 nstep); [|lia]. f_equal.
  apply sorted_eq.
  - apply sorted_map_seq. intros i j H'. nia.
  - apply sorted_filter, sorted_map_seq. intros; lia.
  - intros x. unfold wanted_sizes. rewrite filter_In, !in_map_iff. split.
    + intros (k & <- & Hk). apply in_seq in Hk.
      assert (K : Z.of_nat k < (nmax + 1 - nmin + nstep - 1) / nstep) by lia.
      assert (Z.of_nat k * nstep <= nmax - nmin).
      { pose proof (Z.mul_div_le (nmax + 1 - nmin + nstep - 1) nstep Hs). nia. }
      split.
      * exists (Z.to_nat (Z.of_nat k * nstep)). split; [rewrite Z2Nat.id; nia|]. apply in_seq. nia.
      * apply Z.eqb_eq. replace (nmin + Z.of_nat k * nstep - nmin) with (Z.of_nat k * nstep) by ring. apply Z.mod_mul. lia.
    + intros ((j & <- & Hj) & M). apply in_seq in Hj. apply Z.eqb_eq in M. replace (nmin + Z.of_nat j - nmin) with (Z.of_nat j) in M by ring.
      apply Z.mod_divide in M; [|lia]. destruct M as [q Hq].
      assert (0 <= q) by nia. exists (Z.to_nat q). rewrite Z2Nat.id by lia. split; [lia|]. apply in_seq. split; [lia|]. 
      assert (q < (nmax + 1 - nmin + nstep - 1) / nstep); [|lia].
      apply Z.lt_le_trans with (q + 1); [lia|]. apply Z.div_le_lower_bound; nia.
Qed.
Lemma wanted_ge nmin nmax nstep : Forall (fun n => nmin <= n <= nmax) (wanted_sizes nmin nmax nstep).
Proof.
  apply Forall_forall. intros x Hx. apply filter_In in Hx. destruct Hx as [Hx _]. apply in_map_iff in Hx. destruct Hx as (k & <- & Hk).
  apply in_seq in Hk. lia.
Qed.
Lemma wanted_first nmin nmax nstep : nmin <= nmax -> 0 < nstep -> exists l, wanted_sizes nmin nmax nstep = nmin :: l.
Proof.
  intros H Hs. unfold wanted_sizes. replace (Z.to_nat (nmax + 1 - nmin)) with (S (Z.to_nat (nmax - nmin))) by lia.
  cbn [seq map filter]. replace (nmin + Z.of_nat 0 - nmin) with 0 by lia. rewrite Z.mod_0_l by lia. cbn [Z.eqb]. rewrite Z.add_0_r. eauto.
Qed.
Lemma wanted_none nmin nmax nstep : nmax < nmin -> wanted_sizes nmin nmax nstep = [].
Proof. intros H. unfold wanted_sizes. replace (Z.to_nat (nmax + 1 - nmin)) with 0%nat by lia. reflexivity. Qed.

Section R.
Context {L : Lib}.
Variables (rec : recursion) (fuel : nat) (when : nat -> Z) (took : nat -> R).

Lemma call_cube (r : extrapolator) (v : variogram L) n : the_call r v n = cube v (e_ndims r) n.
Proof. unfold the_call, cube. destruct (e_ndims r) as [|[|[|]]]; reflexivity. Qed.

Lemma loop_run (r : extrapolator) (v : variogram L) ns : forall k st, Forall (fun n => n <> 1) ns ->
  let p := combine (map when (seq k (length ns))) (map (cube v (e_ndims r)) ns) in
  Forall (fun o => exists w, o = Ok w) (fst (run rec fuel p st)) ->
  loop rec fuel when took r v ns k st = (Returned (combine ns (map took (seq k (length ns)))), snd (run rec fuel p st)).
Proof.
  induction ns as [|n ns IH]; intros k st H1; cbn [length seq map combine run loop]; cbv zeta; auto.
  inversion H1 as [|? ? N1 H1']; subst. destruct (Z.eqb_spec (n - 1) 0); [lia|]. rewrite call_cube.
  destruct (step rec fuel (when k) (cube v (e_ndims r) n) st) as [[w| | |] st1].
  - specialize (IH (S k) st1 H1'). cbv zeta in IH. destruct (run rec fuel _ st1) as [os st2]. cbn [fst snd] in *. intros F.
    inversion F; subst. rewrite IH by auto. reflexivity.
  - destruct (run rec fuel _ st1) as [os st2]. cbn [fst]. intros F. inversion F as [|? ? [w E] ?]; discriminate.
  - cbn [fst]. intros F. inversion F as [|? ? [w E] ?]; discriminate.
  - cbn [fst]. intros F. inversion F as [|? ? [w E] ?]; discriminate.
Qed.

Definition is_variogram (vtype : string) (v : variogram L) : Prop :=
  fst (step rec fuel 0 (CVariogram vtype (lit L 500 0) None None None None None) rstate0) = Ok (VVariogram v).
Lemma made vtype v t st : is_variogram vtype v -> step rec fuel t (CVariogram vtype (lit L 500 0) None None None None None) st = (Ok (VVariogram v), st).
Proof. unfold is_variogram. cbn [step fst]. intros ->. reflexivity. Qed.

Lemma c82_calls (r : extrapolator) vtype v st : is_variogram vtype v -> 2 <= e_nmin r -> 0 < e_nstep r ->
  let ns := wanted_sizes (e_nmin r) (e_nmax r) (e_nstep r) in
  let p := at_times (map when (seq 0 (length ns))) (map (cube v (e_ndims r)) ns) in
  Forall (fun o => exists w, o = Ok w) (fst (run rec fuel p st)) ->
  @generate L rec fuel when took r vtype st = (Returned (combine ns (map took (seq 0 (length ns)))), snd (run rec fuel p st)).
Proof.
  intros HV H2 Hs ns p F. unfold generate. rewrite (made vtype v) by auto. rewrite range_sizes by auto. fold ns.
  apply loop_run; auto. eapply Forall_impl; [|apply wanted_ge]. cbn. intros a Ha. lia.
Qed.
Lemma c82_one (r : extrapolator) vtype v st : is_variogram vtype v -> e_nmin r = 1 -> 1 <= e_nmax r -> 0 < e_nstep r ->
  @generate L rec fuel when took r vtype st = (Raised PyZeroDivision, st).
Proof.
  intros HV H1 Hx Hs. unfold generate. rewrite (made vtype v) by auto. rewrite range_sizes by auto.
  destruct (wanted_first (e_nmin r) (e_nmax r) (e_nstep r)) as [l ->]; try lia. rewrite H1. reflexivity.
Qed.
Lemma c82_no_step (r : extrapolator) vtype v st : is_variogram vtype v -> e_nstep r = 0 -> @generate L rec fuel when took r vtype st = (Raised PyValueError, st).
Proof. intros HV H0. unfold generate. rewrite (made vtype v) by auto. unfold py_range. rewrite H0. reflexivity. Qed.
Lemma c82_none (r : extrapolator) vtype v n st : is_variogram vtype v -> 0 < e_nstep r -> e_nmax r < e_nmin r ->
  @generate L rec fuel when took r vtype st = (Returned [], st) /\ @extrapolate L rec fuel when took r n vtype st = (Raised PyIndexError, st).
Proof.
  intros HV Hs Hx. assert (E : @generate L rec fuel when took r vtype st = (Returned [], st)).
  { unfold generate. rewrite (made vtype v) by auto. rewrite range_sizes, wanted_none by auto. reflexivity. }
  split; auto. unfold extrapolate. rewrite E. reflexivity.
Qed.
Lemma c82_unused (r : extrapolator) n n' vtype st : @extrapolate L rec fuel when took r n vtype st = @extrapolate L rec fuel when took r n' vtype st.
Proof. reflexivity. Qed.

(** ** the fit *)
Open Scope R_scope.
Lemma misfit_eq s x y : length x = length y -> misfit s x y = sum_prod y y - 2 * s * sum_prod x y + s ^ 2 * sum_prod x x.
Proof.
  revert y. induction x as [|a x IH]; intros [|b y] H; try discriminate; unfold sum_prod; cbn [misfit combine map fold_right]; [lra|].
  rewrite IH by (now injection H). unfold sum_prod. ring.
Qed.
Lemma sum_sq x : 0 <= sum_prod x x /\ (sum_prod x x = 0 -> Forall (fun a => a = 0) x).
Proof.
  induction x as [|a x [H1 H2]]; unfold sum_prod; cbn [combine map fold_right]; [split; [lra|constructor]|]. fold (sum_prod x x).
  assert (0 <= a * a) by apply Rle_0_sqr. split; [lra|]. intros H0. constructor; [|apply H2; lra]. assert (a * a = 0) by lra. nra.
Qed.
Lemma fit_min x y s : length x = length y -> misfit (lstsq x y) x y <= misfit s x y.
Proof.
  intros H. rewrite !misfit_eq by auto. unfold lstsq. destruct (sum_sq x) as [P Z]. destruct (Req_EM_T _ _) as [E|E].
  - rewrite E. specialize (Z E). assert (X : sum_prod x y = 0).
    { clear -Z. revert y. induction Z as [|a x -> Z IH]; intros [|b y]; unfold sum_prod; cbn [combine map fold_right]; auto. fold (sum_prod x y). rewrite IH. ring. }
    rewrite X. lra.
  - set (A := sum_prod x x) in *. set (B := sum_prod x y). assert (A > 0) by lra.
    assert (Q : 0 <= A * (s - B / A) ^ 2) by (apply Rmult_le_pos; [lra|apply pow2_ge_0]).
    assert (E1 : A * (s - B / A) ^ 2 = s ^ 2 * A - 2 * s * B + B * B / A) by (field; lra).
    assert (E2 : - 2 * (B / A) * B + (B / A) ^ 2 * A = - (B * B / A)) by (field; lra).
    lra.
Qed.
Lemma fit_unique x y s : length x = length y -> Exists (fun a => a <> 0) x -> misfit s x y <= misfit (lstsq x y) x y -> s = lstsq x y.
Proof.
  intros H N M. rewrite !misfit_eq in M by auto. revert M. unfold lstsq. destruct (sum_sq x) as [P Z]. destruct (Req_EM_T _ _) as [E|E].
  - specialize (Z E). exfalso. apply Exists_exists in N. destruct N as (a & I & Ha). rewrite Forall_forall in Z. auto.
  - set (A := sum_prod x x) in *. set (B := sum_prod x y). intros M. assert (A > 0) by lra.
    assert (E1 : A * (s - B / A) ^ 2 = s ^ 2 * A - 2 * s * B + B * B / A) by (field; lra).
    assert (E2 : - 2 * (B / A) * B + (B / A) ^ 2 * A = - (B * B / A)) by (field; lra).
    assert (Q : A * (s - B / A) ^ 2 <= 0) by lra. assert (0 <= (s - B / A) ^ 2) by apply pow2_ge_0.
    assert ((s - B / A) ^ 2 = 0) by nra. assert (s - B / A = 0) by nra. lra.
Qed.
Lemma misfit_nonneg s x y : 0 <= misfit s x y.
Proof. revert y. induction x as [|a x IH]; intros [|b y]; cbn [misfit]; try lra. specialize (IH y). pose proof (pow2_ge_0 (b - s * a)). lra. Qed.
Lemma fit_line x k : Exists (fun a => a <> 0) x -> lstsq x (map (Rmult k) x) = k.
Proof.
  intros N. symmetry. apply fit_unique; auto; [now rewrite map_length|].
  assert (E : misfit k x (map (Rmult k) x) = 0) by (clear; induction x; cbn [misfit map]; [reflexivity|rewrite IHx; ring]).
  rewrite E. apply misfit_nonneg.
Qed.
Lemma c82_fit (r : extrapolator) n vtype st st' data : @generate L rec fuel when took r vtype st = (Returned data, st') -> data <> [] ->
  exists x y s, @extrapolate L rec fuel when took r n vtype st = (Returned (x, y, s), st') /\
    x = map (fun q => IZR (fst q) ^ e_ndims r) data /\ y = map snd data /\ forall s', misfit s x y <= misfit s' x y.
Proof.
  intros E N. unfold extrapolate. rewrite E. destruct data as [|q data]; [congruence|].
  eexists _, _, _. split; [reflexivity|]. split; [|split; [reflexivity|]].
  - apply map_ext. intros []. reflexivity.
  - intros s'. apply fit_min. now rewrite !map_length.
Qed.
Lemma c82_line (r : extrapolator) n vtype st st' data k : @generate L rec fuel when took r vtype st = (Returned data, st') -> data <> [] ->
  (forall m t, In (m, t) data -> (2 <= m)%Z /\ t = k * IZR m ^ e_ndims r) ->
  exists x y, @extrapolate L rec fuel when took r n vtype st = (Returned (x, y, k), st').
Proof.
  intros E N H. unfold extrapolate. rewrite E. destruct data as [|q data]; [congruence|]. 
  eexists _, _. do 3 f_equal. set (d := q :: data) in *. set (x := map _ d).
  replace (map snd d) with (map (Rmult k) x).
  - apply fit_line. unfold x, d. cbn [map]. apply Exists_cons_hd. destruct q as [m t]. apply pow_nonzero. apply not_0_IZR.
    destruct (H m t (or_introl eq_refl)). lia.
  - unfold x. rewrite map_map. apply map_ext_in. intros [m t] I. destruct (H m t I) as [_ ->]. reflexivity.
Qed.
End R.
