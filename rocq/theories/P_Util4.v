(** One row of cells, bins as wide as the cells, the first cell as the only reference point. *)
From Coq Require Import ZArith List Bool Reals Lia Lra Permutation String.
From Coq Require Import List.
From Flocq Require Import Core.Raux.
From Verif Require Import Base Arith RealArith M_Variogram M_CovGrid M_Field S_Spectrum S_Vario P_Vario P_VarioMore P_DftMain P_Images2 M_Util S_Util P_Base P_Util P_Util2 P_Util3.
Import ListNotations.
Open Scope R_scope.

Section Row.
Variables (nx : nat) (dx : R) (corr : R -> R).
Hypothesis Hnx : (2 <= nx)%nat.
Hypothesis Hdx : 0 < dx.
Let e := row nx dx corr.

Lemma row_in i j k : in_grid e (i, j, k) <-> (i < nx)%nat /\ j = 0%nat /\ k = 0%nat.
Proof. cbn. lia. Qed.
Lemma row_dist i : dist e origin (i, 0, 0)%nat = INR i * dx.
Proof.
  unfold dist, origin. cbn [ev_dx ev_dy ev_dz e row]. change (INR 0) with 0.
  replace ((dx * 0 - dx * INR i) ^ 2 + (0 * 0 - 0 * 0) ^ 2 + (0 * 0 - 0 * 0) ^ 2) with ((INR i * dx) ^ 2) by ring.
  apply sqrt_pow2. apply Rmult_le_pos; [apply pos_INR|lra].
Qed.
Lemma row_far : farthest e origin (INR (nx - 1) * dx).
Proof.
  split.
  - exists (nx - 1, 0, 0)%nat. split; [apply row_in; lia|]. apply row_dist.
  - intros [[i j] k] H. apply row_in in H as (Hi & -> & ->). change (dist e origin (i, 0, 0)%nat <= INR (nx - 1) * dx). rewrite row_dist.
    apply Rmult_le_compat_r; [lra|]. apply le_INR. lia.
Qed.
Lemma row_origin : in_grid e origin.
Proof. apply row_in. lia. Qed.
Lemma row_parts : parts (INR (nx - 1) * dx) dx (nx - 1).
Proof. split; [lra|]. apply Rmult_lt_compat_r; [lra|]. apply lt_INR. lia. Qed.
Lemma row_suits : suits e dx origin.
Proof.
  split; [apply row_origin|]. eexists. split; [apply row_far|]. rewrite <- (Rmult_1_l dx) at 1. apply Rmult_le_compat_r; [lra|].
  change 1 with (INR 1). apply le_INR. lia.
Qed.
Lemma row_proper : proper e.
Proof. intros _. reflexivity. Qed.

Lemma row_part k i : (k < nx - 1)%nat -> (i < nx)%nat ->
  (in_part (INR (nx - 1) * dx) (nx - 1) k (INR i * dx) <-> i = k \/ (k + 1 = nx - 1 /\ i = nx - 1)%nat).
Proof.
  intros Hk Hi. unfold in_part. assert (P : 0 < INR (nx - 1)) by (apply lt_0_INR; lia).
  replace (INR (nx - 1) * dx * INR k / INR (nx - 1)) with (INR k * dx) by (field; lra).
  replace (INR (nx - 1) * dx * INR (k + 1) / INR (nx - 1)) with (INR (k + 1) * dx) by (field; lra).
  split.
  - intros [_ [[H1 H2]|[H1 H2]]].
    + left. apply Rmult_le_reg_r in H1; [|lra]. apply Rmult_lt_reg_r in H2; [|lra]. apply INR_le in H1. apply INR_lt in H2. lia.
    + right. split; [exact H1|]. apply Rmult_eq_reg_r in H2; [|lra]. now apply INR_eq in H2.
  - intros [->|[H1 ->]]; (split; [exact Hk|]).
    + left. split; [lra|]. apply Rmult_lt_compat_r; [lra|]. apply lt_INR. lia.
    + right. auto.
Qed.
Lemma row_cells k : (k < nx - 2)%nat -> cells_in e origin (INR (nx - 1) * dx) (nx - 1) k [(k, 0, 0)%nat].
Proof.
  intros Hk. split; [repeat constructor; intros []|]. intros [[i j] l]. rewrite row_in. split.
  - intros [E|[]]. injection E as <- <- <-. split; [lia|]. change (in_part (INR (nx - 1) * dx) (nx - 1) k (dist e origin (k, 0, 0)%nat)).
    rewrite row_dist. apply row_part; lia.
  - intros ((Hi & -> & ->) & H). change (in_part (INR (nx - 1) * dx) (nx - 1) k (dist e origin (i, 0, 0)%nat)) in H.
    rewrite row_dist in H. apply row_part in H; try lia. destruct H as [->|H]; [now left|lia].
Qed.

(** the estimate reported at (k+1)*dx is about cells k apart *)
Theorem row_estimate : forall (S : Type) (sim : S -> option (list R) * S) nmax s a b xs s', (0 < nmax)%nat ->
  simulated sim (2 + nmax) s = Some (a :: b :: xs, s') -> (forall x, In x (a :: b :: xs) -> length x = nx) ->
  exists distances estimates samples, estimate_variogram sim e nmax dx [origin] s = (Ret (distances, estimates, samples), s') /\
  length distances = (nx - 1)%nat /\
  forall k, (k < nx - 2)%nat ->
    nth k distances 0 = INR (k + 1) * dx /\
    nth k estimates None = Some (average (map (fun x => 1 - (nth k x 0 - nth 0 x 0) ^ 2 / 2) xs)).
Proof.
  intros S sim nmax s a b xs s' Hm H Hl.
  destruct (c59 S sim e nmax dx [origin] s a b xs s') as (ds & es & ns & E1 & E2); auto using row_proper, row_suits.
  { intros r [<-|[]]. apply row_suits. }
  { intros x Hx. rewrite (Hl x Hx). cbn. lia. }
  exists ds, es, ns. split; [exact E1|]. destruct (E2 _ _ row_far row_parts) as (L1 & _ & _ & E3). split; [exact L1|].
  intros k Hk. destruct (E3 k ltac:(lia)) as (E4 & E5). split.
  - rewrite E4. assert (P : 0 < INR (nx - 1)) by (apply lt_0_INR; lia). field. lra.
  - destruct (E5 (fun _ => INR (nx - 1) * dx) (fun _ => (nx - 1)%nat) (fun _ => [(k, 0, 0)%nat])) as (_ & E6 & _).
    { intros r [<-|[]]. split; [apply row_far|]. split; [apply row_parts|]. now apply row_cells. }
    cbn [filter] in E6. destruct (Nat.ltb_spec k (nx - 1)); [|lia]. rewrite E6 by (intros; discriminate).
    f_equal. apply average_ext. intros x _. cbn [map]. unfold average at 1 2. cbn [fold_right length]. change (INR 1) with 1.
    unfold pair_value, as_grid, origin. cbn [ev_nx ev_ny e row]. replace (k + nx * (0 + 1 * 0))%nat with k by lia. replace (0 + nx * (0 + 1 * 0))%nat with 0%nat by lia. field.
Qed.
End Row.

(** simulations one after the other, each with its own noise *)
Definition next_field {o cl} (v : variogram (Rlib o cl)) (nx n : nat) (dx sx : R) (s : list (list R)) : option (list R) * list (list R) :=
  match s with
  | [] => (None, [])
  | x :: s => (match @field1d (Rlib o cl) v nx n dx sx x with Ok f => Some f | _ => None end, s)
  end.

Lemma simulated_fields o cl (v : variogram (Rlib o cl)) nx n dx sx k : forall (s : list (list R)), length s = k -> (0 < n)%nat -> (nx <= n)%nat ->
  (forall x, In x s -> length x = n) ->
  exists xs, simulated (next_field v nx n dx sx) k s = Some (xs, []) /\ (forall f, In f xs -> length f = nx) /\
    forall i, (i < k)%nat -> @field1d (Rlib o cl) v nx n dx sx (nth i s []) = Ok (nth i xs []).
Proof.
  induction k as [|k IH]; intros s Hs Hn Hx Hl.
  - destruct s; [|discriminate]. exists []. repeat split; [intros f []|intros i Hi; lia].
  - destruct s as [|x s]; [discriminate|]. cbn [length] in Hs.
    destruct (IH s) as (xs & E1 & E2 & E3); auto. { intros y Hy. apply Hl. now right. }
    destruct (P_DftField.field1d_lin o cl v nx n dx sx x Hn Hx) as (f & F1 & F2 & _). { apply Hl. now left. }
    exists (f :: xs). cbn [simulated next_field]. rewrite F1, E1. repeat split.
    + intros g [<-|Hg]; auto.
    + intros [|i] Hi; cbn [nth]; [exact F1|]. apply E3. lia.
Qed.

Section Mean.
Context (o : Z -> outcome Z) (cl : Z -> Z -> Z).
Variables (s : string) (main perp depth azi dp pw : R) (v : variogram (Rlib o cl)).
Hypothesis HC : @CreateVariogram Rarith s main perp depth azi dp pw = Ok v.
Hypothesis (Hmain : 0 < main) (Hperp : perp <> 0) (Hdepth : depth <> 0) (Hpw : 0 < pw).
Hypothesis HT : vt v = EXPONENTIAL \/ vt v = SPHERICAL \/ vt v = CONSTANT \/ vt v = GENERAL_EXPONENTIAL /\ pw <= 1.

Lemma corr_at_0 : @GetCorr1 Rarith v 0 = 1.
Proof.
  destruct (c36_3d _ _ _ _ _ _ _ _ HC Hmain Hperp Hdepth Hpw) as [X _].
  exact (eq_trans (corr1_2 v 0) (eq_trans (corr2_3 v 0 0) X)).
Qed.
(** exponential correlations decrease strictly along x *)
Lemma corr_strict (x y : R) : vt v = EXPONENTIAL -> 0 <= x < y -> @GetCorr1 Rarith v y < @GetCorr1 Rarith v x.
Proof.
  intros T H. rewrite !corr1_2, !corr2_3. destruct (created_corr _ _ _ _ _ _ _ _ HC Hmain Hperp Hdepth Hpw) as [_ G].
  assert (T' : @vt Rarith v = EXPONENTIAL) by exact T. rewrite !G, T'.
  cbn [corr_fun]. apply exp_increasing. pose proof (or_main_nz main perp Hmain Hperp) as Hp'. pose proof (or_main_nz main depth Hmain Hdepth) as Hd'.
  set (nd := ndist main (or_main main perp) (or_main main depth) (radians azi) (radians dp)).
  assert (S : nd (x, 0, 0) = x / y * nd (y, 0, 0)).
  { unfold nd. rewrite <- (Rabs_pos_eq (x / y)) by (apply Rmult_le_pos; [lra|left; apply Rinv_0_lt_compat; lra]).
    rewrite <- ndist_scale by lra. f_equal. unfold scale. cbn [fst snd]. f_equal; [f_equal|]; field; lra. }
  assert (P : 0 < nd (y, 0, 0)).
  { destruct (Req_EM_T (nd (y, 0, 0)) 0) as [Z|Z].
    - apply ndist_zero in Z; try lra. injection Z as Z. lra.
    - pose proof (ndist_nonneg main (or_main main perp) (or_main main depth) (radians azi) (radians dp) (y, 0, 0)) as N. fold nd in N. lra. }
  change (- 3 * nd (y, 0, 0) < - 3 * nd (x, 0, 0)). rewrite S. assert (x / y < 1) by (apply Rmult_lt_reg_r with y; [lra|]; unfold Rdiv; rewrite Rmult_assoc, Rinv_l, Rmult_1_r by lra; lra).
  nra.
Qed.

Section Noise.
Variables (nx n nmax : nat) (dx sx : R).
Hypothesis (Hn : (nx <= n)%nat) (Hsx : 99999 / 100000 <= sx).
Variables (W : Type) (E : (W -> R) -> R) (noises : W -> list (list R)).
Hypothesis (HE : expectation E) (HU : E (fun _ => 1) = 1).
Hypothesis HL : forall w, length (noises w) = (2 + nmax)%nat /\ forall x, In x (noises w) -> length x = n.
Hypothesis HW : forall i, (i < 2 + nmax)%nat -> white E n (fun w => nth i (noises w) []).

Definition fld (w : W) (i : nat) : list R := got (@field1d (Rlib o cl) v nx n dx sx (nth (2 + i) (noises w) [])).

Lemma row_fields : (0 < nx)%nat -> forall w, exists a b, simulated (next_field v nx n dx sx) (2 + nmax) (noises w) = Some (a :: b :: map (fld w) (seq 0 nmax), []) /\
  forall f, In f (a :: b :: map (fld w) (seq 0 nmax)) -> length f = nx.
Proof.
  intros H0 w. destruct (HL w) as [L1 L2].
  destruct (simulated_fields o cl v nx n dx sx (2 + nmax) (noises w) L1) as (xs & E1 & E2 & E3); auto; try lia.
  pose proof (simulated_length _ _ _ _ _ E1) as Lx. destruct xs as [|a [|b xs]]; try (cbn in Lx; lia). cbn [length Nat.add] in Lx.
  assert (EX : xs = map (fld w) (seq 0 nmax)).
  { rewrite (as_seq xs []). replace (length xs) with nmax by lia. apply map_ext_in. intros i Hi. apply in_seq in Hi.
    unfold fld. rewrite (E3 (2 + i)%nat) by lia. reflexivity. }
  rewrite <- EX. exists a, b. split; [exact E1|exact E2].
Qed.

Lemma fields_mean is k : (k < nx)%nat -> is <> [] -> (forall i, In i is -> (i < nmax)%nat) ->
  E (fun w => average (map (fun i => 1 - (nth k (fld w i) 0 - nth 0 (fld w i) 0) ^ 2 / 2) is)) = @GetCorr1 Rarith v (INR (Nat.min k (n - k)) * dx).
Proof.
  intros Hk His Hi'. rewrite (E_average E (fun w i => 1 - (nth k (fld w i) 0 - nth 0 (fld w i) 0) ^ 2 / 2)) by auto.
  rewrite (average_ext _ (fun _ => @GetCorr1 Rarith v (INR (Nat.min k (n - k)) * dx))); [now apply average_const|].
  intros i Hi. apply Hi' in Hi.
  destruct (c27_field o cl s main perp depth azi dp pw v HC Hmain Hperp Hdepth Hpw HT nx n dx sx ltac:(lia) Hn Hsx W E _ HE (HW (2 + i)%nat ltac:(lia))) as (f & F1 & F2).
  assert (FF : forall w, fld w i = f w) by (intros w; unfold fld; destruct (F1 w) as [-> _]; reflexivity).
  assert (D : forall j, (j < nx)%nat -> E (fun w => nth j (f w) 0 * nth j (f w) 0) = 1).
  { intros j Hj. rewrite F2 by auto. cbv zeta. rewrite Nat.max_id, Nat.min_id, Nat.sub_diag.
    replace (Nat.min 0 (n - 0)) with 0%nat by lia. change (INR 0) with 0. rewrite Rmult_0_l. apply corr_at_0. }
  apply (E_pair E (fun w => fun '(a, _, _) => nth a (fld w i) 0) _ (0, 0, 0)%nat (k, 0, 0)%nat); auto.
  - rewrite <- (D 0%nat) by lia. apply HE. intros w. rewrite FF. reflexivity.
  - rewrite <- (D k) by lia. apply HE. intros w. rewrite FF. reflexivity.
  - transitivity (E (fun w => nth 0 (f w) 0 * nth k (f w) 0)).
    { apply HE. intros w. rewrite FF. reflexivity. }
    rewrite F2 by lia. cbv zeta. rewrite Nat.max_0_l, Nat.min_0_l, Nat.sub_0_r. reflexivity.
Qed.
End Noise.

Theorem row_mean : forall nx n nmax (dx sx : R), (2 <= nx)%nat -> 0 < dx -> (0 < nmax)%nat -> (nx <= n)%nat -> 99999 / 100000 <= sx ->
  forall (W : Type) (E : (W -> R) -> R) (noises : W -> list (list R)), expectation E -> E (fun _ => 1) = 1 ->
  (forall w, length (noises w) = (2 + nmax)%nat /\ forall x, In x (noises w) -> length x = n) ->
  (forall i, (i < 2 + nmax)%nat -> white E n (fun w => nth i (noises w) [])) ->
  forall k, (k < nx - 2)%nat ->
  exists est : W -> R,
    (forall w, exists distances estimates samples,
       estimate_variogram (next_field v nx n dx sx) (row nx dx (@GetCorr1 Rarith v)) nmax dx [origin] (noises w) = (Ret (distances, estimates, samples), []) /\
       nth k distances 0 = INR (k + 1) * dx /\ nth k estimates None = Some (est w)) /\
    E est = @GetCorr1 Rarith v (INR (Nat.min k (n - k)) * dx).
Proof.
  intros nx n nmax dx sx Hnx Hdx Hm Hn Hsx W E noises HE HU HL HW k Hk.
  exists (fun w => average (map (fun i => 1 - (nth k (fld nx n dx sx W noises w i) 0 - nth 0 (fld nx n dx sx W noises w i) 0) ^ 2 / 2) (seq 0 nmax))).
  split.
  - intros w. destruct (row_fields nx n nmax dx sx Hn W noises HL ltac:(lia) w) as (a & b & E1 & E2).
    destruct (row_estimate nx dx (@GetCorr1 Rarith v) Hnx Hdx _ (next_field v nx n dx sx) nmax (noises w) a b _ [] Hm E1 E2) as (ds & es & ns & F1 & F2 & F3).
    exists ds, es, ns. split; [exact F1|]. destruct (F3 k Hk) as [F4 F5]. split; [exact F4|]. rewrite F5, map_map. reflexivity.
  - apply (fields_mean nx n nmax dx sx); auto; try lia.
    + destruct nmax; [lia|discriminate].
    + intros i Hi. apply in_seq in Hi. lia.
Qed.
End Mean.
