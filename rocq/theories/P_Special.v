(** Constant variograms, spherical variograms shorter than a cell, changes of units. *)
From Coq Require Import ZArith Bool List String Lia Reals Lra Psatz Permutation.
From Verif Require Import Base Arith M_Variogram M_Padding M_FftSize M_Grid M_CovGrid M_Dsfmt M_Random M_Field M_Api RealArith S_Api S_CovGrid S_Sizes S_Vario S_Special P_Base P_Bounds P_Sim2 P_Vario P_VarioNames P_VarioMore P_VarioTables P_Dft P_DftList P_DftField P_DftMain.
Import ListNotations.
Open Scope R_scope.

(** ** spectra of constant and of concentrated tables *)
Section Gen.
Variable S : dsys.
Hypothesis G : good S.
Hypothesis Z0 : forall j, dth S 0 j = 0.
Notation N := (dN S).

Lemma fre_const c a k : (forall j, (j < N)%nat -> c j = a) -> (k < N)%nat -> fre S c k = a * INR N * delta k 0.
Proof.
  intros H Hk. unfold fre. rewrite (rsum_ext _ _ (fun j => a * cos (0 - (dth S k j - dth S 0 j)))).
  - rewrite rsum_scal, (orth2 S G k 0 0) by (auto; apply G). rewrite cos_0. ring.
  - intros j Hj. rewrite H, Z0 by auto. f_equal. replace (0 - (dth S k j - 0)) with (- dth S k j) by ring. rewrite cos_neg. reflexivity.
Qed.
Lemma fre_delta c a k : (forall j, (j < N)%nat -> c j = a * delta j 0) -> (k < N)%nat -> fre S c k = a.
Proof.
  intros H Hk. unfold fre. rewrite (rsum_ext _ _ (fun j => if (j =? 0)%nat then a * cos (dth S k j) else 0)).
  - rewrite rsum_pick by apply G. rewrite (g_sym S G), Z0, cos_0. ring.
  - intros j Hj. rewrite H by auto. unfold delta. destruct (j =? 0)%nat; ring.
Qed.
Lemma ker_const c i j : (forall j, (j < N)%nat -> c j = 1) -> (i < N)%nat -> (j < N)%nat -> ker S (amp S c) i j = / sqrt (INR N).
Proof.
  intros H Hi Hj. pose proof (N_pos S G) as HN. pose proof (sqrt_lt_R0 _ HN) as HS. unfold ker.
  rewrite (rsum_ext _ _ (fun k => if (k =? 0)%nat then sqrt (INR N) * cos (dth S k i - dth S k j) else 0)).
  - rewrite rsum_pick by apply G. rewrite !Z0, Rminus_0_r, cos_0. rewrite <- (sqrt_sqrt (INR N)) at 1 by lra. field. lra.
  - intros k Hk. unfold amp. rewrite (fre_const c 1) by auto. unfold delta. destruct (Nat.eqb_spec k 0) as [->|].
    + rewrite Rmult_1_l, Rmult_1_r, Rmax_left by lra. reflexivity.
    + rewrite Rmult_0_r, Rmax_left, sqrt_0 by lra. ring.
Qed.
Lemma ker_delta c i j : (forall j, (j < N)%nat -> c j = delta j 0) -> (i < N)%nat -> (j < N)%nat -> ker S (amp S c) i j = delta i j.
Proof.
  intros H Hi Hj. pose proof (N_pos S G) as HN. unfold ker.
  rewrite (rsum_ext _ _ (fun k => cos (dth S k i - dth S k j))).
  - rewrite (g_oc S G) by auto. field. lra.
  - intros k Hk. unfold amp. rewrite (fre_delta c 1) by (auto; intros; rewrite H by auto; ring).
    rewrite Rmax_left, sqrt_1 by lra. ring.
Qed.
End Gen.

Lemma cyc_z n j : dth (cyc n) 0 j = 0.
Proof. cbn [cyc dth]. unfold ang. simpl INR. unfold Rdiv. ring. Qed.
Lemma prod_z S T : (forall j, dth S 0 j = 0) -> (forall j, dth T 0 j = 0) -> forall j, dth (prod_sys S T) 0 j = 0.
Proof.
  intros HS HT j. cbn [prod_sys dth]. replace (0 / dN T)%nat with 0%nat by (destruct (dN T); [reflexivity|rewrite Nat.div_0_l; lia]).
  replace (0 mod dN T)%nat with 0%nat by (destruct (dN T); [reflexivity|rewrite Nat.mod_0_l; lia]). rewrite HS, HT. ring.
Qed.
Lemma sys1_z n j : dth (sys1 n) 0 j = 0.
Proof. apply prod_z; apply cyc_z. Qed.
Lemma sys2_z n m j : dth (sys2 n m) 0 j = 0.
Proof. apply prod_z; apply cyc_z. Qed.
Lemma sys3_z n m p j : dth (sys3 n m p) 0 j = 0.
Proof. apply prod_z; [|apply cyc_z]. apply prod_z; apply cyc_z. Qed.

Lemma total_rsum (xs : list R) : total xs = rsum (List.length xs) (fun i => nth i xs 0).
Proof.
  induction xs as [|x xs IH]; [reflexivity|]. cbn [total fold_right List.length]. fold (total xs). rewrite IH.
  change (Datatypes.S (List.length xs)) with (1 + List.length xs)%nat. rewrite rsum_app. cbn [rsum nth Nat.add]. ring.
Qed.
Lemma total_perm xs ys : Permutation xs ys -> total xs = total ys.
Proof. intros H. unfold total. induction H; cbn [fold_right]; lra. Qed.

(** ** fields of special tables *)
Section F.
Variables (o : Z -> outcome Z) (cl : Z -> Z -> Z).
Notation L := (Rlib o cl).
Variable v : variogram L.

Lemma flat2_lt nx ny q : (q < ny * nx)%nat -> (q mod nx < nx)%nat /\ (q / nx < ny)%nat.
Proof. intros H. destruct (div_lt_flat _ _ _ H). auto. Qed.
Lemma flat3_lt nx ny nz q : (q < nz * ny * nx)%nat -> (q mod nx < nx)%nat /\ ((q / nx) mod ny < ny)%nat /\ (q / nx / ny < nz)%nat.
Proof. intros H. destruct (div_lt_flat _ _ _ H) as [H1 H2]. destruct (div_lt_flat _ _ _ H1). auto. Qed.

Lemma const1 nx n dx sx (noise out : list R) : (0 < n)%nat -> (nx <= n)%nat -> List.length noise = n ->
  (forall i, (i < n)%nat -> @cov1_spec Rarith v n dx sx i = 1) -> @field1d L v nx n dx sx noise = Ok out ->
  List.length out = nx /\ forall q, (q < nx)%nat -> nth q out 0 = total noise / sqrt (INR n).
Proof.
  intros Hn Hx HL HC HF. destruct (field1d_lin o cl v nx n dx sx noise Hn Hx HL) as (out' & E & Lo & H). rewrite HF in E. injection E as <-.
  split; auto. intros q Hq. rewrite H by auto. rewrite total_rsum, HL. unfold Rdiv. rewrite Rmult_comm, <- rsum_scal. apply rsum_ext. intros l Hl.
  unfold ker1. rewrite (ker_const _ (sys1_good n Hn) (sys1_z n)); rewrite ?dN1; auto. lia.
Qed.
Lemma const2 nx ny nxt nyt dx dy sx sy (noise out : list R) : (nx <= nxt)%nat -> (ny <= nyt)%nat -> List.length noise = (nxt * nyt)%nat ->
  (forall i j, (i < nxt)%nat -> (j < nyt)%nat -> @cov2_spec Rarith v nxt dx nyt dy sx sy i j = 1) -> @field2d L v nx ny nxt nyt dx dy sx sy noise = Ok out ->
  List.length out = (nx * ny)%nat /\ forall q, (q < nx * ny)%nat -> nth q out 0 = total noise / sqrt (INR (nxt * nyt)).
Proof.
  intros Hx Hy HL HC HF. destruct (field2d_lin o cl v nx ny nxt nyt dx dy sx sy noise Hx Hy HL) as (out' & E & Lo & H). rewrite HF in E. injection E as <-.
  split; auto. intros q Hq. assert (0 < nx /\ 0 < ny)%nat as [P1 P2] by nia.
  destruct (flat2_lt nx ny q ltac:(lia)) as [Ha Hb]. pose proof (Nat.div_mod q nx ltac:(lia)) as Eq.
  replace q with (q mod nx + q / nx * nx)%nat at 1 by lia. rewrite H by auto. rewrite total_rsum, HL. unfold Rdiv. rewrite Rmult_comm, <- rsum_scal. apply rsum_ext. intros l Hl.
  unfold ker2. rewrite (ker_const _ (sys2_good nyt nxt ltac:(lia) ltac:(lia)) (sys2_z nyt nxt)); rewrite ?dN2.
  - rewrite (Nat.mul_comm nyt nxt). reflexivity.
  - intros j Hj. unfold flat2. destruct (flat2_lt _ _ _ Hj). apply HC; auto.
  - apply flat_lt; lia.
  - lia.
Qed.
Lemma const3 nx ny nz nxt nyt nzt dx dy dz sx sy sz (noise out : list R) : (nx <= nxt)%nat -> (ny <= nyt)%nat -> (nz <= nzt)%nat -> List.length noise = (nxt * nyt * nzt)%nat ->
  (forall i j k, (i < nxt)%nat -> (j < nyt)%nat -> (k < nzt)%nat -> @cov3_spec Rarith v nxt dx nyt dy nzt dz sx sy sz i j k = 1) ->
  @field3d L v nx ny nz nxt nyt nzt dx dy dz sx sy sz noise = Ok out ->
  List.length out = (nx * ny * nz)%nat /\ forall q, (q < nx * ny * nz)%nat -> nth q out 0 = total noise / sqrt (INR (nxt * nyt * nzt)).
Proof.
  intros Hx Hy Hz HL HC HF. destruct (field3d_lin o cl v nx ny nz nxt nyt nzt dx dy dz sx sy sz noise Hx Hy Hz HL) as (out' & E & Lo & H). rewrite HF in E. injection E as <-.
  split; auto. intros q Hq. assert (0 < nx /\ 0 < ny /\ 0 < nz)%nat as (P1 & P2 & P3) by (destruct nx, ny, nz; lia).
  destruct (flat3_lt nx ny nz q ltac:(nia)) as (Ha & Hb & Hc). pose proof (Nat.div_mod q nx ltac:(lia)) as Eq. pose proof (Nat.div_mod (q / nx) ny ltac:(lia)) as Eq'.
  replace q with (q mod nx + (q / nx) mod ny * nx + q / nx / ny * nx * ny)%nat at 1 by nia.
  rewrite H by auto. rewrite total_rsum, HL. unfold Rdiv. rewrite Rmult_comm, <- rsum_scal. apply rsum_ext. intros l Hl.
  unfold ker3. rewrite (ker_const _ (sys3_good nzt nyt nxt ltac:(lia) ltac:(lia) ltac:(lia)) (sys3_z nzt nyt nxt)); rewrite ?dN3.
  - f_equal. do 3 f_equal. ring.
  - intros j Hj. unfold flat3. destruct (flat3_lt _ _ _ _ Hj) as (? & ? & ?). apply HC; auto.
  - apply flat_lt; [|lia]. apply flat_lt; lia.
  - nia.
Qed.

Lemma raw1 nx n dx sx (noise out : list R) : (0 < n)%nat -> (nx <= n)%nat -> List.length noise = n ->
  (forall i, (i < n)%nat -> @cov1_spec Rarith v n dx sx i = delta i 0) -> @field1d L v nx n dx sx noise = Ok out ->
  List.length out = nx /\ forall i, (i < nx)%nat -> nth i out 0 = nth i noise 0.
Proof.
  intros Hn Hx HL HC HF. destruct (field1d_lin o cl v nx n dx sx noise Hn Hx HL) as (out' & E & Lo & H). rewrite HF in E. injection E as <-.
  split; auto. intros q Hq. rewrite H by auto. rewrite <- (rsum_pick n q (fun l => nth l noise 0)) by lia. apply rsum_ext. intros l Hl.
  unfold ker1. rewrite (ker_delta _ (sys1_good n Hn) (sys1_z n)); rewrite ?dN1; auto; [|lia]. unfold delta. rewrite Nat.eqb_sym. destruct (l =? q)%nat; [apply Rmult_1_l|apply Rmult_0_l].
Qed.
Lemma raw2 nx ny nxt nyt dx dy sx sy (noise out : list R) : (nx <= nxt)%nat -> (ny <= nyt)%nat -> List.length noise = (nxt * nyt)%nat ->
  (forall i j, (i < nxt)%nat -> (j < nyt)%nat -> @cov2_spec Rarith v nxt dx nyt dy sx sy i j = delta i 0 * delta j 0) -> @field2d L v nx ny nxt nyt dx dy sx sy noise = Ok out ->
  List.length out = (nx * ny)%nat /\ forall i j, (i < nx)%nat -> (j < ny)%nat -> nth (i + j * nx) out 0 = nth (i + j * nxt) noise 0.
Proof.
  intros Hx Hy HL HC HF. destruct (field2d_lin o cl v nx ny nxt nyt dx dy sx sy noise Hx Hy HL) as (out' & E & Lo & H). rewrite HF in E. injection E as <-.
  split; auto. intros i j Hi Hj. rewrite H by auto. rewrite <- (rsum_pick (nxt * nyt) (i + j * nxt) (fun l => nth l noise 0)) by nia. apply rsum_ext. intros l Hl.
  unfold ker2. rewrite (ker_delta _ (sys2_good nyt nxt ltac:(lia) ltac:(lia)) (sys2_z nyt nxt)); rewrite ?dN2.
  - unfold delta. rewrite Nat.eqb_sym, Nat.add_comm. destruct (l =? i + j * nxt)%nat; [apply Rmult_1_l|apply Rmult_0_l].
  - intros q Hq. unfold flat2. destruct (flat2_lt _ _ _ Hq). rewrite HC by auto. unfold delta. pose proof (Nat.div_mod q nxt ltac:(lia)) as Eq.
    destruct (Nat.eqb_spec q 0) as [->|]; [rewrite Nat.mod_0_l, Nat.div_0_l by lia; cbn; ring|].
    destruct (Nat.eqb_spec (q mod nxt) 0), (Nat.eqb_spec (q / nxt) 0); try ring. nia.
  - apply flat_lt; lia.
  - lia.
Qed.
Lemma raw3 nx ny nz nxt nyt nzt dx dy dz sx sy sz (noise out : list R) : (nx <= nxt)%nat -> (ny <= nyt)%nat -> (nz <= nzt)%nat -> List.length noise = (nxt * nyt * nzt)%nat ->
  (forall i j k, (i < nxt)%nat -> (j < nyt)%nat -> (k < nzt)%nat -> @cov3_spec Rarith v nxt dx nyt dy nzt dz sx sy sz i j k = delta i 0 * delta j 0 * delta k 0) ->
  @field3d L v nx ny nz nxt nyt nzt dx dy dz sx sy sz noise = Ok out ->
  List.length out = (nx * ny * nz)%nat /\ forall i j k, (i < nx)%nat -> (j < ny)%nat -> (k < nz)%nat -> nth (i + j * nx + k * nx * ny) out 0 = nth (i + j * nxt + k * nxt * nyt) noise 0.
Proof.
  intros Hx Hy Hz HL HC HF. destruct (field3d_lin o cl v nx ny nz nxt nyt nzt dx dy dz sx sy sz noise Hx Hy Hz HL) as (out' & E & Lo & H). rewrite HF in E. injection E as <-.
  split; auto. intros i j k Hi Hj Hk. rewrite H by auto.
  assert (Hq : ((k * nyt + j) * nxt + i < nzt * nyt * nxt)%nat) by (apply flat_lt; [|lia]; apply flat_lt; lia).
  replace (i + j * nxt + k * nxt * nyt)%nat with ((k * nyt + j) * nxt + i)%nat by ring.
  rewrite <- (rsum_pick (nxt * nyt * nzt) ((k * nyt + j) * nxt + i) (fun l => nth l noise 0)) by lia. apply rsum_ext. intros l Hl.
  unfold ker3. rewrite (ker_delta _ (sys3_good nzt nyt nxt ltac:(lia) ltac:(lia) ltac:(lia)) (sys3_z nzt nyt nxt)); rewrite ?dN3; auto; [|clear Hq|lia].
  - unfold delta. rewrite Nat.eqb_sym. destruct (l =? (k * nyt + j) * nxt + i)%nat; [apply Rmult_1_l|apply Rmult_0_l].
  - intros q Hq. unfold flat3. destruct (flat3_lt _ _ _ _ Hq) as (? & ? & ?). rewrite HC by auto. unfold delta. 
    pose proof (Nat.div_mod q nxt ltac:(lia)) as Eq. pose proof (Nat.div_mod (q / nxt) nyt ltac:(lia)) as Eq'.
    destruct (Nat.eqb_spec q 0) as [->|]; [rewrite Nat.mod_0_l, Nat.div_0_l, Nat.mod_0_l, Nat.div_0_l by lia; cbn; ring|].
    destruct (Nat.eqb_spec (q mod nxt) 0), (Nat.eqb_spec ((q / nxt) mod nyt) 0), (Nat.eqb_spec (q / nxt / nyt) 0); try ring.
    exfalso. rewrite e0, e1 in Eq'. rewrite e, Eq' in Eq. lia.
Qed.
End F.
