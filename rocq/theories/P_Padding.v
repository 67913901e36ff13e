(** simulation_size (C17, C18). *)
From Coq Require Import ZArith List Bool Lia Reals Lra.
From Flocq Require Import Core.Raux Core.Zaux.
From Verif Require Import Base Arith RealArith M_Variogram M_Padding M_Dsfmt M_Random M_Field M_Api S_Api S_Sizes S_Room P_Base P_Api P_Field P_Field3.
Import ListNotations.
Open Scope Z_scope.

Section P.
Context {L : Lib}.
Variable rec : recursion.
Variable fuel : nat.

Lemma ndim_length (v : variogram L) nx dx ny dy nz dz ps : FindNDimPadding v nx dx ny dy nz dz = Ok ps ->
  length ps = if ny <=? 1 then 1%nat else if nz <=? 1 then 2%nat else 3%nat.
Proof.
  unfold FindNDimPadding. intros H. destruct (ny <=? 1).
  - apply bind_Ok in H as (? & _ & H). injection H as <-. reflexivity.
  - destruct (nz <=? 1); repeat (apply bind_Ok in H as (? & _ & H)); injection H as <-; reflexivity.
Qed.

Lemma size_length t (v : variogram L) (d : dims L) st ns : fst (step rec fuel t (CSize v d) st) = Ok (VSizes ns) ->
  length ns = if opt (d_ny d) 1 <=? 1 then 1%nat else if opt (d_nz d) 1 <=? 1 then 2%nat else 3%nat.
Proof.
  cbn [step fst]. intros H. apply bind_Ok in H as ([[[[[nx dx] ny] dy] nz] dz] & A & H).
  apply args_inv in A as [E _]. injection E as -> -> -> -> -> ->.
  unfold omap in H. apply bind_Ok in H as (l & H & E). injection E as ->.
  unfold FindGridSizeAfterPadding in H. apply bind_Ok in H as (ps & H & E). apply ndim_length in H. rewrite <- H.
  injection E as <-. destruct ps as [|? [|? [|? [|]]]]; reflexivity.
Qed.

(** the directions counted have non-negative spacing *)
Definition no_negative_spacing (d : dims L) : Prop :=
  (1 < opt (d_ny d) 1 -> flt L (opt (d_dy d) (lit L (-1) 0)) (lit L 0 0) = false) /\
  (1 < opt (d_ny d) 1 -> 1 < opt (d_nz d) 1 -> flt L (opt (d_dz d) (lit L (-1) 0)) (lit L 0 0) = false).

Lemma size_agrees t (v : variogram L) (d : dims L) st ns : fst (step rec fuel t (CSize v d) st) = Ok (VSizes ns) ->
  (length ns = dim_asked d <-> no_negative_spacing d).
Proof.
  intros H. apply size_length in H. rewrite H. unfold dim_asked, no_negative_spacing, wants.
  destruct (Z.leb_spec (opt (d_ny d) 1) 1) as [Hy|Hy]; destruct (Z.ltb_spec 1 (opt (d_ny d) 1)); try lia; cbn [andb negb].
  - split; auto. intros _. split; intros; lia.
  - destruct (flt L (opt (d_dy d) (lit L (-1) 0)) (lit L 0 0)) eqn:Ey; cbn [andb negb].
    + split; [destruct (opt (d_nz d) 1 <=? 1); discriminate|]. intros [X _]. specialize (X ltac:(lia)). discriminate.
    + destruct (Z.leb_spec (opt (d_nz d) 1) 1) as [Hz|Hz]; destruct (Z.ltb_spec 1 (opt (d_nz d) 1)); try lia; cbn [andb negb].
      * split; auto. intros _. split; auto. intros; lia.
      * destruct (flt L (opt (d_dz d) (lit L (-1) 0)) (lit L 0 0)) eqn:Ez; cbn [negb].
        -- split; [discriminate|]. intros [_ X]. specialize (X ltac:(lia) ltac:(lia)). discriminate.
        -- split; auto.
Qed.
End P.

(** ** Exact arithmetic *)
Section R.
Variable o : Z -> outcome Z.
Variable cl : Z -> Z -> Z.
Let L := Rlib o cl.
Open Scope R_scope.

Lemma Ztrunc_lt x : x < IZR (Ztrunc x) + 1.
Proof.
  unfold Ztrunc. destruct (Rlt_bool_spec x 0).
  - pose proof (Zceil_ub x). lra.
  - apply Zfloor_ub.
Qed.

Lemma to_int_R x z : @to_int Rarith x = Ok z -> z = Ztrunc x /\ (- 2 ^ 31 <= z < 2 ^ 31)%Z.
Proof.
  unfold to_int. cbn. unfold fits_int. destruct (Z.leb_spec (- 2 ^ 31) (Ztrunc x)), (Z.ltb_spec (Ztrunc x) (2 ^ 31)); simpl; intros E; inversion E; lia.
Qed.

Lemma FGP_R (v : variogram Rarith) n range step p : 0 < range -> 0 < step -> (0 <= n < 2 ^ 63)%Z ->
  FindGaussianFieldPadding v n range step = Ok p ->
  size_rule (GetMinimumRangeToGridRatio v) range step n (u64 (p + n)).
Proof.
  intros Hr Hs Hn H. unfold FindGaussianFieldPadding in H.
  apply bind_Ok in H as (a & Ha & H). apply bind_Ok in H as (b & Hb & H).
  apply to_int_R in Ha as [Ea Ha]. apply to_int_R in Hb as [Eb Hb]. cbn [mul div sub ofZ Rarith] in Ea, Eb.
  set (ratio := GetMinimumRangeToGridRatio v) in *.
  assert (Hq : 0 < range / step) by (apply Rdiv_lt_0_compat; auto).
  assert (Eb' : b = Zfloor (range / step)) by (rewrite Eb; apply Ztrunc_floor; lra).
  assert (Hb0 : (0 <= b)%Z) by (rewrite Eb'; apply Zfloor_lub; simpl; lra).
  destruct (Z.eqb_spec (Z.max a b) (2 ^ 31 - 1)) as [|Hne]; [discriminate|]. injection H as <-.
  assert (E1 : u64 (Z.max a b + 1) = (Z.max a b + 1)%Z) by (apply Z.mod_small; lia).
  rewrite E1. assert (E2 : u64 (Z.max a b + 1 + n) = (Z.max a b + 1 + n)%Z) by (apply Z.mod_small; lia). rewrite E2.
  split; [|split].
  - rewrite <- Eb', <- Ea. lia.
  - apply Rlt_le_trans with (IZR n + (IZR b + 1)).
    + rewrite Eb'. pose proof (Zfloor_ub (range / step)). lra.
    + rewrite <- (plus_IZR b 1), <- plus_IZR. apply IZR_le. lia.
  - pose proof (Ztrunc_lt (ratio * range / step - IZR n)) as X. rewrite <- Ea in X.
    apply Rlt_le_trans with (IZR n + (IZR a + 1)); [lra|].
    rewrite <- (plus_IZR a 1), <- plus_IZR. apply IZR_le. lia.
Qed.

(** and the call succeeds unless the numbers do not fit an int *)
Lemma FGP_total (v : variogram Rarith) n range step : 0 < range -> 0 < step -> (0 <= n <= 2 ^ 31)%Z ->
  range / step < 2147483646 -> - (2147483647) < GetMinimumRangeToGridRatio v * range / step < 2147483646 ->
  0 <= GetMinimumRangeToGridRatio v ->
  exists p, FindGaussianFieldPadding v n range step = Ok p.
Proof.
  intros Hr Hs Hn H1 H2 H3. unfold FindGaussianFieldPadding, to_int. cbn [ftrunc Rarith mul div sub ofZ].
  set (ratio := GetMinimumRangeToGridRatio v) in *.
  assert (Hq : 0 < range / step) by (apply Rdiv_lt_0_compat; auto).
  assert (Hq' : 0 <= ratio * range / step).
  { unfold Rdiv. rewrite Rmult_assoc. apply Rmult_le_pos; auto. unfold Rdiv in Hq. lra. }
  assert (Hn' : 0 <= IZR n <= 2147483648) by (split; [apply (IZR_le 0)|apply (IZR_le n 2147483648)]; lia).
  set (x := ratio * range / step) in *. set (y := range / step) in *.
  assert (Bx : (- 2 ^ 31 <= Ztrunc (x - IZR n) < 2 ^ 31 - 1)%Z).
  { split.
    - rewrite <- (Ztrunc_IZR (- 2 ^ 31)). apply Ztrunc_le. change (IZR (- 2 ^ 31)) with (-2147483648). lra.
    - pose proof (Ztrunc_le (x - IZR n) x ltac:(lra)). rewrite (Ztrunc_floor x) in H by lra.
      pose proof (Zfloor_lb x). assert (IZR (Zfloor x) < 2147483646) by lra. apply (lt_IZR _ 2147483646) in H4. lia. }
  assert (By : (- 2 ^ 31 <= Ztrunc y < 2 ^ 31 - 1)%Z).
  { rewrite Ztrunc_floor by lra. split.
    - assert (0 <= Zfloor y)%Z by (apply Zfloor_lub; simpl; lra). lia.
    - pose proof (Zfloor_lb y). assert (IZR (Zfloor y) < 2147483646) by lra. apply (lt_IZR _ 2147483646) in H0. lia. }
  unfold fits_int.
  replace ((- 2 ^ 31 <=? Ztrunc (x - IZR n)) && (Ztrunc (x - IZR n) <? 2 ^ 31))%Z with true
    by (symmetry; apply andb_true_iff; split; [apply Z.leb_le|apply Z.ltb_lt]; lia).
  replace ((- 2 ^ 31 <=? Ztrunc y) && (Ztrunc y <? 2 ^ 31))%Z with true
    by (symmetry; apply andb_true_iff; split; [apply Z.leb_le|apply Z.ltb_lt]; lia).
  cbn [bind]. destruct (Z.eqb_spec (Z.max (Ztrunc (x - IZR n)) (Ztrunc y)) (2 ^ 31 - 1)); [lia|eauto].
Qed.

(** the range used in each direction *)
Definition range_used (v : variogram L) (dim i : nat) : R :=
  match i with
  | 0%nat => if (dim =? 1)%nat then range_x v else Rmax (range_x v) (range_y v)
  | 1%nat => if Req_EM_T (azimuth v) 0 then range_y v else Rmax (range_x v) (range_y v)
  | _ => range_z v
  end.
Definition spacing (d : dims L) (i : nat) : R := nth i [d_dx d; opt (d_dy d) (-1); opt (d_dz d) (-1)] 0.

Lemma fmax_Rmax x y : @fmax Rarith x y = Rmax x y.
Proof.
  unfold fmax. cbn. unfold Rltb, Rmax. destruct (Rlt_dec x y), (Rle_dec x y); auto; lra.
Qed.

Variable rec : recursion.
Variable fuel : nat.

Theorem size_exact t (v : variogram L) (d : dims L) st ns :
  0 < range_x v -> 0 < range_y v -> 0 < range_z v ->
  (forall i, (i < length ns)%nat -> 0 < spacing d i /\ (cells d i < 2 ^ 63)%Z) ->
  fst (step rec fuel t (CSize v d) st) = Ok (VSizes ns) ->
  forall i, (i < length ns)%nat ->
    size_rule (GetMinimumRangeToGridRatio v) (range_used v (length ns) i) (spacing d i) (cells d i) (nth i ns 0%Z).
Proof.
  intros Hx Hy Hz Hp H. cbn [step fst] in H. apply bind_Ok in H as ([[[[[nx dx] ny] dy] nz] dz] & A & H).
  apply args_inv in A as [E (Sx & Sy & Sz)]. injection E as -> -> -> -> -> ->. unfold size_ok in *.
  unfold omap in H. apply bind_Ok in H as (l & H & E). injection E as ->.
  unfold FindGridSizeAfterPadding in H. apply bind_Ok in H as (ps & H & E).
  assert (El : -1 / 1 = -1) by lra. 
  change (lit L (-1) 0) with (-1 / 1) in H. rewrite !El in H.
  assert (E0 : lit L 0 0 = 0) by (cbn; lra).
  assert (Hmax : 0 < Rmax (range_x v) (range_y v)) by (apply Rlt_le_trans with (range_x v); auto; apply Rmax_l).
  assert (Hazi : (if (feq L (azimuth v) (lit L 0 0)) then range_y v else Rmax (range_x v) (range_y v)) =
                 if Req_EM_T (azimuth v) 0 then range_y v else Rmax (range_x v) (range_y v)).
  { rewrite E0. change (feq L (azimuth v) 0) with (Reqb (azimuth v) 0). generalize (azimuth v : R). intros z. unfold Reqb.
    destruct (Req_EM_T z 0); reflexivity. }
  assert (Hry : 0 < if Req_EM_T (azimuth v) 0 then range_y v else Rmax (range_x v) (range_y v)) by (destruct (Req_EM_T (azimuth v) 0); auto).
  unfold FindNDimPadding in H. destruct (opt (d_ny d) 1 <=? 1)%Z.
  - apply bind_Ok in H as (px & Hpx & H). injection H as <-. injection E as <-. intros i Hi.
    destruct i as [|i]; [|simpl in Hi; lia]. destruct (Hp 0%nat Hi). cbn [length] in *.
    apply FGP_R; auto. cbn in *. lia.
  - rewrite fmax_Rmax, Hazi in H. destruct (opt (d_nz d) 1 <=? 1)%Z.
    + apply bind_Ok in H as (px & Hpx & H). apply bind_Ok in H as (py & Hpy & H). injection H as <-. injection E as <-. intros i Hi.
      destruct (Hp i Hi). destruct i as [|[|i]]; [..|simpl in Hi; lia]; cbn [length] in *; apply FGP_R; auto; cbn in *; lia.
    + apply bind_Ok in H as (px & Hpx & H). apply bind_Ok in H as (py & Hpy & H). apply bind_Ok in H as (pz & Hpz & H).
      injection H as <-. injection E as <-. intros i Hi.
      destruct (Hp i Hi). destruct i as [|[|[|i]]]; [..|simpl in Hi; lia]; cbn [length] in *; apply FGP_R; auto; cbn in *; lia.
Qed.
End R.
