(** What an accepted Python call does. *)
From Coq Require Import ZArith Bool Lia String List Permutation.
From Verif Require Import Base Arith M_Variogram M_Dsfmt M_Random M_Field M_Api M_Bind S_Bind P_Bind P_Bind2 P_Bind3 P_Bind4.
Import ListNotations.
Open Scope string_scope.

Section P.
Context {L : Lib}.
Notation pyobj := (pyobj L).
Notation kwargs := (kwargs L).
Notation param := (@param L).

Lemma forall2_nth {X Y} (P : X -> Y -> Prop) l l' : Forall2 P l l' -> List.length l = List.length l' /\ forall i x, nth_error l i = Some x -> exists y, nth_error l' i = Some y /\ P x y.
Proof.
  induction 1 as [|x y l l' H _ [IH1 IH2]]; [split; auto; intros [|i] ? E; discriminate|]. cbn [List.length]. split; [lia|].
  intros [|i] x' E; cbn [nth_error] in *; [injection E as <-; eauto|eauto].
Qed.
Lemma nth_ext_err {X} (l l' : list X) : (forall i, nth_error l i = nth_error l' i) -> l = l'.
Proof.
  revert l'. induction l as [|x l IH]; intros [|y l'] H; auto; try (specialize (H 0%nat); discriminate).
  f_equal; [specialize (H 0%nat); cbn in H; congruence|]. apply IH. intros i. apply (H (S i)).
Qed.
Lemma resolve_values f (pos : list pyobj) (kw : kwargs) xs : named f -> once kw -> well_formed f pos kw -> Forall2 (means f pos kw) (parameters f) xs ->
  resolve f pos kw = obind (load_all (map kindf (parameters f)) (pre f xs)) (actf f).
Proof.
  intros Hf Ho W H. destruct (wf_resolve f pos kw Hf Ho W) as [a E]. rewrite resolve_bindf in * by auto. unfold bindf in *.
  destruct (no_other (sigf f) kw); [|discriminate]. destruct (fill (sigf f) pos kw) as [ys|] eqn:Hx; [|discriminate]. cbn [obind].
  rewrite kinds_sigf by auto. assert (ys = xs); [|subst; reflexivity]. destruct (fill_inv _ _ _ _ Hx) as (_ & Hl & Hn).
  destruct (forall2_nth _ _ _ H) as [Hl' Hn']. rewrite sig_length in Hl by auto. apply nth_ext_err. intros i.
  destruct (nth_error (parameters f) i) as [n|] eqn:En.
  - destruct (at_sig (L := L) f Hf i n En) as (p & Hp & <-). rewrite (Hn i p Hp). destruct (Hn' i _ En) as (x & Ex & M). rewrite Ex.
    apply (arg_given f pos kw Hf Ho i p x W Hp). exact M.
  - apply nth_error_None in En. rewrite (proj2 (nth_error_None ys i)), (proj2 (nth_error_None xs i)); auto; lia.
Qed.
Lemma means_takes f (pos : list pyobj) (kw : kwargs) n x : well_formed f pos kw -> means f pos kw n x -> takes n x.
Proof. intros (_ & _ & _ & _ & W) [G|[_ D]]; [apply W; exact G|eapply default_takes; exact D]. Qed.

Lemma whole_fun (x : pyobj) z z' : whole x z -> whole x z' -> z = z'.
Proof. rewrite !whole_iff. congruence. Qed.
Lemma load_size (x : pyobj) z : a_size x -> whole x z -> load KSize x = Some (AZ z).
Proof. intros (z' & W' & B) W. rewrite (whole_fun x z z' W W'). apply whole_iff in W'. cbn. rewrite W'. rewrite (proj2 (fits_size_iff z') B). reflexivity. Qed.
Lemma load_int (x : pyobj) z : an_int x -> whole x z -> load KInt x = Some (AZ z).
Proof. intros (z' & W' & B) W. rewrite (whole_fun x z z' W W'). apply whole_iff in W'. cbn. rewrite W'. rewrite (proj2 (fits_int_iff z') B). reflexivity. Qed.
Lemma load_float (x : pyobj) r : a_float x -> float_value x r -> load KDouble x = Some (ANum r).
Proof.
  intros H [->|(z & W & ->)]; [reflexivity|]. destruct H as [[y ->]|(z' & W' & B)].
  - apply whole_iff in W. discriminate.
  - rewrite (whole_fun x z z' W W'). apply whole_iff in W'. apply float_ok_iff in B. Local Opaque float_ok. unfold load.
    destruct x; try discriminate; rewrite W', B; reflexivity.
Qed.
Lemma load_name (x : pyobj) s : name_value x s -> load KString (unwrap x) = Some (AStr s).
Proof. intros [->| ->]; reflexivity. Qed.

Section M.
Variables (rec : recursion) (fuel : nat) (now : Z) (pos : list pyobj) (kw : kwargs).
Hypothesis Ho : once kw.
Notation py f := (py_call rec fuel now f pos kw).

Local Opaque load.
Ltac ld := match goal with
  | |- context [load KSize ?x] => rewrite (load_size x _ ltac:(eassumption) ltac:(eassumption))
  | |- context [load KInt ?x] => rewrite (load_int x _ ltac:(eassumption) ltac:(eassumption))
  | |- context [load KDouble ?x] => rewrite (load_float x _ ltac:(eassumption) ltac:(eassumption))
  | |- context [load KString (unwrap ?x)] => rewrite (load_name x _ ltac:(eassumption)) end.
Ltac fa := cbn [parameters]; repeat (apply Forall2_cons; [assumption|]); apply Forall2_nil.
Ltac tk W H := let T := fresh "T" in pose proof (means_takes _ _ _ _ _ W H) as T; unfold takes in T; cbn [String.eqb Ascii.eqb Bool.eqb orb] in T.

Lemma load_cons k ks (x : pyobj) xs a : load k x = Some a -> load_all (k :: ks) (x :: xs) = option_map (cons a) (load_all ks xs).
Proof. intros E. cbn [load_all]. rewrite E. reflexivity. Qed.

Lemma py_variogram x1 x2 x3 x4 x5 x6 x7 s m p d a dp pw st :
  well_formed FVariogram pos kw ->
  means FVariogram pos kw "type" x1 -> name_value x1 s ->
  means FVariogram pos kw "main_range" x2 -> float_value x2 m ->
  means FVariogram pos kw "perp_range" x3 -> float_value x3 p ->
  means FVariogram pos kw "depth_range" x4 -> float_value x4 d ->
  means FVariogram pos kw "azimuth" x5 -> float_value x5 a ->
  means FVariogram pos kw "dip" x6 -> float_value x6 dp ->
  means FVariogram pos kw "power" x7 -> float_value x7 pw ->
  py FVariogram st = step rec fuel now (CVariogram s m (Some p) (Some d) (Some a) (Some dp) (Some pw)) st.
Proof.
  intros W H1 V1 H2 V2 H3 V3 H4 V4 H5 V5 H6 V6 H7 V7. unfold py_call.
  rewrite (resolve_values FVariogram pos kw [x1; x2; x3; x4; x5; x6; x7]); [|unfold named; tauto|exact Ho|exact W|fa].
  tk W H2. tk W H3. tk W H4. tk W H5. tk W H6. tk W H7.
  change (map kindf (parameters FVariogram)) with [KString; KDouble; KDouble; KDouble; KDouble; KDouble; KDouble].
  cbn [pre load_all]. repeat ld. reflexivity.
Qed.

Lemma py_dims f (c : variogram L -> dims L -> call L) x1 x2 x3 x4 x5 x6 x7 v nx dx ny dy nz dz st :
  f = FSize /\ c = @CSize L \/ f = FSimulate /\ c = @CSimulate L -> well_formed f pos kw ->
  means f pos kw "variogram" x1 -> x1 = PVario v ->
  means f pos kw "nx" x2 -> whole x2 nx ->
  means f pos kw "dx" x3 -> float_value x3 dx ->
  means f pos kw "ny" x4 -> whole x4 ny ->
  means f pos kw "dy" x5 -> float_value x5 dy ->
  means f pos kw "nz" x6 -> whole x6 nz ->
  means f pos kw "dz" x7 -> float_value x7 dz ->
  py f st = step rec fuel now (c v (@mkDims L nx dx (Some ny) (Some dy) (Some nz) (Some dz))) st.
Proof.
  intros Hf W H1 V1 H2 V2 H3 V3 H4 V4 H5 V5 H6 V6 H7 V7. unfold py_call. subst x1.
  assert (P : parameters f = parameters FSize) by (destruct Hf as [[-> _]|[-> _]]; reflexivity).
  rewrite (resolve_values f pos kw [PVario v; x2; x3; x4; x5; x6; x7]); [|destruct Hf as [[-> _]|[-> _]]; unfold named; auto|auto|auto|rewrite P; fa].
  tk W H2. tk W H3. tk W H4. tk W H5. tk W H6. tk W H7. rewrite P.
  change (map kindf (parameters FSize)) with [KVario; KSize; KDouble; KSize; KDouble; KSize; KDouble].
  destruct Hf as [[-> ->]|[-> ->]]; cbn [pre load_all]; repeat ld; reflexivity.
Qed.
Lemma py_advanced x1 x2 x3 x4 x5 x6 x7 y1 y2 y3 y4 y5 y6 v nx dx ny dy nz dz px pyy pz sx sy sz st :
  well_formed FAdvanced pos kw ->
  means FAdvanced pos kw "variogram" x1 -> x1 = PVario v ->
  means FAdvanced pos kw "nx" x2 -> whole x2 nx ->
  means FAdvanced pos kw "dx" x3 -> float_value x3 dx ->
  means FAdvanced pos kw "ny" x4 -> whole x4 ny ->
  means FAdvanced pos kw "dy" x5 -> float_value x5 dy ->
  means FAdvanced pos kw "nz" x6 -> whole x6 nz ->
  means FAdvanced pos kw "dz" x7 -> float_value x7 dz ->
  means FAdvanced pos kw "padx" y1 -> whole y1 px ->
  means FAdvanced pos kw "pady" y2 -> whole y2 pyy ->
  means FAdvanced pos kw "padz" y3 -> whole y3 pz ->
  means FAdvanced pos kw "sx" y4 -> float_value y4 sx ->
  means FAdvanced pos kw "sy" y5 -> float_value y5 sy ->
  means FAdvanced pos kw "sz" y6 -> float_value y6 sz ->
  py FAdvanced st = step rec fuel now (CAdvanced v (@mkDims L nx dx (Some ny) (Some dy) (Some nz) (Some dz))
                                         (@mkAdv L (Some px) (Some pyy) (Some pz) (Some sx) (Some sy) (Some sz))) st.
Proof.
  intros W H1 V1 H2 V2 H3 V3 H4 V4 H5 V5 H6 V6 H7 V7 G1 U1 G2 U2 G3 U3 G4 U4 G5 U5 G6 U6. unfold py_call. subst x1.
  rewrite (resolve_values FAdvanced pos kw [PVario v; x2; x3; x4; x5; x6; x7; y1; y2; y3; y4; y5; y6]); [|unfold named; tauto|exact Ho|exact W|fa].
  tk W H2. tk W H3. tk W H4. tk W H5. tk W H6. tk W H7. tk W G1. tk W G2. tk W G3. tk W G4. tk W G5. tk W G6.
  change (map kindf (parameters FAdvanced)) with [KVario; KSize; KDouble; KSize; KDouble; KSize; KDouble; KInt; KInt; KInt; KDouble; KDouble; KDouble].
  cbn [pre load_all]. repeat ld. Local Transparent load. reflexivity.
Qed.
End M.
End P.
