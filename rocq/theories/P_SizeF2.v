(** simulation_size in double precision, as a call; room for the field. *)
From Coq Require Import ZArith Bool Lia Reals Lra List String.
From Flocq Require Import Core IEEE754.BinarySingleNaN.
From Verif Require Import Base Arith FloatArith RealArith M_Variogram M_Padding M_FftSize M_Dsfmt M_Random M_Field M_Api S_Api S_Vario S_Random S_Sizes S_Room S_CorrF S_FieldF S_Damp S_CovGrid S_Accur S_Normal S_FieldH S_SizeF P_Base P_Bounds P_Api P_Padding P_VarioNames P_NormF P_FieldF P_CorrF3 P_CorrF5 P_Field P_CorrF P_Accur11 P_Args P_Sim P_Sim2 P_FieldL P_SizeF.
Import ListNotations.
Open Scope R_scope.
Local Opaque new_generator genrand_uint32 init_gen_rand gen_rand_all.

Lemma sixty_fourth : B2R (Fof 1 (-6)) = bpow radix2 (-6).
Proof.
  rewrite <- SF2R_B2SF. replace (B2SF (Fof 1 (-6))) with (SpecFloat.S754_finite false 4503599627370496 (-58)) by (vm_compute; reflexivity).
  unfold SF2R, F2R, cond_Zopp. cbn [Fnum Fexp]. change (bpow radix2 (-58)) with (/ 288230376151711744). change (bpow radix2 (-6)) with (/ 64). lra.
Qed.
Lemma Degree_large (m : libm) : bpow radix2 (-6) <= B2R (@Degree (Farith m)).
Proof. rewrite <- sixty_fourth. apply le_fin; [vm_compute; reflexivity|apply Degree_small|vm_compute; reflexivity]. Qed.
Lemma azimuth_0 (m : libm) (a : b64) : plain_azimuth a ->
  Beqb (Bmult mode_NE a (@Degree (Farith m))) (Flit 0 0) = if Req_EM_T (B2R a) 0 then true else false.
Proof.
  intros [Fa Ha]. pose proof (radians_fin m a Fa) as Fr. pose proof (mul_fin _ _ Fr) as (_ & _ & E). destruct l0 as [F0 V0].
  rewrite (Beqb_correct 53 1024 _ _ Fr F0), V0, E. destruct (Req_EM_T (B2R a) 0) as [Z|Z].
  - rewrite Z, Rmult_0_l. unfold nearest. rewrite round_0 by typeclasses eauto. apply Req_bool_true. reflexivity.
  - destruct Ha as [Ha|Ha]; [contradiction|]. apply Req_bool_false. intros Q.
    assert (G : bpow radix2 (-1006) <= Rabs (nearest (B2R a * B2R (@Degree (Farith m))))).
    { unfold nearest. apply abs_round_ge_generic; try typeclasses eauto; [apply generic_format_bpow; unfold FLT_exp; lia|].
      rewrite Rabs_mult. replace (-1006)%Z with (-1000 + -6)%Z by lia. rewrite bpow_plus. pose proof (Degree_large m). pose proof (bpow_gt_0 radix2 (-6)).
      apply Rmult_le_compat; try apply bpow_ge_0; [exact Ha|]. rewrite Rabs_pos_eq by lra. assumption. }
    rewrite Q, Rabs_R0 in G. pose proof (bpow_gt_0 radix2 (-1006)). lra.
Qed.
Section A.
Variables (m : libm) (f : fftlib) (o : Z -> outcome Z) (cl : Z -> Z -> Z).
Notation F := (Farith m).
Notation L := (Flib m f o cl).

Lemma size_named_F s main perp depth azi dp pw (v : variogram F) : @CreateVariogram F s main perp depth azi dp pw = Ok v ->
  positive main -> positive (or_main64 main perp) -> positive (or_main64 main depth) -> plain_azimuth azi ->
  forall rec fuel now (d : dims L) st ns,
  (forall i, (i < List.length ns)%nat -> positive (step64 d i) /\ (cells d i < 2 ^ 63)%Z) ->
  fst (step rec fuel now (CSize (L := L) v d) st) = Ok (VSizes ns) ->
  forall i, (i < List.length ns)%nat ->
    size_rule64 (ratio64 (vt v) (B2R (vpower v))) (room_range (B2R main) (B2R (or_main64 main perp)) (B2R (or_main64 main depth)) (B2R azi) (List.length ns) i)
      (B2R (step64 d i)) (cells d i) (nth i ns 0%Z).
Proof.
  intros HC Hm Hp Hd Hazi rec fuel now d st ns Hs H.
  destruct (created_F m s main perp depth azi dp pw v HC) as (pw' & Ev & NT & _ & _ & _).
  fold (or_main64 main perp) in Ev. fold (or_main64 main depth) in Ev.
  assert (X1 : range_x v = main) by (rewrite Ev; reflexivity). assert (X2 : range_y v = or_main64 main perp) by (rewrite Ev; reflexivity).
  assert (X3 : range_z v = or_main64 main depth) by (rewrite Ev; reflexivity). assert (X4 : azimuth v = Bmult mode_NE azi (@Degree F)) by (rewrite Ev; reflexivity).
  clear Ev. destruct (max_F m _ _ Hm Hp) as [PM VM].
  cbn [step fst] in H. apply bind_Ok in H as ([[[[[nx dx] ny] dy] nz] dz] & A & H).
  apply args_inv in A as [E (Sx & Sy & Sz)]. injection E as -> -> -> -> -> ->. unfold size_ok in *.
  unfold omap in H. apply bind_Ok in H as (l & H & E). injection E as ->.
  unfold FindGridSizeAfterPadding in H. apply bind_Ok in H as (ps & H & E).
  change (@FindNDimPadding L) with (@FindNDimPadding F) in H.
  unfold FindNDimPadding in H. rewrite X1, X2, X3, X4 in H. change (feq F) with (@Beqb 53 1024) in H. change (lit F 0 0) with (Flit 0 0) in H. rewrite (azimuth_0 m azi Hazi) in H.
  assert (PY : positive (if (if Req_EM_T (B2R azi) 0 then true else false) then or_main64 main perp else @fmax F main (or_main64 main perp)) /\
    B2R (if (if Req_EM_T (B2R azi) 0 then true else false) then or_main64 main perp else @fmax F main (or_main64 main perp)) =
      if Req_EM_T (B2R azi) 0 then B2R (or_main64 main perp) else Rmax (B2R main) (B2R (or_main64 main perp))) by (destruct (Req_EM_T (B2R azi) 0); [split; [exact Hp|reflexivity]|split; assumption]).
  destruct PY as [PY VY].
  assert (R : forall r p i rr, positive r -> B2R r = rr -> @FindGaussianFieldPadding F v (cells d i) r (step64 d i) = Ok p -> positive (step64 d i) -> (0 <= cells d i < 2 ^ 63)%Z ->
    size_rule64 (ratio64 (vt v) (B2R (vpower v))) rr (B2R (step64 d i)) (cells d i) (u64 (p + cells d i))).
  { intros r p i rr P <- G S C. destruct (pad_F m v (cells d i) r (step64 d i) p P S G C) as [T Fr]. rewrite <- (ratio_F m v Fr NT). exact T. }
  assert (CN : forall i, (0 <= cells d i)%Z) by (intros [|[|[|i]]]; unfold cells; cbn [nth]; [lia|lia|lia|destruct i; lia]).
  destruct (opt (d_ny d) 1 <=? 1)%Z.
  - apply bind_Ok in H as (px & Hpx & H). injection H as <-. injection E as <-. intros i Hi.
    destruct i as [|i]; [|simpl in Hi; lia]. destruct (Hs 0%nat Hi). cbn [List.length] in *. apply (R main); auto.
  - destruct (opt (d_nz d) 1 <=? 1)%Z.
    + apply bind_Ok in H as (px & Hpx & H). apply bind_Ok in H as (py & Hpy & H). injection H as <-. injection E as <-. intros i Hi.
      destruct (Hs i Hi). destruct i as [|[|i]]; [..|simpl in Hi; lia]; cbn [List.length] in *.
      * apply (R (@fmax F main (or_main64 main perp))); auto.
      * eapply R; [exact PY|exact VY|exact Hpy|assumption|auto].
    + apply bind_Ok in H as (px & Hpx & H). apply bind_Ok in H as (py & Hpy & H). apply bind_Ok in H as (pz & Hpz & H).
      injection H as <-. injection E as <-. intros i Hi.
      destruct (Hs i Hi). destruct i as [|[|[|i]]]; [..|simpl in Hi; lia]; cbn [List.length] in *.
      * apply (R (@fmax F main (or_main64 main perp))); auto.
      * eapply R; [exact PY|exact VY|exact Hpy|assumption|auto].
      * apply (R (or_main64 main depth)); auto.
Qed.

Lemma named_type s n t main perp depth azi dp (pw : b64) (v : variogram F) : @CreateVariogram F s main perp depth azi dp pw = Ok v -> In (n, t) documented -> lower s = n -> vt v = t.
Proof.
  intros HC Hin Hl. destruct (is_ascii_dec s) as [Ha|Ha].
  - destruct (names_documented (A := F) s n t main perp depth azi dp pw Hin Hl Ha) as (u & E & T). rewrite HC in E. apply (f_equal (fun x => match x with Ok w => w | _ => u end)) in E. cbn beta iota in E. subst u. exact T.
  - rewrite (names_bad s (main : num F) perp depth azi dp pw Ha) in HC. discriminate HC.
Qed.
Lemma size_doc s n t main perp depth azi dp pw (v : variogram F) : @CreateVariogram F s main perp depth azi dp pw = Ok v -> In (n, t) documented -> lower s = n ->
  positive main -> positive (or_main64 main perp) -> positive (or_main64 main depth) -> plain_azimuth azi ->
  forall rec fuel now (d : dims L) st ns,
  (forall i, (i < List.length ns)%nat -> positive (step64 d i) /\ (cells d i < 2 ^ 63)%Z) ->
  fst (step rec fuel now (CSize (L := L) v d) st) = Ok (VSizes ns) ->
  List.length ns = (if (opt (d_ny d) 1 <=? 1)%Z then 1 else if (opt (d_nz d) 1 <=? 1)%Z then 2 else 3)%nat /\
  forall i, (i < List.length ns)%nat ->
    size_rule64 (ratio64 t (B2R pw)) (room_range (B2R main) (B2R (or_main64 main perp)) (B2R (or_main64 main depth)) (B2R azi) (List.length ns) i)
      (B2R (step64 d i)) (cells d i) (nth i ns 0%Z).
Proof.
  intros HC Hin Hl Hm Hp Hd Ha rec fuel now d st ns Hs H. split; [exact (size_length (L := L) rec fuel now v d st ns H)|]. intros i Hi.
  pose proof (size_named_F s main perp depth azi dp pw v HC Hm Hp Hd Ha rec fuel now d st ns Hs H i Hi) as S.
  pose proof (named_type s n t main perp depth azi dp pw v HC Hin Hl) as T. destruct (created_F m s main perp depth azi dp pw v HC) as (_ & _ & _ & _ & _ & G).
  assert (Q : ratio64 (vt v) (B2R (vpower v)) = ratio64 t (B2R pw)).
  { rewrite T in *. destruct t; try reflexivity. unfold ratio64. rewrite (G eq_refl). reflexivity. }
  rewrite <- Q. exact S.
Qed.
(** room, whatever the azimuth *)
Lemma size_more s main perp depth azi dp pw (v : variogram F) : @CreateVariogram F s main perp depth azi dp pw = Ok v ->
  positive main -> positive (or_main64 main perp) -> positive (or_main64 main depth) ->
  forall rec fuel now (d : dims L) st ns,
  (forall i, (i < List.length ns)%nat -> positive (step64 d i) /\ (cells d i < 2 ^ 63)%Z) ->
  fst (step rec fuel now (CSize (L := L) v d) st) = Ok (VSizes ns) ->
  forall i, (i < List.length ns)%nat -> (cells d i < nth i ns 0)%Z.
Proof.
  intros HC Hm Hp Hd rec fuel now d st ns Hs H.
  destruct (created_F m s main perp depth azi dp pw v HC) as (pw' & Ev & NT & _ & _ & _).
  fold (or_main64 main perp) in Ev. fold (or_main64 main depth) in Ev.
  assert (X1 : range_x v = main) by (rewrite Ev; reflexivity). assert (X2 : range_y v = or_main64 main perp) by (rewrite Ev; reflexivity).
  assert (X3 : range_z v = or_main64 main depth) by (rewrite Ev; reflexivity).
  clear Ev. destruct (max_F m _ _ Hm Hp) as [PM VM].
  cbn [step fst] in H. apply bind_Ok in H as ([[[[[nx dx] ny] dy] nz] dz] & A & H).
  apply args_inv in A as [E (Sx & Sy & Sz)]. injection E as -> -> -> -> -> ->. unfold size_ok in *.
  unfold omap in H. apply bind_Ok in H as (l & H & E). injection E as ->.
  unfold FindGridSizeAfterPadding in H. apply bind_Ok in H as (ps & H & E).
  change (@FindNDimPadding L) with (@FindNDimPadding F) in H.
  unfold FindNDimPadding in H. rewrite X1, X2, X3 in H.
  assert (PY : forall b : bool, positive (if b then or_main64 main perp else @fmax F main (or_main64 main perp))) by (intros []; assumption).
  revert H. generalize (feq F (azimuth v) (lit F 0 0)). intros b H. specialize (PY b).
  assert (R : forall r p i, positive r -> @FindGaussianFieldPadding F v (cells d i) r (step64 d i) = Ok p -> positive (step64 d i) -> (0 <= cells d i < 2 ^ 63)%Z -> (cells d i < u64 (p + cells d i))%Z).
  { intros r p i P G S C. destruct (pad_F m v (cells d i) r (step64 d i) p P S G C) as [(_ & _ & T) _]. lia. }
  assert (CN : forall i, (0 <= cells d i)%Z) by (intros [|[|[|i]]]; unfold cells; cbn [nth]; [lia|lia|lia|destruct i; lia]).
  destruct (opt (d_ny d) 1 <=? 1)%Z.
  - apply bind_Ok in H as (px & Hpx & H). injection H as <-. injection E as <-. intros i Hi.
    destruct i as [|i]; [|simpl in Hi; lia]. destruct (Hs 0%nat Hi). exact (R _ px 0%nat Hm Hpx ltac:(assumption) ltac:(auto)).
  - destruct (opt (d_nz d) 1 <=? 1)%Z.
    + apply bind_Ok in H as (px & Hpx & H). apply bind_Ok in H as (py & Hpy & H). injection H as <-. injection E as <-. intros i Hi.
      destruct (Hs i Hi). destruct i as [|[|i]]; [..|simpl in Hi; lia].
      * exact (R _ px 0%nat PM Hpx ltac:(assumption) ltac:(auto)).
      * exact (R _ py 1%nat PY Hpy ltac:(assumption) ltac:(auto)).
    + apply bind_Ok in H as (px & Hpx & H). apply bind_Ok in H as (py & Hpy & H). apply bind_Ok in H as (pz & Hpz & H).
      injection H as <-. injection E as <-. intros i Hi.
      destruct (Hs i Hi). destruct i as [|[|[|i]]]; [..|simpl in Hi; lia].
      * exact (R _ px 0%nat PM Hpx ltac:(assumption) ltac:(auto)).
      * exact (R _ py 1%nat PY Hpy ltac:(assumption) ltac:(auto)).
      * exact (R _ pz 2%nat Hd Hpz ltac:(assumption) ltac:(auto)).
Qed.
Lemma room_F s main perp depth azi dp pw (v : variogram F) : @CreateVariogram F s main perp depth azi dp pw = Ok v ->
  positive main -> positive (or_main64 main perp) -> positive (or_main64 main depth) ->
  forall rec fuel now (d : dims L) (a : adv L) st ns B, (B < 2 ^ 63)%Z ->
  fst (step rec fuel now (CSize (L := L) v d) st) = Ok (VSizes ns) -> List.length ns = dim_asked d ->
  (forall i, (i < dim_asked d)%nat -> positive (step64 d i) /\ (1 <= cells d i <= B)%Z /\ (requested d a ns i <= B)%Z) -> has_room d a ns B.
Proof.
  intros HC Hm Hp Hd rec fuel now d a st ns B HB H Hl HA i Hi. destruct (HA i Hi) as (_ & C & Rq).
  assert (S : (cells d i < nth i ns 0)%Z).
  { apply (size_more s main perp depth azi dp pw v HC Hm Hp Hd rec fuel now d st ns); [|exact H|lia]. intros j Hj. rewrite Hl in Hj. destruct (HA j Hj) as (P & C' & _). split; [exact P|lia]. }
  assert (G : (cells d i <= requested d a ns i)%Z).
  { unfold requested, pad_given in *. destruct (nth i [a_padx a; a_pady a; a_padz a] None) as [p|]; [|lia]. destruct (p <? 0)%Z eqn:E; lia. }
  lia.
Qed.
End A.
Lemma positive_ordinary (r : b64) : ordinary r -> positive r.
Proof. intros (A & B & _). split; [exact A|]. pose proof (bpow_gt_0 radix2 (-100)). lra. Qed.
Lemma positive_cell (r : b64) : cell r -> positive r.
Proof. intros (A & B & _). split; [exact A|]. pose proof (bpow_gt_0 radix2 (-100)). lra. Qed.
Lemma call_room m f o cl dl (v : variogram (Farith m)) (w : variogram Rarith) : same_call m dl v w ->
  forall rec fuel now (d : dims (Flib m f o cl)) (a : adv (Flib m f o cl)) st ns B, (B < 2 ^ 63)%Z ->
  fst (step rec fuel now (CSize (L := Flib m f o cl) v d) st) = Ok (VSizes ns) -> List.length ns = dim_asked d ->
  (forall i, (i < dim_asked d)%nat -> cell (step64 d i) /\ (1 <= cells d i <= B)%Z /\ (requested d a ns i <= B)%Z) -> has_room d a ns B.
Proof.
  intros (s & main & perp & depth & azi & dp & pw & HC & _ & _ & _ & O1 & O2 & O3 & _) rec fuel now d a st ns B HB H Hl HA.
  destruct (ord_arg main perp O1 O2) as (P2 & _). destruct (ord_arg main depth O1 O3) as (P3 & _).
  apply (room_F m f o cl s main perp depth azi dp pw v HC (positive_ordinary _ O1) (positive_ordinary _ P2) (positive_ordinary _ P3) rec fuel now d a st ns B HB H Hl).
  intros i Hi. destruct (HA i Hi) as (C & X). split; [exact (positive_cell _ C)|exact X].
Qed.
Lemma positive_lit (x : b64) r : exactly x r -> 0 < r -> positive x.
Proof. intros [A B] H. split; [exact A|]. rewrite B. exact H. Qed.
