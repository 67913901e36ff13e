(** Proofs about concurrent calls. *)
From Coq Require Import ZArith List Bool Lia.
From Verif Require Import Base Arith M_Variogram M_Dsfmt M_Random M_Field M_Api M_Race S_Api S_Random P_Base P_Api P_RngMain P_RngMore.
Import ListNotations.
Open Scope nat_scope.

Lemma rec_step_length rec pos s i : length (fst (rec_step rec pos s i)) = length (fst s).
Proof. unfold rec_step. destruct s as [st lung]. destruct (rec _ _ lung). cbn [fst]. apply upd_length. Qed.
Lemma fold_length rec pos l : forall s, length (fst (fold_left (rec_step rec pos) l s)) = length (fst s).
Proof. induction l; intros s; cbn [fold_left]; [reflexivity|]. rewrite IHl. apply rec_step_length. Qed.
Lemma gen_rand_all_length rec st : length (gen_rand_all rec st) = length st.
Proof.
  unfold gen_rand_all. cbv zeta.
  match goal with |- length (let '(a, b) := ?x in _) = _ => pose proof (eq_refl : fst x = fst x) as E; assert (H : length (fst x) = length st) end.
  { rewrite !fold_length, rec_step_length. reflexivity. }
  destruct (fold_left _ _ _) as [a b]. cbn [fst] in H. rewrite upd_length. exact H.
Qed.
Local Opaque init_gen_rand gen_rand_all.

Definition sized (g : dsfmt) : Prop := length (status g) = S DSFMT_N.
Definition ready (rec : recursion) (g : dsfmt) : dsfmt :=
  if (DSFMT_N64 <=? idx g) then {| status := gen_rand_all rec (status g); idx := 0 |} else g.
Lemma ready_sized rec g : sized g -> sized (ready rec g) /\ idx (ready rec g) < DSFMT_N64.
Proof.
  intros H. unfold ready. destruct (Nat.leb_spec DSFMT_N64 (idx g)) as [K|K].
  - split; [unfold sized; cbn [status]; rewrite gen_rand_all_length; exact H|cbn [idx]; unfold DSFMT_N64, DSFMT_N; lia].
  - split; assumption.
Qed.
Lemma ready_ready rec g : sized g -> ready rec (ready rec g) = ready rec g.
Proof.
  intros H. pose proof (proj2 (ready_sized rec g H)) as K. unfold ready at 1. destruct (Nat.leb_spec DSFMT_N64 (idx (ready rec g))); [lia|reflexivity].
Qed.
Lemma draw_eq rec g : genrand_uint32 rec g =
  (Z.land (word64 (status (ready rec g)) (idx (ready rec g))) 0xffffffff, {| status := status (ready rec g); idx := S (idx (ready rec g)) |}).
Proof. reflexivity. Qed.
Lemma draw_sized rec g : sized g -> sized (snd (genrand_uint32 rec g)).
Proof. intros H. rewrite draw_eq. exact (proj1 (ready_sized rec g H)). Qed.

Lemma micro_test rec g : micro rec AtTest g = Ok (AtIdx, ready rec g).
Proof. reflexivity. Qed.
Lemma micro_word rec g : sized g -> idx g < 2 * S DSFMT_N ->
  micro rec (AtWord (idx g)) g = Ok (AtStore (idx g) (Z.land (word64 (status g) (idx g)) 0xffffffff), g).
Proof. intros H K. cbn [micro]. rewrite H. destruct (Nat.ltb_spec (idx g) (2 * S DSFMT_N)); [reflexivity|lia]. Qed.

Lemma upd_upd {A} (l : list A) i a b : upd (upd l i a) i b = upd l i b.
Proof. revert i. induction l; intros [|i]; cbn [upd]; try reflexivity. f_equal. apply IHl. Qed.

(** one thread alone *)
Lemma alone rec g ts t sched : sized g -> t < length ts -> nth t ts (Drew 0) = AtTest ->
  race rec (t :: t :: t :: t :: sched) ts g =
    race rec sched (upd ts t (Drew (fst (genrand_uint32 rec g)))) (snd (genrand_uint32 rec g)).
Proof.
  intros Hg Ht E. destruct (ready_sized rec g Hg) as [R1 R2]. rewrite draw_eq. cbn [fst snd].
  cbn [race]. rewrite E, micro_test. cbn [bind]. rewrite nth_upd_eq by exact Ht. cbn [micro bind].
  rewrite upd_upd, nth_upd_eq by exact Ht. change (if (idx (ready rec g) <? 2 * length (status (ready rec g))) then _ else _)
    with (micro rec (AtWord (idx (ready rec g))) (ready rec g)).
  rewrite micro_word by (try exact R1; unfold DSFMT_N64, DSFMT_N in *; lia). cbn [bind].
  rewrite upd_upd, nth_upd_eq by exact Ht. cbn [micro bind]. rewrite upd_upd. reflexivity.
Qed.

(** the [k]-th 32-bit number drawn from [g] *)
Fixpoint word_at (rec : recursion) (k : nat) (g : dsfmt) : Z :=
  match k with O => fst (genrand_uint32 rec g) | S k => word_at rec k (snd (genrand_uint32 rec g)) end.

Lemma serial_gen rec order : forall ts g, sized g -> NoDup order -> (forall t, In t order -> t < length ts /\ nth t ts (Drew 0) = AtTest) ->
  exists ps g', race rec (flat_map (fun t => [t; t; t; t]) order) ts g = Ok (ps, g') /\ length ps = length ts /\
    (forall t, ~ In t order -> nth t ps (Drew 0) = nth t ts (Drew 0)) /\
    (forall k, k < length order -> nth (nth k order 0) ps (Drew 0) = Drew (word_at rec k g)).
Proof.
  induction order as [|t order IH]; intros ts g Hg Hd Ht.
  - exists ts, g. repeat split; auto. intros k Hk. cbn in Hk. lia.
  - cbn [flat_map app]. destruct (Ht t (or_introl eq_refl)) as [T1 T2]. rewrite alone by assumption.
    inversion Hd as [|? ? N1 N2]; subst.
    destruct (IH (upd ts t (Drew (fst (genrand_uint32 rec g)))) (snd (genrand_uint32 rec g)) (draw_sized rec g Hg) N2) as [ps [g' [A [B [C D]]]]].
    { intros u Hu. destruct (Ht u (or_intror Hu)) as [U1 U2]. rewrite upd_length. split; [exact U1|].
      rewrite nth_upd_ne; [exact U2|]. intros <-. contradiction. }
    exists ps, g'. rewrite upd_length in B. split; [exact A|]. split; [exact B|]. split.
    + intros u Hu. rewrite C by (intros K; apply Hu; right; exact K). apply nth_upd_ne. intros <-. apply Hu. left. reflexivity.
    + intros [|k] Hk; cbn [nth word_at].
      * rewrite C by exact N1. apply nth_upd_eq. exact T1.
      * apply D. cbn [length] in Hk. lia.
Qed.

(** two threads that both draw the same number *)
Definition lockstep : list nat := [0; 1; 0; 1; 0; 1; 0; 1].
Lemma same_word rec g : sized g -> race rec lockstep [AtTest; AtTest] g =
  Ok ([Drew (fst (genrand_uint32 rec g)); Drew (fst (genrand_uint32 rec g))], snd (genrand_uint32 rec g)).
Proof.
  intros Hg. destruct (ready_sized rec g Hg) as [R1 R2]. rewrite draw_eq. cbn [fst snd]. unfold lockstep.
  cbn [race nth upd]. rewrite !micro_test. cbn [bind upd nth]. rewrite micro_test. rewrite ready_ready by exact Hg.
  set (r := ready rec g) in *. clearbody r. cbn [bind upd nth].
  change (micro rec AtIdx r) with (Ok (AtWord (idx r), r)). cbn [bind upd nth].
  change (micro rec AtIdx r) with (Ok (AtWord (idx r), r)). cbn [bind upd nth].
  rewrite micro_word by (try exact R1; unfold DSFMT_N64, DSFMT_N in *; lia). cbn [bind upd nth].
  rewrite micro_word by (try exact R1; unfold DSFMT_N64, DSFMT_N in *; lia). cbn [bind upd nth].
  reflexivity.
Qed.

(** four threads at the end of the array *)
Definition overrun_sched : list nat := [0; 1; 2; 3; 0; 0; 0; 1; 1; 1; 2; 2; 2; 3; 3].
Lemma overrun rec g : sized g -> S (idx g) = DSFMT_N64 -> race rec overrun_sched [AtTest; AtTest; AtTest; AtTest] g = UB OutOfBounds.
Proof.
  intros Hg Hi. assert (R : ready rec g = g) by (unfold ready; destruct (Nat.leb_spec DSFMT_N64 (idx g)); [lia|reflexivity]).
  destruct g as [st i]. unfold sized in Hg. cbn [status idx] in *. assert (Ei : i = 381) by (unfold DSFMT_N64, DSFMT_N in Hi; lia). subst i. 
  unfold overrun_sched. cbn [race nth]. rewrite micro_test, R. cbn [bind upd nth]. rewrite micro_test, R. cbn [bind upd nth].
  rewrite micro_test, R. cbn [bind upd nth]. rewrite micro_test, R. cbn [bind upd nth].
  assert (W : forall i, i < 384 -> micro rec (AtWord i) {| status := st; idx := i |} = Ok (AtStore i (Z.land (word64 st i) 0xffffffff), {| status := st; idx := i |})).
  { intros i K. cbn [micro status]. rewrite Hg. destruct (Nat.ltb_spec i (2 * S DSFMT_N)); [reflexivity|unfold DSFMT_N in *; lia]. }
  assert (I : forall i, micro rec AtIdx {| status := st; idx := i |} = Ok (AtWord i, {| status := st; idx := i |})) by reflexivity.
  assert (S' : forall i w j, micro rec (AtStore i w) {| status := st; idx := j |} = Ok (Drew w, {| status := st; idx := S i |})) by reflexivity.
  rewrite I; cbn [bind upd nth]. rewrite W by lia; cbn [bind upd nth]. rewrite S'; cbn [bind upd nth].
  rewrite I; cbn [bind upd nth]. rewrite W by lia; cbn [bind upd nth]. rewrite S'; cbn [bind upd nth].
  rewrite I; cbn [bind upd nth]. rewrite W by lia; cbn [bind upd nth]. rewrite S'; cbn [bind upd nth].
  rewrite I; cbn [bind upd nth]. cbn [micro status]. rewrite Hg. 
  destruct (Nat.ltb_spec 384 (2 * S DSFMT_N)); [unfold DSFMT_N in *; lia|reflexivity].
Qed.

(** a call after its draw *)
Section Call.
Context {L : Lib}.
Variable rec : recursion.
Variable fuel : nat.

Lemma dimension_cases ny dy nz dz : dimension (L := L) ny dy nz dz = 1 \/ dimension (L := L) ny dy nz dz = 2 \/ dimension (L := L) ny dy nz dz = 3.
Proof. unfold dimension. destruct (_ || _)%bool; [auto|]. destruct (_ || _)%bool; auto. Qed.
Lemma do_low now (v : variogram L) nx dx ny dy nz dz px py pz sx sy sz st : is_init st = true -> dimension (L := L) ny dy nz dz <> 3 ->
  fst (do_simulate rec fuel now v nx dx ny dy nz dz px py pz sx sy sz st) =
  seeded_any rec fuel v nx dx ny dy nz dz px py sx sy (fst (genrand_uint32 rec (gen st))).
Proof.
  intros Hi Hd. unfold do_simulate. rewrite (ensure_init_init rec now st Hi). cbv zeta. unfold SimulateAny, seeded_any.
  destruct (dimension_cases ny dy nz dz) as [D|[D|D]]; [| |contradiction]; rewrite D; cbv iota.
  - unfold Simulate1D, seeded1, omap. destruct (sizes1 v nx dx px); cbn [bind fst]; auto. destruct (narrow a); cbn [bind fst]; auto.
    rewrite (new_generator_eq rec st). destruct (draws _ fuel a0 _) as [[xs d]| | |]; cbn [bind fst]; auto.
    destruct (field1d _ _ _ _ _ _); cbn [bind fst]; auto.
  - unfold Simulate2D, seeded2, omap. destruct (sizes2 v nx dx ny dy px py) as [[a b]| | |]; cbn [bind fst]; auto.
    destruct (narrow a); cbn [bind fst]; auto. destruct (narrow b); cbn [bind fst]; auto.
    rewrite (new_generator_eq rec st). destruct (draws _ fuel (a0 * a1) _) as [[xs d]| | |]; cbn [bind fst]; auto.
    destruct (noise_grid2 _ _ _); cbn [bind fst]; auto. destruct (field2d _ _ _ _ _ _ _ _ _ _); cbn [bind fst]; auto.
Qed.

Lemma call_rest now (c : call L) st : is_init st = true -> low_dim c = true ->
  fst (step rec fuel now c st) = rest_of_call rec fuel c (fst (genrand_uint32 rec (gen st))).
Proof.
  intros Hi Hl. destruct c; try discriminate Hl; cbn [low_dim] in Hl; apply negb_true_iff, Nat.eqb_neq in Hl; cbn [step rest_of_call].
  - destruct (args d) as [[[[[[nx dx] ny] dy] nz] dz]| | |] eqn:E; try reflexivity.
    apply do_low; [exact Hi|]. rewrite (dim_args d _ _ _ _ _ _ E). exact Hl.
  - destruct (args d) as [[[[[[nx dx] ny] dy] nz] dz]| | |] eqn:E; try reflexivity.
    destruct (adv_args a) as [[[[[[px py] pz] sx] sy] sz]| | |] eqn:E2; try reflexivity.
    apply do_low; [exact Hi|]. rewrite (dim_args d _ _ _ _ _ _ E). exact Hl.
Qed.

Lemma reachable_sized g : is_build rec -> reachable rec g -> sized g.
Proof. intros B H. destruct (reachable_live rec g B H) as [[K _] _]. exact K. Qed.
Lemma module_sized (h : list (Z * call L)) : is_build rec -> is_init (after rec fuel h) = true -> sized (gen (after rec fuel h)).
Proof. intros B H. apply reachable_sized; [exact B|]. apply program_reachable; assumption. Qed.

Lemma c11_race (h : list (Z * call L)) now (c1 c2 : call L) : is_build rec -> let st := after rec fuel h in
  is_init st = true -> low_dim c1 = true -> low_dim c2 = true ->
  exists sched, concurrent rec fuel sched [c1; c2] (gen st) = Ok [fst (step rec fuel now c1 st); fst (step rec fuel now c2 st)].
Proof.
  intros B st Hi H1 H2. exists lockstep. unfold concurrent. cbn [map].
  rewrite same_word by (apply module_sized; assumption). cbn [bind combine map].
  rewrite !call_rest by assumption. reflexivity.
Qed.

(** one call at a time *)
Lemma thread_serial now order : forall (threads : list (list (call L))) st, is_init st = true -> NoDup order ->
  (forall t, In t order -> exists c, nth t threads [] = [c] /\ low_dim c = true) ->
  Forall is_array (map snd (thread_run rec fuel order threads now st)) ->
  forall k, k < length order ->
    nth k (map snd (thread_run rec fuel order threads now st)) NoFuel =
    match nth (nth k order 0) threads [] with c :: _ => rest_of_call rec fuel c (word_at rec k (gen st)) | [] => NoFuel end.
Proof.
  induction order as [|t order IH]; intros threads st Hi Hd Ht Ha k Hk; [cbn in Hk; lia|].
  destruct (Ht t (or_introl eq_refl)) as [c [Ec Lc]]. cbn [thread_run] in *. rewrite Ec in *.
  destruct (step rec fuel now c st) as [o st'] eqn:E. cbn [map snd] in Ha. inversion Ha as [|? ? [l El] Ha']; subst.
  inversion Hd as [|? ? N1 N2]; subst. destruct k as [|k]; cbn [nth map snd].
  - rewrite Ec. cbn [word_at]. rewrite <- (call_rest now c st Hi Lc), E. reflexivity.
  - pose proof (step_low rec fuel now c st l st' Lc Hi E) as Es.
    assert (Hi' : is_init st' = true) by (rewrite Es; exact Hi).
    rewrite (IH (upd threads t []) st' Hi' N2); [| |exact Ha'|cbn [length] in Hk; lia].
    + assert (Hk' : k < length order) by (cbn [length] in Hk; lia).
      rewrite nth_upd_ne by (intros ->; apply N1; apply nth_In; exact Hk'). cbn [word_at]. rewrite Es. reflexivity.
    + intros u Hu. rewrite nth_upd_ne by (intros ->; contradiction). apply Ht. right. exact Hu.
Qed.

Lemma c11_serial (h : list (Z * call L)) now (cs : list (call L)) order : is_build rec -> let st := after rec fuel h in
  is_init st = true -> NoDup order -> (forall t, In t order <-> t < length cs) -> (forall c, In c cs -> low_dim c = true) ->
  let locked := map snd (thread_run rec fuel order (map (fun c => [c]) cs) now st) in
  Forall is_array locked ->
  exists rs, concurrent rec fuel (flat_map (fun t => [t; t; t; t]) order) cs (gen st) = Ok rs /\ length rs = length cs /\
    forall k, k < length order -> nth (nth k order 0) rs NoFuel = nth k locked NoFuel.
Proof.
  intros B st Hi Hd Ho Hl locked Ha.
  destruct (serial_gen rec order (map (fun _ => AtTest) cs) (gen st) (module_sized h B Hi) Hd) as [ps [g' [A [Lp [_ D]]]]].
  { intros t Ht. rewrite map_length. apply Ho in Ht. split; [exact Ht|].
    rewrite (nth_indep _ (Drew 0) ((fun _ : call L => AtTest) (CSeed 0))) by (rewrite map_length; exact Ht).
    exact (map_nth (fun _ : call L => AtTest) cs (CSeed 0) t). }
  rewrite map_length in Lp. unfold concurrent. rewrite A. cbn [bind]. eexists. split; [reflexivity|]. split.
  { rewrite map_length, combine_length, Lp. lia. }
  intros k Hk. assert (Hin : In (nth k order 0) order) by (apply nth_In; exact Hk). assert (Hlt : nth k order 0 < length cs) by (apply Ho; exact Hin).
  set (F := fun '(c, p) => match p with Drew w => rest_of_call rec fuel c w | _ => NoFuel end).
  rewrite (nth_indep _ NoFuel (F (CSeed 0, Drew 0))) by (rewrite map_length, combine_length, Lp; lia).
  rewrite (map_nth F (combine cs ps) (CSeed 0, Drew 0)), combine_nth by (symmetry; exact Lp). rewrite (D k Hk). unfold F. cbv iota.
  unfold locked. rewrite (thread_serial now order (map (fun c => [c]) cs) st Hi Hd); [| |exact Ha|exact Hk].
  - rewrite (nth_indep _ [] ((fun c => [c]) (CSeed 0))) by (rewrite map_length; exact Hlt).
    rewrite (map_nth (fun c => [c]) cs (CSeed 0)). reflexivity.
  - intros t Ht. apply Ho in Ht. exists (nth t cs (CSeed 0)). split; [|apply Hl; apply nth_In; exact Ht].
    rewrite (nth_indep _ [] ((fun c => [c]) (CSeed 0))) by (rewrite map_length; exact Ht). apply (map_nth (fun c => [c]) cs (CSeed 0)).
Qed.

Lemma c11_overrun g (c1 c2 c3 c4 : call L) : is_build rec -> reachable rec g -> S (idx g) = DSFMT_N64 ->
  exists sched, concurrent rec fuel sched [c1; c2; c3; c4] g = UB OutOfBounds.
Proof.
  intros B H E. exists overrun_sched. unfold concurrent. cbn [map]. rewrite overrun; [reflexivity| |exact E]. apply reachable_sized; assumption.
Qed.
End Call.

Lemma idx_draw rec g : idx g < DSFMT_N64 -> idx (after_draw rec D32 g) = S (idx g).
Proof.
  intros H. unfold after_draw. rewrite draw_eq. cbn [snd idx]. unfold ready. destruct (Nat.leb_spec DSFMT_N64 (idx g)); [lia|reflexivity].
Qed.
Lemma idx_draws rec n : forall g, idx g + n <= DSFMT_N64 -> idx (after_draws rec (repeat D32 n) g) = idx g + n.
Proof.
  induction n; intros g H; cbn [repeat]; [cbn; lia|]. unfold after_draws. cbn [fold_left].
  change (idx (after_draws rec (repeat D32 n) (after_draw rec D32 g)) = idx g + S n).
  rewrite IHn; rewrite idx_draw by lia; lia.
Qed.
Lemma idx_first rec seed : idx (after_draw rec D32 (init_gen_rand seed)) = 1.
Proof. unfold after_draw. rewrite draw_eq. cbn [snd idx]. reflexivity. Qed.
Lemma last_word rec seed : S (idx (after_draws rec (D32 :: repeat D32 380) (init_gen_rand seed))) = DSFMT_N64.
Proof.
  change (after_draws rec (D32 :: repeat D32 380) (init_gen_rand seed)) with (after_draws rec (repeat D32 380) (after_draw rec D32 (init_gen_rand seed))).
  rewrite idx_draws; rewrite idx_first; reflexivity || (unfold DSFMT_N64; lia).
Qed.
