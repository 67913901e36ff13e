(** Parity of the start state, and bulk against single draws. *)
From Coq Require Import ZArith List Bool Lia Reals.
From Flocq Require Import Core IEEE754.BinarySingleNaN.
From Flocq Require IEEE754.Binary IEEE754.Bits.
From Verif Require Import Base P_Base Arith RealArith FloatArith M_Dsfmt M_DsfmtBulk M_Random M_Field M_Api S_Api S_Random
  P_Words P_Rng P_RngInit P_RngBulk P_RngFloat P_RngSame P_RngMain.
Import ListNotations.
Open Scope nat_scope.

Local Opaque init_gen_rand.

(** ** Parity *)
Fixpoint par (n : nat) (x : Z) : bool :=
  match n with O => false | S n => xorb (Z.testbit x 0) (par n (Z.shiftr x 1)) end.
Lemma shr0 x : Z.shiftr x 0 = x. Proof. apply Z.shiftr_0_r. Qed.
Lemma par_add m n x : par (m + n) x = xorb (par m x) (par n (Z.shiftr x (Z.of_nat m))).
Proof.
  revert x; induction m; intros x; cbn [par Nat.add].
  - rewrite shr0, xorb_false_l. reflexivity.
  - rewrite IHm, Z.shiftr_shiftr by lia. rewrite xorb_assoc.
    replace (1 + Z.of_nat m)%Z with (Z.of_nat (S m)) by lia. reflexivity.
Qed.
Lemma par_lxor n x y : par n (Z.lxor x y) = xorb (par n x) (par n y).
Proof.
  revert x y; induction n; intros x y; cbn [par]; auto.
  rewrite Z.lxor_spec, Z.shiftr_lxor, IHn.
  destruct (Z.testbit x 0), (Z.testbit y 0), (par n (Z.shiftr x 1)), (par n (Z.shiftr y 1)); reflexivity.
Qed.
Lemma par_fold n x : par n (foldi (Z.of_nat n) x) = par (n + n) x.
Proof. unfold foldi. rewrite par_lxor, par_add. reflexivity. Qed.
Lemma par_fold6 x : par 1 (fold6 x) = par 64 x.
Proof.
  unfold fold6.
  rewrite (par_fold 1 _ : par 1 (foldi 1 _) = _). rewrite (par_fold 2 _ : par (1 + 1) (foldi 2 _) = _).
  rewrite (par_fold 4 _ : par (2 + 2) (foldi 4 _) = _). rewrite (par_fold 8 _ : par (4 + 4) (foldi 8 _) = _).
  rewrite (par_fold 16 _ : par (8 + 8) (foldi 16 _) = _). rewrite (par_fold 32 _ : par (16 + 16) (foldi 32 _) = _).
  reflexivity.
Qed.
Lemma par_ones_gen x n : forall a,
  par n (Z.shiftr x (Z.of_nat a)) = Nat.odd (length (filter (Z.testbit x) (map Z.of_nat (seq a n)))).
Proof.
  induction n; intros a; cbn [par seq map filter]; auto.
  rewrite Z.shiftr_spec by lia. rewrite Z.add_0_l, Z.shiftr_shiftr by lia.
  replace (Z.of_nat a + 1)%Z with (Z.of_nat (S a)) by lia. rewrite IHn.
  destruct (Z.testbit x (Z.of_nat a)); cbn [length]; [|apply xorb_false_l].
  rewrite Nat.odd_succ, <- Nat.negb_odd. apply xorb_true_l.
Qed.
Lemma par_ones x : par 64 x = Nat.odd (ones x).
Proof. unfold ones. rewrite <- par_ones_gen. change (Z.of_nat 0) with 0%Z. rewrite shr0. reflexivity. Qed.

Lemma cert_odd seed : let lung := nth DSFMT_N (status (init_gen_rand seed)) w128_0 in
  Nat.odd (ones (Z.land (Z.lxor (fst lung) DSFMT_FIX1) DSFMT_PCV1) +
           ones (Z.land (Z.lxor (snd lung) DSFMT_FIX2) DSFMT_PCV2)) = true.
Proof.
  intros lung. pose proof (parity_init seed) as P. fold lung in P. rewrite certification_parity_eq in P.
  set (a := Z.land (Z.lxor (fst lung) DSFMT_FIX1) DSFMT_PCV1) in *.
  set (b := Z.land (Z.lxor (snd lung) DSFMT_FIX2) DSFMT_PCV2) in *. clearbody a b.
  rewrite Nat.odd_add, <- !par_ones, <- par_lxor, <- par_fold6. cbn [par]. rewrite xorb_false_r.
  generalize dependent (fold6 (Z.lxor a b)). intros z P.
  apply (f_equal (fun z => Z.testbit z 0)) in P. rewrite Z.land_spec, andb_true_r in P. exact P.
Qed.

(** ** Bulk conversions *)
Section Conv.
Variable m : libm.
Notation F := (Farith m).

(** the value a single draw makes of a word *)
Definition val {A : Arith} (k : range_kind) (w : Z) : num A :=
  match k with
  | Close1Open2 => ofbits A w
  | CloseOpen => sub A (ofbits A w) (lit A 1 0)
  | OpenClose => sub A (lit A 2 0) (ofbits A w)
  | OpenOpen => sub A (ofbits A (Z.lor w 1)) (lit A 1 0)
  end.

Lemma plus_opp (x y : b64) : Bplus mode_NE x (Bopp y) = Bminus mode_NE x y.
Proof. destruct x, y; reflexivity. Qed.
Lemma lit1_bits : Flit 1 0 = Binary.B2BSN 53 1024 b64_1.
Proof. apply B2SF_inj. vm_compute. reflexivity. Qed.
Lemma lit2_bits : Flit 2 0 = Binary.B2BSN 53 1024 b64_2.
Proof. apply B2SF_inj. vm_compute. reflexivity. Qed.
Lemma litm1_bits : Bopp (Flit 1 0) = Binary.B2BSN 53 1024 b64_m1.
Proof. apply B2SF_inj. vm_compute. reflexivity. Qed.

Lemma conv64_val k w : ofbits F (conv64 k w) = val k w.
Proof.
  destruct k; cbn [conv64 val]; auto; cbn [ofbits sub lit Farith]; rewrite bits_id, B2BSN_minus.
  - rewrite <- lit1_bits. reflexivity.
  - rewrite <- lit2_bits. reflexivity.
  - rewrite <- lit1_bits. reflexivity.
Qed.
Lemma conv64_sse2_val k w : ofbits F (conv64_sse2 k w) = val k w.
Proof.
  destruct k; cbn [conv64_sse2 val]; auto; cbn [ofbits sub lit Farith]; rewrite bits_id.
  - rewrite B2BSN_plus, <- litm1_bits. apply plus_opp.
  - rewrite B2BSN_minus, <- lit2_bits. reflexivity.
  - rewrite B2BSN_plus, <- litm1_bits. apply plus_opp.
Qed.

Lemma single_val {A : Arith} rec k g : single (A := A) rec k g = (val k (fst (next_word rec g)), snd (next_word rec g)).
Proof.
  destruct k; cbn [single val]; unfold Unif01, Unif01Open, genrand_open_close, genrand_close1_open2;
    destruct (next_word rec g); reflexivity.
Qed.
Lemma singles_pos {A : Arith} rec s0 kind n : length (fst s0) = DSFMT_N -> forall k g, pos_ok rec s0 k g ->
  fst (singles (A := A) rec kind n g) = map (fun j => val kind (Wd rec s0 (k + j))) (seq 0 n) /\
  pos_ok rec s0 (k + n) (snd (singles (A := A) rec kind n g)).
Proof.
  intros Hs. induction n; intros k g H; cbn [singles].
  - rewrite Nat.add_0_r. auto.
  - rewrite single_val. destruct (next_word_pos rec s0 Hs k g H) as [E P].
    destruct (IHn (S k) _ P) as [E2 P2].
    destruct (singles rec kind n (snd (next_word rec g))) as [xs g2]. cbn [fst snd] in *.
    rewrite E, E2. split.
    + cbn [seq map]. rewrite Nat.add_0_r. f_equal. rewrite <- seq_shift, map_map.
      apply map_ext. intros j. do 2 f_equal. lia.
    + replace (k + S n) with (S k + n) by lia. exact P2.
Qed.

Lemma fills_pos rec convert s0 fs : length (fst s0) = DSFMT_N ->
  (forall k w, ofbits F (convert k w) = val k w) -> admissible fs ->
  forall k g g1, pos_ok rec s0 k g -> idx g = DSFMT_N64 -> pos_ok rec s0 k g1 ->
  exists outs g' k', fills rec convert fs g = Ok (outs, g') /\
    map (map (ofbits F)) outs = fst (single_runs (A := F) rec fs g1) /\
    pos_ok rec s0 k' g' /\ idx g' = DSFMT_N64 /\ pos_ok rec s0 k' (snd (single_runs (A := F) rec fs g1)).
Proof.
  intros Hs Hc. induction fs as [|[kind a] fs]; intros Ha k g g1 H Hi H1; cbn [fills single_runs].
  - exists [], g, k. auto.
  - inversion Ha as [|? ? [He Hge] Ha']; subst. cbn [snd] in *.
    destruct (fill_array_words rec convert kind s0 k g a Hs H Hi) as (g2 & E & P & I).
    { apply Nat.even_spec; auto. }
    { exact Hge. }
    rewrite E. cbn [bind].
    destruct (singles_pos (A := F) rec s0 kind (length a) Hs k g1 H1) as [E3 P3].
    destruct (singles rec kind (length a) g1) as [xs g3]. cbn [fst snd] in *.
    destruct (IHfs Ha' _ g2 g3 P I P3) as (outs & g' & k' & E4 & E5 & P5 & I5 & P6).
    rewrite E4. cbn [bind]. destruct (single_runs rec fs g3) as [xss g4]. cbn [fst snd] in *.
    eexists _, g', k'. split; [reflexivity|]. split; [|auto].
    cbn [map]. f_equal; [|exact E5]. rewrite E3, map_map. apply map_ext. intros j. apply Hc.
Qed.

Lemma c45 rec convert seed fs : is_bulk_build rec convert -> admissible fs ->
  let g := init_gen_rand seed in
  exists outs g', fills rec convert fs g = Ok (outs, g') /\
    map (map (ofbits F)) outs = fst (single_runs (A := F) rec fs g) /\
    forall k n, fst (singles (A := F) rec k n g') = fst (singles (A := F) rec k n (snd (single_runs (A := F) rec fs g))).
Proof.
  intros Hb Ha g.
  destruct (fills_pos rec convert (start seed) fs (start_length seed)) with (k := 0) (g := g) (g1 := g)
    as (outs & g' & k' & E & E2 & P & _ & P2).
  - destruct Hb as [[_ ->] | [_ ->]]; [apply conv64_val|apply conv64_sse2_val].
  - exact Ha.
  - apply init_pos.
  - apply init_spec.
  - apply init_pos.
  - exists outs, g'. split; [exact E|]. split; [exact E2|]. intros k n.
    destruct (singles_pos (A := F) rec (start seed) k n (start_length seed) k' g' P) as [-> _].
    destruct (singles_pos (A := F) rec (start seed) k n (start_length seed) k' _ P2) as [-> _]. reflexivity.
Qed.
End Conv.

(** ** Both builds give the same streams *)
Lemma streams_same {A : Arith} seed h : let g1 := after_draws do_recursion h (init_gen_rand seed) in
  let g2 := after_draws do_recursion_sse2 h (init_gen_rand seed) in
  g1 = g2 /\ fst (genrand_uint32 do_recursion g1) = fst (genrand_uint32 do_recursion_sse2 g2) /\
  forall k, fst (single (A := A) do_recursion k g1) = fst (single (A := A) do_recursion_sse2 k g2).
Proof.
  intros g1 g2.
  destruct (after_draws_build do_recursion_sse2 h (or_intror eq_refl) _ (seeded_init seed)) as [E S].
  fold g1 in S, E. fold g2 in E. split; [symmetry; exact E|]. rewrite E.
  destruct (next_word_same g1 S) as [N _]. split.
  - unfold genrand_uint32. rewrite <- N. reflexivity.
  - intros k. rewrite !single_val, <- N. reflexivity.
Qed.

(** ** What programs do to the generator *)
Lemma reachable_build rec g : is_build rec -> reachable do_recursion g -> reachable rec g.
Proof.
  intros Hb (seed & h & ->). exists seed, h.
  destruct (after_draws_build rec h Hb _ (seeded_init seed)) as [E _]. symmetry. exact E.
Qed.
Lemma program_reachable (L : Lib) rec fuel (h : list (Z * call L)) : is_build rec ->
  is_init (after rec fuel h) = true -> reachable rec (gen (after rec fuel h)).
Proof.
  intros Hb. unfold after. destruct (run_build fuel h rstate0 rstate0_ok) as [E S].
  assert (E' : run rec fuel h rstate0 = run do_recursion fuel h rstate0).
  { destruct Hb as [-> | ->]; [reflexivity|]. symmetry. exact E. }
  rewrite E'. intros H. apply reachable_build; [exact Hb|]. destruct (S H) as [_ R]. exact R.
Qed.

(** ** Statements for all reachable states *)
Lemma c06 m rec g : is_build rec -> reachable rec g ->
  (exists k, (0 <= k < 2 ^ 52)%Z /\ exactly (fst (Unif01 (A := Farith m) rec g)) (IZR k / IZR (2 ^ 52))) /\
  (exists k, (0 < k < 2 ^ 52)%Z /\ exactly (fst (Unif01Open (A := Farith m) rec g)) (IZR k / IZR (2 ^ 52))) /\
  (exists k, (0 < k <= 2 ^ 52)%Z /\ exactly (fst (genrand_open_close (A := Farith m) rec g)) (IZR k / IZR (2 ^ 52))) /\
  (exists k, (0 <= k < 2 ^ 52)%Z /\ exactly (fst (genrand_close1_open2 (A := Farith m) rec g)) (1 + IZR k / IZR (2 ^ 52))) /\
  (0 <= fst (genrand_uint32 rec g) < 2 ^ 32)%Z.
Proof.
  intros Hb (seed & h & ->).
  split; [apply unif01_k, Hb|]. split; [apply unif01Open_k, Hb|]. split; [apply openclose_k, Hb|].
  split; [apply close1open2_k, Hb|]. apply uint32_range.
Qed.
Lemma c06_module m rec fuel L (h : list (Z * call L)) : is_build rec -> is_init (after rec fuel h) = true ->
  exists k, (0 <= k < 2 ^ 52)%Z /\ exactly (fst (Unif01 (A := Farith m) rec (gen (after rec fuel h)))) (IZR k / IZR (2 ^ 52)).
Proof. intros Hb H. apply c06; [exact Hb|]. apply program_reachable; assumption. Qed.

Lemma iter_S {T} (f : T -> T) n x : Nat.iter n f (f x) = f (Nat.iter n f x).
Proof. induction n as [|n IH]; [reflexivity|]. exact (f_equal f IH). Qed.
Lemma iter_plus {T} (f : T -> T) a b x : Nat.iter (a + b) f x = Nat.iter a f (Nat.iter b f x).
Proof. induction a as [|a IH]; [reflexivity|]. exact (f_equal f IH). Qed.
Lemma c08_nocycle rec g h k : is_build rec -> reachable rec g ->
  after_draws rec (h ++ k) g = after_draws rec h g -> after_draws rec k g = g.
Proof.
  intros Hb H E. apply (c08_cycle rec h Hb); [apply reach_draws; exact H|exact H|].
  rewrite <- E. clear E. unfold after_draws. rewrite fold_left_app.
  change (after_draws rec h (after_draws rec k g) = after_draws rec k (after_draws rec h g)).
  assert (G : forall a g, after_draws rec a g = Nat.iter (length a) (fun g => snd (next_word rec g)) g).
  { induction a as [|d a IH]; intros g0; cbn [after_draws fold_left length]; auto.
    change (after_draws rec a (after_draw rec d g0) = snd (next_word rec (Nat.iter (length a) (fun g => snd (next_word rec g)) g0))).
    rewrite IH, after_draw_next. exact (iter_S (fun g => snd (next_word rec g)) (length a) g0). }
  rewrite !G. rewrite <- !iter_plus, Nat.add_comm. reflexivity.
Qed.

Lemma same_step a b lung : (0 <= fst lung < 2 ^ 64)%Z -> (0 <= snd lung < 2 ^ 64)%Z ->
  do_recursion_sse2 a b lung = do_recursion a b lung.
Proof. intros H1 H2. apply sse2_eq. split; assumption. Qed.
Lemma same_programs (L : Lib) fuel (p : list (Z * call L)) :
  run do_recursion fuel p rstate0 = run do_recursion_sse2 fuel p rstate0.
Proof. apply (run_build fuel p rstate0 rstate0_ok). Qed.
