(** The seed file. *)
From Coq Require Import ZArith Lia Bool String Ascii List.
From Verif Require Import Base M_Dsfmt M_Random S_Random M_SeedFile S_SeedFile.
Import ListNotations.
Open Scope Z_scope.
Open Scope list_scope.

(** ** numerals *)
Definition digits (ds : list Z) : Prop := Forall (fun d => 0 <= d < 10) ds.
Lemma ten_cases (P : Z -> Prop) : P 0 -> P 1 -> P 2 -> P 3 -> P 4 -> P 5 -> P 6 -> P 7 -> P 8 -> P 9 -> forall d, 0 <= d < 10 -> P d.
Proof.
  intros. assert (d = 0 \/ d = 1 \/ d = 2 \/ d = 3 \/ d = 4 \/ d = 5 \/ d = 6 \/ d = 7 \/ d = 8 \/ d = 9) as C by lia.
  destruct C as [C|[C|[C|[C|[C|[C|[C|[C|[C|C]]]]]]]]]; rewrite C; assumption.
Qed.
Lemma digit_char_eq d : 0 <= d < 10 -> digit d = digit_char d.
Proof. revert d. apply ten_cases; reflexivity. Qed.
Lemma digit_of_char d : 0 <= d < 10 -> digit_of (digit_char d) = Some d.
Proof. revert d. apply ten_cases; reflexivity. Qed.
Lemma char_plain d : 0 <= d < 10 -> is_space (digit_char d) = false /\ Ascii.eqb (digit_char d) "-" = false /\ Ascii.eqb (digit_char d) "+" = false.
Proof. revert d. apply ten_cases; repeat split; reflexivity. Qed.

Lemma numeral_cons d ds : numeral (d :: ds) = String (digit_char d) (numeral ds).
Proof. reflexivity. Qed.
Lemma numeral_app ds es : numeral (ds ++ es) = (numeral ds ++ numeral es)%string.
Proof. induction ds as [|d ds IH]; [reflexivity|]. cbn [app]. rewrite !numeral_cons, IH. reflexivity. Qed.
Lemma numeral_length ds : String.length (numeral ds) = List.length ds.
Proof. induction ds as [|d ds IH]; [reflexivity|]. rewrite numeral_cons. cbn. rewrite IH. reflexivity. Qed.
Lemma app_str_nil s : (s ++ "")%string = s.
Proof. induction s; cbn; congruence. Qed.
Lemma app_str_assoc a b c : ((a ++ b) ++ c)%string = (a ++ b ++ c)%string.
Proof. induction a; cbn; congruence. Qed.

Lemma of_digits_from ds : forall a, fold_left (fun a d => 10 * a + d) ds a = a * 10 ^ Z.of_nat (List.length ds) + of_digits ds.
Proof.
  unfold of_digits. induction ds as [|d ds IH]; intros a.
  - cbn. lia.
  - cbn [fold_left List.length]. rewrite IH, (IH (10 * 0 + d)). rewrite Nat2Z.inj_succ, Z.pow_succ_r by lia. ring.
Qed.
Lemma of_digits_app ds es : of_digits (ds ++ es) = of_digits ds * 10 ^ Z.of_nat (List.length es) + of_digits es.
Proof. unfold of_digits at 1. rewrite fold_left_app. rewrite of_digits_from. reflexivity. Qed.
Lemma of_digits_range ds : digits ds -> 0 <= of_digits ds < 10 ^ Z.of_nat (List.length ds).
Proof.
  induction ds as [|d ds IH] using rev_ind; intros H; [cbn; lia|].
  apply Forall_app in H. destruct H as [H1 H2]. inversion H2; subst.
  specialize (IH H1). rewrite of_digits_app, app_length. cbn [List.length].
  replace (Z.of_nat (List.length ds + 1)) with (Z.succ (Z.of_nat (List.length ds))) by lia. rewrite Z.pow_succ_r by lia.
  change (of_digits [d]) with (10 * 0 + d). change (10 ^ Z.of_nat 1) with 10. lia.
Qed.

(** ** printing *)
Lemma print_digits_eq fuel : forall n acc, 0 <= n < 10 ^ Z.of_nat fuel -> (0 < fuel)%nat ->
  exists ds, print_digits fuel n acc = (numeral ds ++ acc)%string /\ of_digits ds = n /\ ds <> [] /\ digits ds /\ (hd 0 ds = 0 -> ds = [0]).
Proof.
  induction fuel as [|fuel IH]; intros n acc Hn Hf; [lia|].
  cbn [print_digits]. assert (Hm : 0 <= n mod 10 < 10) by (apply Z.mod_pos_bound; lia). rewrite (digit_char_eq _ Hm).
  destruct (n <? 10) eqn:E.
  - apply Z.ltb_lt in E. rewrite Z.mod_small in * by lia. exists [n].
    split; [reflexivity|]. split; [unfold of_digits; cbn [fold_left]; lia|]. split; [discriminate|]. split; [repeat constructor; lia|].
    cbn [hd]. intros ->. reflexivity.
  - apply Z.ltb_ge in E. rewrite Nat2Z.inj_succ, Z.pow_succ_r in Hn by lia.
    assert (D := Z.div_mod n 10 ltac:(lia)).
    assert (D' : 0 <= n / 10 < 10 ^ Z.of_nat fuel) by (split; [apply Z.div_pos; lia|apply Z.div_lt_upper_bound; lia]).
    destruct (IH (n / 10) (String (digit_char (n mod 10)) acc) D') as (ds & E1 & E2 & E3 & E4 & E5).
    { destruct fuel; [|lia]. cbn in D'. lia. }
    exists (ds ++ [n mod 10]). split; [|split; [|split; [|split]]].
    + rewrite E1, numeral_app, app_str_assoc. reflexivity.
    + rewrite of_digits_app, E2. change (of_digits [n mod 10]) with (10 * 0 + n mod 10). change (10 ^ Z.of_nat (List.length [n mod 10])) with 10. lia.
    + destruct ds; discriminate.
    + apply Forall_app. split; [exact E4|]. repeat constructor; lia.
    + destruct ds as [|e ds]; [congruence|]. cbn [app hd]. intros H. specialize (E5 H). injection E5 as -> ->.
      assert (n / 10 = 0) by (rewrite <- E2; reflexivity). assert (1 <= n / 10) by (apply Z.div_le_lower_bound; lia). lia.
Qed.
Lemma print_decimal n : 0 <= n < 2 ^ 64 -> decimal n (print n).
Proof.
  intros H. destruct (print_digits_eq 20 n "") as (ds & E1 & E2 & E3 & E4 & E5); [assert (2 ^ 64 < 10 ^ Z.of_nat 20) by reflexivity; lia|apply Nat.lt_0_succ|].
  exists ds. fold (print n) in E1. rewrite app_str_nil in E1. auto.
Qed.

(** ** reading *)
Definition no_digit (s : string) : Prop := match s with String c _ => digit_of c = None | EmptyString => True end.
Lemma read_numeral ds : forall a n rest, digits ds -> no_digit rest ->
  read_digits a n (numeral ds ++ rest) = (fold_left (fun a d => 10 * a + d) ds a, (n + List.length ds)%nat).
Proof.
  induction ds as [|d ds IH]; intros a n rest H R.
  - cbn. rewrite Nat.add_0_r. destruct rest as [|c rest]; [reflexivity|]. cbn in R |- *. rewrite R. reflexivity.
  - inversion H; subst. rewrite numeral_cons. cbn [append read_digits]. rewrite digit_of_char by assumption. rewrite IH by assumption.
    cbn [fold_left List.length]. f_equal. lia.
Qed.
Lemma extract_numeral ds rest : digits ds -> ds <> [] -> no_digit rest -> of_digits ds < 2 ^ 64 ->
  extract (numeral ds ++ rest) = (of_digits ds, true).
Proof.
  intros H N R B. destruct ds as [|d ds]; [congruence|]. inversion H; subst. destruct (char_plain d) as (P1 & P2 & P3); [assumption|].
  unfold extract. rewrite numeral_cons. cbn [append skip_space]. rewrite P1. cbn [skip_space]. rewrite P2, P3.
  change (String (digit_char d) (numeral ds ++ rest)) with (numeral (d :: ds) ++ rest)%string.
  rewrite read_numeral by assumption. cbn [List.length Nat.add].
  change (fold_left (fun a d => 10 * a + d) (d :: ds) 0) with (of_digits (d :: ds)).
  destruct (2 ^ 64 <=? of_digits (d :: ds)) eqn:E; [apply Z.leb_le in E; lia|reflexivity].
Qed.
Lemma extract_large ds rest : digits ds -> no_digit rest -> 2 ^ 64 <= of_digits ds -> extract (numeral ds ++ rest) = (2 ^ 64 - 1, false).
Proof.
  intros H R B. destruct ds as [|d ds]; [change (of_digits []) with 0 in B; lia|]. inversion H; subst. destruct (char_plain d) as (P1 & P2 & P3); [assumption|].
  unfold extract. rewrite numeral_cons. cbn [append skip_space]. rewrite P1. cbn [skip_space]. rewrite P2, P3.
  change (String (digit_char d) (numeral ds ++ rest)) with (numeral (d :: ds) ++ rest)%string.
  rewrite read_numeral by assumption. cbn [List.length Nat.add].
  change (fold_left (fun a d => 10 * a + d) (d :: ds) 0) with (of_digits (d :: ds)).
  destruct (2 ^ 64 <=? of_digits (d :: ds)) eqn:E; [reflexivity|apply Z.leb_gt in E; lia].
Qed.

Definition newline : string := String (ascii_of_nat 10) "".
Lemma substring_all s : forall k, (String.length s <= k)%nat -> substring 0 k s = s.
Proof. induction s as [|c s IH]; intros [|k] H; cbn in *; try reflexivity; try lia. rewrite IH by lia. reflexivity. Qed.
Lemma substring_firstn ds rest : forall k, (k <= List.length ds)%nat -> substring 0 k (numeral ds ++ rest) = numeral (firstn k ds).
Proof.
  induction ds as [|d ds IH]; intros [|k] H; cbn [List.length] in H; try lia.
  - destruct rest; reflexivity.
  - rewrite numeral_cons. reflexivity.
  - rewrite numeral_cons. cbn [append substring firstn]. rewrite numeral_cons, IH by lia. reflexivity.
Qed.
Lemma digits_firstn k ds : digits ds -> digits (firstn k ds).
Proof. intros H. rewrite <- (firstn_skipn k ds) in H. apply Forall_app in H. apply H. Qed.
Lemma digits_skipn k ds : digits ds -> digits (skipn k ds).
Proof. intros H. rewrite <- (firstn_skipn k ds) in H. apply Forall_app in H. apply H. Qed.
Lemma of_firstn k ds : digits ds -> (k <= List.length ds)%nat ->
  of_digits (firstn k ds) = of_digits ds / 10 ^ (Z.of_nat (List.length ds) - Z.of_nat k).
Proof.
  intros H K. rewrite <- (firstn_skipn k ds) at 2. rewrite of_digits_app, skipn_length, Nat2Z.inj_sub by lia.
  rewrite Z.div_add_l by (apply Z.pow_nonzero; lia). rewrite Z.div_small; [lia|].
  pose proof (of_digits_range _ (digits_skipn k _ H)) as B. rewrite skipn_length, Nat2Z.inj_sub in B by lia. exact B.
Qed.

(** the whole text of a write, read back *)
Lemma read_back x : 0 <= x < 2 ^ 64 -> extract (print x ++ newline) = (x, true).
Proof.
  intros H. destruct (print_decimal x H) as (ds & -> & <- & N & D & _).
  apply extract_numeral; [exact D|exact N|reflexivity|lia].
Qed.
(** any number of its characters *)
Lemma read_prefix x k : 0 <= x < 2 ^ 64 ->
  let n := String.length (print x) in
  extract (substring 0 k (print x ++ newline)) = match k with O => (0, false) | _ => (x / 10 ^ (Z.of_nat n - Z.of_nat (Nat.min k n)), true) end.
Proof.
  intros H n. destruct (print_decimal x H) as (ds & E & <- & N & D & _). unfold n. rewrite E, numeral_length.
  assert (L : (0 < List.length ds)%nat) by (destruct ds; [congruence|cbn; lia]).
  destruct k as [|k].
  - rewrite substring_firstn by lia. reflexivity.
  - destruct (le_lt_dec (S k) (List.length ds)) as [K|K].
    + rewrite substring_firstn, (Nat.min_l (S k)) by lia. rewrite <- of_firstn by (auto; lia).
      rewrite <- (app_str_nil (numeral _)). apply extract_numeral.
      * apply digits_firstn, D.
      * destruct ds; [cbn in L; lia|discriminate].
      * exact I.
      * rewrite of_firstn by (auto; lia). apply Z.le_lt_trans with (of_digits ds); [|lia].
        apply Z.div_le_upper_bound; [apply Z.pow_pos_nonneg; lia|].
        assert (0 < 10 ^ (Z.of_nat (List.length ds) - Z.of_nat (S k))) by (apply Z.pow_pos_nonneg; lia). nia.
    + rewrite substring_all.
      * rewrite (Nat.min_r (S k)) by lia. rewrite Z.sub_diag, Z.div_1_r. apply extract_numeral; [exact D|exact N|reflexivity|lia].
      * assert (LA : forall a b, String.length (a ++ b)%string = (String.length a + String.length b)%nat) by (induction a; cbn; auto).
        rewrite LA, numeral_length. cbn. lia.
Qed.

(** ** the class *)
Lemma any_uint32 rec g : 0 <= fst (genrand_uint32 rec g) < 2 ^ 32.
Proof.
  unfold genrand_uint32. destruct (next_word rec g) as [w g']. cbn [fst].
  change 4294967295%Z with (Z.ones 32). rewrite Z.land_ones by lia. apply Z.mod_pos_bound. reflexivity.
Qed.
Local Opaque init_gen_rand genrand_uint32.

Lemma put_same d name t : put d name t name = Some t.
Proof. unfold put. rewrite String.eqb_refl. reflexivity. Qed.
Lemma put_other d name t f : f <> name -> put d name t f = d f.
Proof. intros H. unfold put. apply String.eqb_neq in H. rewrite H. reflexivity. Qed.

Lemma next_seed_range rec st : 0 <= next_seed rec st < 2 ^ 64.
Proof.
  unfold next_seed, DrawUint32. pose proof (any_uint32 rec (gen (rnd st))) as B.
  destruct (genrand_uint32 rec (gen (rnd st))). cbn [fst] in *. assert (2 ^ 32 < 2 ^ 64) by reflexivity. lia.
Qed.
Lemma next_seed_eq rec st : next_seed rec st = fst (genrand_uint32 rec (gen (rnd st))).
Proof. unfold next_seed, DrawUint32. destruct (genrand_uint32 rec (gen (rnd st))). reflexivity. Qed.

(** a read that fails *)
Lemma c68_fail d name st e st' : InitializeFile d name st = (e, st') -> e <> Returns ->
  gen (rnd st') = gen (rnd st) /\ is_init (rnd st') = is_init (rnd st) /\ use_seed_file st' = use_seed_file st /\ seed_file st' = seed_file st /\
  (e = OpenError /\ d name = None /\ st' = st \/
   e = ReadError /\ exists t, d name = Some t /\ snd (extract t) = false /\ start_seed (rnd st') = fst (extract t)).
Proof.
  unfold InitializeFile. destruct (d name) as [t|] eqn:D.
  - destruct (extract t) as [x ok] eqn:E. destruct ok.
    + intros H N. assert (e = Returns) by congruence. contradiction.
    + intros H N. assert (H1 : ReadError = e) by congruence.
      assert (H2 : mkFstate (mkRstate (is_init (rnd st)) x (gen (rnd st)) (leaked (rnd st))) (use_seed_file st) (seed_file st) = st') by congruence.
      rewrite <- H1, <- H2. repeat split. right. split; [reflexivity|]. exists t. rewrite E. auto.
  - intros H N. assert (H1 : OpenError = e) by congruence. assert (H2 : st = st') by congruence. rewrite <- H1, <- H2. auto 10.
Qed.
Lemma extract_fail t : snd (extract t) = false -> fst (extract t) = 0 \/ fst (extract t) = 2 ^ 64 - 1.
Proof.
  unfold extract.
  match goal with |- context [let '(_, _) := ?m in _] => destruct m as [ng s] end.
  destruct (read_digits 0 0 s) as [x [|n]]; [auto|]. destruct (2 ^ 64 <=? x); auto. discriminate.
Qed.
(** a read that succeeds *)
Lemma c68_ok d name st st' : InitializeFile d name st = (Returns, st') ->
  exists t x, d name = Some t /\ extract t = (x, true) /\ start_seed (rnd st') = x /\ is_init (rnd st') = true /\ gen (rnd st') = init_gen_rand x /\
    use_seed_file st' = true /\ seed_file st' = name.
Proof.
  unfold InitializeFile. destruct (d name) as [t|] eqn:D; [|discriminate].
  destruct (extract t) as [x ok] eqn:E. destruct ok; [|discriminate]. intros H.
  assert (H2 : mkFstate (mkRstate true x (init_gen_rand x) (leaked (rnd st))) true name = st') by congruence.
  exists t, x. rewrite <- H2. auto 10.
Qed.
Lemma init_text d name st t x : d name = Some t -> extract t = (x, true) ->
  InitializeFile d name st = (Returns, mkFstate (mkRstate true x (init_gen_rand x) (leaked (rnd st))) true name).
Proof. intros D E. unfold InitializeFile. rewrite D, E. reflexivity. Qed.

(** a write that ends well, read by another process *)
Lemma c69_handover rec d st st' k d1 d2 st2 : use_seed_file st = true -> (String.length (text_of rec st) <= k)%nat ->
  WriteSeedToFile rec true k d st = (Returns, d1, st') -> (forall f, d2 f = d1 f) ->
  exists st3, InitializeFile d2 (seed_file st) st2 = (Returns, st3) /\
    start_seed (rnd st3) = fst (genrand_uint32 rec (gen (rnd st))) /\ is_init (rnd st3) = true /\
    gen (rnd st3) = init_gen_rand (fst (genrand_uint32 rec (gen (rnd st)))).
Proof.
  intros U K W F. unfold WriteSeedToFile in W. rewrite U in W.
  assert (W' : put d (seed_file st) (substring 0 k (text_of rec st)) = d1) by congruence.
  assert (T : d2 (seed_file st) = Some (print (next_seed rec st) ++ newline)%string).
  { rewrite F, <- W', put_same, substring_all by exact K. reflexivity. }
  eexists. split; [exact (init_text _ _ st2 _ _ T (read_back _ (next_seed_range rec st)))|]. cbn [rnd start_seed is_init gen].
  rewrite next_seed_eq. auto.
Qed.
(** a chain of runs *)
Lemma run_ok rec name h d t x : d name = Some t -> extract t = (x, true) ->
  exists st d', run rec name h d = Some (st, d') /\ start_seed (rnd st) = x /\
    d' name = Some (print (fst (genrand_uint32 rec (after_draws rec h (init_gen_rand x)))) ++ newline)%string /\
    (forall f, f <> name -> d' f = d f).
Proof.
  intros D E. unfold run. rewrite (init_text _ _ _ _ _ D E). unfold use. cbn [rnd use_seed_file seed_file is_init start_seed gen leaked].
  set (st := mkFstate _ true name). unfold WriteSeedToFile. cbn [use_seed_file seed_file st].
  eexists _, _. split; [reflexivity|]. split; [|split].
  - unfold DrawUint32. destruct (genrand_uint32 rec _). reflexivity.
  - rewrite put_same, substring_all by apply le_n. unfold text_of. rewrite next_seed_eq. reflexivity.
  - intros f H. apply put_other. exact H.
Qed.
Lemma c69_chain rec name hs : forall d t x, d name = Some t -> extract t = (x, true) ->
  exists d', runs rec name hs d = Some (seeds_from rec x hs, d').
Proof.
  induction hs as [|h hs IH]; intros d t x D E; [cbn; eauto|].
  destruct (run_ok rec name h d t x D E) as (st & d' & R & S & T & _). cbn [runs]. rewrite R.
  set (x' := fst (genrand_uint32 rec (after_draws rec h (init_gen_rand x)))) in *.
  assert (B : 0 <= x' < 2 ^ 64).
  { pose proof (any_uint32 rec (after_draws rec h (init_gen_rand x))) as B. fold x' in B. assert (2 ^ 32 < 2 ^ 64) by reflexivity. lia. }
  destruct (IH d' _ x' T (read_back x' B)) as [d'' R']. rewrite R'. exists d''. rewrite S. reflexivity.
Qed.

(** ** crashes *)
Lemma c70_crash rec d st d' : killed_in_write rec d st d' ->
  (forall f, f <> seed_file st -> d' f = d f) /\
  (d' (seed_file st) = d (seed_file st) \/
   exists t k, d' (seed_file st) = Some t /\
     let x := next_seed rec st in
     (k = 0%nat /\ t = ""%string /\ (forall st2, fst (InitializeFile d' (seed_file st) st2) = ReadError) \/
      (0 < k)%nat /\ (k <= String.length (print x))%nat /\
      forall st2, exists st3, InitializeFile d' (seed_file st) st2 = (Returns, st3) /\
        start_seed (rnd st3) = x / 10 ^ (Z.of_nat (String.length (print x)) - Z.of_nat k))).
Proof.
  intros H. destruct H as [|k U]; [auto|]. split; [intros; apply put_other; assumption|]. right.
  pose proof (read_prefix (next_seed rec st) k (next_seed_range rec st)) as P. cbv zeta in P.
  fold newline in P. unfold text_of. fold newline.
  destruct k as [|k].
  - exists ""%string, 0%nat. split; [rewrite put_same; f_equal; destruct (print (next_seed rec st)); reflexivity|]. left.
    split; [reflexivity|]. split; [reflexivity|]. intros st2. unfold InitializeFile. rewrite put_same, P. reflexivity.
  - set (n := String.length (print (next_seed rec st))) in *.
    assert (N : (0 < n)%nat).
    { destruct (print_decimal (next_seed rec st) (next_seed_range rec st)) as (ds & E & _ & Nn & _).
      unfold n. rewrite E, numeral_length. destruct ds; [congruence|cbn; lia]. }
    eexists _, (Nat.min (S k) n). split; [apply put_same|]. right. split; [lia|]. split; [lia|].
    intros st2. eexists. split; [exact (init_text _ _ st2 _ _ (put_same _ _ _) P)|]. reflexivity.
Qed.

(** files that are refused *)
Lemma c68_large d name st ds rest : digits ds -> no_digit rest -> 2 ^ 64 <= of_digits ds -> d name = Some (numeral ds ++ rest)%string ->
  fst (InitializeFile d name st) = ReadError.
Proof. intros D R B E. unfold InitializeFile. rewrite E, extract_large by assumption. reflexivity. Qed.
Lemma c68_other d name st c s : d name = Some (String c s) -> is_space c = false -> c <> "-"%char -> c <> "+"%char -> digit_of c = None ->
  fst (InitializeFile d name st) = ReadError.
Proof.
  intros E P M Q D. unfold InitializeFile. rewrite E. unfold extract. cbn [skip_space]. rewrite P. cbn [skip_space].
  destruct (Ascii.eqb_spec c "-"); [contradiction|]. destruct (Ascii.eqb_spec c "+"); [contradiction|]. cbn [read_digits]. rewrite D. reflexivity.
Qed.
Lemma c68_empty d name st : d name = Some ""%string -> fst (InitializeFile d name st) = ReadError.
Proof. intros E. unfold InitializeFile. rewrite E. reflexivity. Qed.
