(** C68-C70: the seed file of the C++ library. *)
From Coq Require Import ZArith Bool String Ascii Lia List.
From Verif Require Import Base M_Dsfmt M_Random S_Random M_SeedFile S_SeedFile P_SeedFile.
Import ListNotations.
Open Scope Z_scope.

(** ** C68: a failed start from a file *)
(** It leaves the generator, whether it counts as initialised, and the file to be written as they were. A file that cannot be
    opened leaves everything as it was. Missing from the full claim: the seed reported; see the refutation. *)
Theorem C68_failed_read_partial : forall d name st e st', InitializeFile d name st = (e, st') -> e <> Returns ->
  gen (rnd st') = gen (rnd st) /\ is_init (rnd st') = is_init (rnd st) /\ use_seed_file st' = use_seed_file st /\
  seed_file st' = seed_file st /\
  (e = OpenError /\ d name = None /\ st' = st \/
   e = ReadError /\ exists t, d name = Some t /\ snd (extract t) = false /\ start_seed (rnd st') = fst (extract t)).
Proof. exact c68_fail. Qed.
Print Assumptions C68_failed_read_partial.
(** the seed reported after a failed read is 0 or 2^64-1 *)
Theorem C68_what_is_reported : forall t, snd (extract t) = false -> fst (extract t) = 0 \/ fst (extract t) = 2 ^ 64 - 1.
Proof. exact extract_fail. Qed.
Print Assumptions C68_what_is_reported.
(** Which files are refused: a number of at least 2^64, a text that begins with something other than a space, a sign or a digit, an
    empty file. (A number below 2^64 is accepted: C69_read.) *)
Theorem C68_refused : forall d name st,
  (forall ds rest, Forall (fun k => 0 <= k < 10) ds -> no_digit rest -> 2 ^ 64 <= of_digits ds -> d name = Some (numeral ds ++ rest)%string ->
   fst (InitializeFile d name st) = ReadError) /\
  (forall c s, d name = Some (String c s) -> is_space c = false -> c <> "-"%char -> c <> "+"%char -> digit_of c = None -> fst (InitializeFile d name st) = ReadError) /\
  (d name = Some ""%string -> fst (InitializeFile d name st) = ReadError).
Proof.
  exact (fun d name st => conj (fun ds rest => c68_large d name st ds rest) (conj (fun c s => c68_other d name st c s) (c68_empty d name st))).
Qed.
Print Assumptions C68_refused.
(** Seed 7 is set; a start from a file holding "abc" fails; the seed reported is now 0, but the numbers are those of seed 7. *)
Theorem C68_reported_seed_refuted : exists d name st st', rnd st = InitializeSeed 7 rstate0 /\
  InitializeFile d name st = (ReadError, st') /\ GetStartSeed (rnd st) = Ok 7 /\ GetStartSeed (rnd st') = Ok 0 /\
  gen (rnd st') = init_gen_rand 7.
Proof.
  exists (fun _ => Some "abc"%string), "seed"%string, (mkFstate (InitializeSeed 7 rstate0) false ""). eexists.
  split; [reflexivity|]. split; [unfold InitializeFile; change (extract "abc") with (0, false); reflexivity|]. repeat split.
Qed.
Print Assumptions C68_reported_seed_refuted.

(** ** C69: the seed file hands the stream from run to run *)
(** what is written is the decimal numeral of the next 32-bit number of the generator, and reading a numeral gives its value *)
Theorem C69_text : forall rec st, exists s, decimal (fst (genrand_uint32 rec (gen (rnd st)))) s /\
  text_of rec st = (s ++ String (ascii_of_nat 10) "")%string.
Proof.
  intros rec st. exists (print (next_seed rec st)). split; [|reflexivity]. rewrite <- next_seed_eq. exact (print_decimal _ (next_seed_range rec st)).
Qed.
Print Assumptions C69_text.
Theorem C69_read : forall x s rest, decimal x s -> x < 2 ^ 64 -> no_digit rest -> extract (s ++ rest) = (x, true).
Proof. intros x s rest (ds & -> & <- & N & D & _) B R. exact (extract_numeral ds rest D N R B). Qed.
Print Assumptions C69_read.
(** After a write that ends well, any process that starts from the file (whatever it did before) reports the number that the writer
    drew last, and has the stream of that seed. *)
Theorem C69_handover : forall rec d st st' k d1 d2 st2,
  use_seed_file st = true -> (String.length (text_of rec st) <= k)%nat ->
  WriteSeedToFile rec true k d st = (Returns, d1, st') -> (forall f, d2 f = d1 f) ->
  exists st3, InitializeFile d2 (seed_file st) st2 = (Returns, st3) /\
    start_seed (rnd st3) = fst (genrand_uint32 rec (gen (rnd st))) /\ is_init (rnd st3) = true /\
    gen (rnd st3) = init_gen_rand (fst (genrand_uint32 rec (gen (rnd st)))).
Proof. exact c69_handover. Qed.
Print Assumptions C69_handover.
(** Any number of runs after each other, each drawing as it likes: all start, and their seeds are determined by the first text. *)
Theorem C69_chain : forall rec name hs d t x, d name = Some t -> extract t = (x, true) ->
  exists d', runs rec name hs d = Some (seeds_from rec x hs, d').
Proof. exact c69_chain. Qed.
Print Assumptions C69_chain.
Example C69_examples : extract (" 123" ++ String (ascii_of_nat 10) "rest") = (123, true) /\ extract "-1" = (2 ^ 64 - 1, true) /\
  decimal 4294967295 (print 4294967295) /\ print 4294967295 = "4294967295"%string.
Proof. split; [reflexivity|]. split; [reflexivity|]. split; [apply print_decimal; split; [discriminate|reflexivity]|reflexivity]. Qed.

(** ** C70: a crash while the seed file is written *)
(** Other files keep their text. The seed file has its old text, or it is empty and the next run cannot start, or it holds the first
    k digits of the new seed and the next run starts from the number they form. Missing from the full claim: that the next run always
    starts from the old or the new seed; see the refutations. *)
Theorem C70_crash_partial : forall rec d st d', killed_in_write rec d st d' ->
  (forall f, f <> seed_file st -> d' f = d f) /\
  (d' (seed_file st) = d (seed_file st) \/
   exists t k, d' (seed_file st) = Some t /\
     let x := next_seed rec st in
     (k = 0%nat /\ t = ""%string /\ (forall st2, fst (InitializeFile d' (seed_file st) st2) = ReadError) \/
      (0 < k)%nat /\ (k <= String.length (print x))%nat /\
      forall st2, exists st3, InitializeFile d' (seed_file st) st2 = (Returns, st3) /\
        start_seed (rnd st3) = x / 10 ^ (Z.of_nat (String.length (print x)) - Z.of_nat k))).
Proof. exact c70_crash. Qed.
Print Assumptions C70_crash_partial.
(** every write can leave a file from which no run can start ... *)
Theorem C70_crash_refuted : forall rec d st, use_seed_file st = true ->
  exists d', killed_in_write rec d st d' /\ forall st2, fst (InitializeFile d' (seed_file st) st2) = ReadError.
Proof.
  intros rec d st U. exists (put d (seed_file st) (substring 0 0 (text_of rec st))). split; [apply after_open; exact U|].
  intros st2. unfold InitializeFile. rewrite put_same. destruct (text_of rec st); reflexivity.
Qed.
Print Assumptions C70_crash_refuted.
(** ... and so can one that returns normally, on a full disk: the text is written after the last test for errors *)
Theorem C70_full_disk_refuted : forall rec d st, use_seed_file st = true ->
  exists d' st', WriteSeedToFile rec true 0 d st = (Returns, d', st') /\ forall st2, fst (InitializeFile d' (seed_file st) st2) = ReadError.
Proof.
  intros rec d st U. unfold WriteSeedToFile. rewrite U. eexists _, _. split; [reflexivity|].
  intros st2. unfold InitializeFile. rewrite put_same. destruct (text_of rec st); reflexivity.
Qed.
Print Assumptions C70_full_disk_refuted.
Example C70_example : exists st, InitializeFile (fun _ => Some "5"%string) "seed" fstate0 = (Returns, st) /\ use_seed_file st = true.
Proof. eexists. split; reflexivity. Qed.
