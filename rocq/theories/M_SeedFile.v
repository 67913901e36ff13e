(** Model of the seed file of src/nrlib/random/random.cpp: Random::Initialize(filename) and Random::WriteSeedToFile(). *)
From Coq Require Import ZArith List Bool String Ascii.
From Verif Require Import Base M_Dsfmt M_Random.
Import ListNotations.
Open Scope Z_scope.

(** ** reading and writing an unsigned long with the streams of the C++ library (C locale, base 10) *)

(** isspace: tab, line feed, vertical tab, form feed, carriage return, space *)
Definition is_space (c : ascii) : bool := let n := nat_of_ascii c in ((9 <=? n) && (n <=? 13) || (n =? 32))%nat.
Definition digit_of (c : ascii) : option Z :=
  let n := nat_of_ascii c in if ((48 <=? n) && (n <=? 57))%nat then Some (Z.of_nat n - 48) else None.
Fixpoint skip_space (s : string) : string :=
  match s with String c s' => if is_space c then skip_space s' else s | EmptyString => s end.
(** the digits at the start of [s]: their value, after [acc], and their number *)
Fixpoint read_digits (acc : Z) (n : nat) (s : string) : Z * nat :=
  match s with
  | String c s' => match digit_of c with Some d => read_digits (10 * acc + d) (S n) s' | None => (acc, n) end
  | EmptyString => (acc, n)
  end.
(** "file >> start_seed_", std::num_get for unsigned long: spaces, an optional sign, digits. No digit: the variable becomes 0 and
    the stream fails. More than 2^64-1: it becomes 2^64-1 and the stream fails. A minus sign negates modulo 2^64. What follows
    the digits is not read. The library stops multiplying after an overflow; the exact value used here exceeds the limit then. *)
Definition extract (s : string) : Z * bool :=
  let s := skip_space s in
  let '(neg, s) := match s with
                   | String c s' => if Ascii.eqb c "-" then (true, s') else if Ascii.eqb c "+" then (false, s') else (false, s)
                   | EmptyString => (false, s)
                   end in
  let '(x, n) := read_digits 0 0 s in
  match n with
  | O => (0, false)
  | S _ => if 2 ^ 64 <=? x then (2 ^ 64 - 1, false) else (if neg then u64 (- x) else x, true)
  end.

(** "file << n": decimal digits without leading zeros; 20 digits are enough for an unsigned long *)
Definition digit (d : Z) : ascii := ascii_of_nat (Z.to_nat d + 48).
Fixpoint print_digits (fuel : nat) (n : Z) (acc : string) : string :=
  match fuel with
  | O => acc
  | S fuel => let acc := String (digit (n mod 10)) acc in if n <? 10 then acc else print_digits fuel (n / 10) acc
  end.
Definition print (n : Z) : string := print_digits 20 n "".

(** ** the class *)

(** random.cpp:31-34: the static members, with those of the seed file *)
Record fstate := mkFstate { rnd : rstate; use_seed_file : bool; seed_file : string }.
Definition fstate0 : fstate := mkFstate rstate0 false "".
(** the texts of the files that can be opened for reading *)
Definition disk := string -> option string.
Definition put (d : disk) (name : string) (text : string) : disk := fun f => if String.eqb f name then Some text else d f.

(** what a call ends with: a return, or the exception of one of the four throw statements *)
Inductive ending : Set := Returns | OpenError | ReadError | WriteError.

(** random.cpp:50-62, Initialize(filename). "file >> start_seed_" assigns the member also when it fails. *)
Definition InitializeFile (d : disk) (name : string) (st : fstate) : ending * fstate :=
  match d name with
  | None => (OpenError, st)
  | Some text =>
      let '(x, ok) := extract text in
      if ok then (Returns, mkFstate (mkRstate true x (init_gen_rand x) (leaked (rnd st))) true name)
      else (ReadError, mkFstate (mkRstate (is_init (rnd st)) x (gen (rnd st)) (leaked (rnd st))) (use_seed_file st) (seed_file st))
  end.

Section Write.
Variable rec : recursion.
(** random.cpp:130-142, WriteSeedToFile(). Opening the file empties it; "file << ..." puts the text in the buffer of the stream,
    so the test after it succeeds; the text goes to the disk when the stream object dies, after the last throw statement.
    [opens]: the file can be opened for writing. [written]: how many characters of the text the disk takes (all of them, unless the
    disk is full or the machine stops). *)
Definition next_seed (st : fstate) : Z := fst (DrawUint32 rec (rnd st)).
Definition text_of (st : fstate) : string := print (next_seed st) ++ String (ascii_of_nat 10) "".
Definition WriteSeedToFile (opens : bool) (written : nat) (d : disk) (st : fstate) : ending * disk * fstate :=
  if use_seed_file st then
    if opens then
      (Returns, put d (seed_file st) (substring 0 written (text_of st)),
       mkFstate (snd (DrawUint32 rec (rnd st))) (use_seed_file st) (seed_file st))
    else (OpenError, d, st)
  else (Returns, d, st).

(** What a process that is killed inside WriteSeedToFile() can leave on the disk: nothing done yet; or the file opened (and so
    emptied) and some characters written. *)
Inductive killed_in_write (d : disk) (st : fstate) : disk -> Prop :=
| before_open : killed_in_write d st d
| after_open : forall k, use_seed_file st = true -> killed_in_write d st (put d (seed_file st) (substring 0 k (text_of st))).
End Write.
