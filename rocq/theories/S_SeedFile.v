(** Runs of programs that use a seed file. *)
From Coq Require Import ZArith List Bool String Ascii.
From Verif Require Import Base M_Dsfmt M_Random S_Random M_SeedFile.
Import ListNotations.
Open Scope Z_scope.

(** the value of a string of decimal digits, most significant first *)
Definition of_digits (ds : list Z) : Z := fold_left (fun a d => 10 * a + d) ds 0.
Definition digit_char (d : Z) : ascii := nth (Z.to_nat d) (list_ascii_of_string "0123456789") "?"%char.
Definition numeral (ds : list Z) : string := string_of_list_ascii (map digit_char ds).
(** [s] is the decimal numeral of [x], without superfluous zeros *)
Definition decimal (x : Z) (s : string) : Prop :=
  exists ds, s = numeral ds /\ of_digits ds = x /\ ds <> [] /\ Forall (fun d => 0 <= d < 10) ds /\ (hd 0 ds = 0 -> ds = [0]).

(** the program draws from the shared generator, in any way *)
Definition use (rec : recursion) (h : list draw) (st : fstate) : fstate :=
  let r := rnd st in mkFstate (mkRstate (is_init r) (start_seed r) (after_draws rec h (gen r)) (leaked r)) (use_seed_file st) (seed_file st).

(** One run of a program: it starts from the seed file, draws, and writes the seed file. *)
Definition run (rec : recursion) (name : string) (h : list draw) (d : disk) : option (fstate * disk) :=
  match InitializeFile d name fstate0 with
  | (Returns, st) =>
      let st := use rec h st in
      match WriteSeedToFile rec true (String.length (text_of rec st)) d st with (Returns, d', st') => Some (st', d') | _ => None end
  | _ => None
  end.
(** Several runs after each other, and the start seed of each of them. *)
Fixpoint runs (rec : recursion) (name : string) (hs : list (list draw)) (d : disk) : option (list Z * disk) :=
  match hs with
  | [] => Some ([], d)
  | h :: hs =>
      match run rec name h d with
      | Some (st, d') => match runs rec name hs d' with Some (seeds, d'') => Some (start_seed (rnd st) :: seeds, d'') | None => None end
      | None => None
      end
  end.
(** the seeds meant: each is the 32-bit number that the run before would have drawn next *)
Fixpoint seeds_from (rec : recursion) (seed : Z) (hs : list (list draw)) : list Z :=
  match hs with
  | [] => []
  | h :: hs => seed :: seeds_from rec (fst (genrand_uint32 rec (after_draws rec h (init_gen_rand seed)))) hs
  end.
