(** Vocabulary for statements about the random generator. *)
From Coq Require Import ZArith List Bool Reals.
From Flocq Require Import IEEE754.BinarySingleNaN.
From Verif Require Import Base Arith FloatArith M_Dsfmt M_DsfmtBulk M_Random.
Import ListNotations.

(** The two builds of the generator: portable C and SSE2. *)
Definition is_build (rec : recursion) : Prop := rec = do_recursion \/ rec = do_recursion_sse2.

(** The five ways to ask the generator for one number. *)
Inductive draw : Set := D01 | D01Open | D01OpenClose | D12 | D32.

(** The state after a draw does not depend on the arithmetic, so any will do. *)
Definition no_libm : libm :=
  mkLibm (fun x => x) (fun x => x) (fun x => x) (fun x => x) (fun x _ => x).
Definition after_draw (rec : recursion) (k : draw) (g : dsfmt) : dsfmt :=
  match k with
  | D01 => snd (Unif01 (A := Farith no_libm) rec g)
  | D01Open => snd (Unif01Open (A := Farith no_libm) rec g)
  | D01OpenClose => snd (genrand_open_close (A := Farith no_libm) rec g)
  | D12 => snd (genrand_close1_open2 (A := Farith no_libm) rec g)
  | D32 => snd (genrand_uint32 rec g)
  end.
(** A history of draws, oldest first. *)
Definition after_draws (rec : recursion) (h : list draw) (g : dsfmt) : dsfmt :=
  fold_left (fun g k => after_draw rec k g) h g.

(** A generator that has been seeded and used for some draws. *)
Definition reachable (rec : recursion) (g : dsfmt) : Prop :=
  exists seed h, g = after_draws rec h (init_gen_rand seed).

(** [n] uniform numbers in [0,1) drawn one after the other. *)
Section List.
Context {A : Arith}.
Variable rec : recursion.
Definition single (k : range_kind) : dsfmt -> num A * dsfmt :=
  match k with
  | Close1Open2 => genrand_close1_open2 rec
  | CloseOpen => Unif01 rec
  | OpenClose => genrand_open_close rec
  | OpenOpen => Unif01Open rec
  end.
Fixpoint singles (k : range_kind) (n : nat) (g : dsfmt) : list (num A) * dsfmt :=
  match n with
  | O => ([], g)
  | S n => let '(x, g) := single k g in let '(xs, g) := singles k n g in (x :: xs, g)
  end.
(** the [n]-th uniform number (counting from 0) after seeding *)
Definition nth_unif (seed : Z) (n : nat) : num A :=
  fst (Unif01 rec (after_draws rec (repeat D01 n) (init_gen_rand seed))).
End List.

(** Several arrays filled one after the other. *)
Fixpoint fills (rec : recursion) (convert : range_kind -> Z -> Z) (fs : list (range_kind * list Z)) (g : dsfmt)
  : outcome (list (list Z) * dsfmt) :=
  match fs with
  | [] => Ok ([], g)
  | (k, a) :: fs =>
      let* (out, g) := fill_array rec convert k g a in
      let* (outs, g) := fills rec convert fs g in
      Ok (out :: outs, g)
  end.

(** The double is finite and has exactly this value. *)
Definition exactly (x : b64) (r : R) : Prop := is_finite x = true /\ B2R x = r.

(** Number of one bits of a 64-bit word. *)
Definition ones (x : Z) : nat := length (filter (Z.testbit x) (map Z.of_nat (seq 0 64))).

(** The same numbers drawn one by one. *)
Fixpoint single_runs {A : Arith} (rec : recursion) (fs : list (range_kind * list Z)) (g : dsfmt) : list (list (num A)) * dsfmt :=
  match fs with
  | [] => ([], g)
  | (k, a) :: fs =>
      let '(xs, g) := singles rec k (length a) g in
      let '(xss, g) := single_runs rec fs g in
      (xs :: xss, g)
  end.
(** Array sizes the bulk functions accept: even and at least 382 (dSFMT.cpp:454-456). *)
Definition admissible (fs : list (range_kind * list Z)) : Prop :=
  Forall (fun f => Nat.Even (length (snd f)) /\ 382 <= length (snd f)) fs.

(** The two builds with their conversions of whole arrays. *)
Definition is_bulk_build (rec : recursion) (convert : range_kind -> Z -> Z) : Prop :=
  (rec = do_recursion /\ convert = conv64) \/ (rec = do_recursion_sse2 /\ convert = conv64_sse2).
