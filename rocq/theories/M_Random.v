(** Model of src/nrlib/random/random.{hpp,cpp} and randomgenerator.{hpp,cpp}. The bodies of Norm01 and g are the same
    text in both classes; they are modelled once, over a source of uniform numbers. *)
From Coq Require Import ZArith List Bool.
From Verif Require Import Base Arith M_Dsfmt.
Import ListNotations.
Open Scope num_scope.

Section Norm01.
Context {A : Arith}.
Notation num := (num A).
Notation lit := (lit A).

(** random.cpp:145-159, randomgenerator.cpp:140-155 *)
Definition g (x : num) : num :=
  let a := lit 1749731196 8 in
  let b := lit 236785163 8 in
  let c := lit 215787544 8 in
  let absx := fabs A x in
  let result := a * fexp A (- x * x / lit 2 0) in
  if absx <? lit 1 0 then
    result - (lit 2 0 * b * (lit 3 0 - x * x) + c * (lit 15 1 - absx))
  else if absx <? lit 15 1 then
    result - (b * (lit 3 0 - absx) * (lit 3 0 - absx) + c * (lit 15 1 - absx))
  else
    result - b * (lit 3 0 - absx) * (lit 3 0 - absx).

(** The uniform source: its state and one draw. *)
Context {S : Type}.
Variable unif : S -> num * S.

(** random.cpp:86-92: do {...} while (0.358*u2 > g(x)) *)
Fixpoint wedge (fuel : nat) (s : S) : outcome (num * S) :=
  match fuel with
  | O => NoFuel
  | Datatypes.S fuel =>
      let '(u1, s) := unif s in
      let '(u2, s) := unif s in
      let x := lit 6 0 * u1 - lit 3 0 in
      if fgt (lit 358 3 * u2) (g x) then wedge fuel s else Ok (x, s)
  end.

(** random.cpp:98-106: do {...} while (w >= 1.0) *)
Fixpoint disc (fuel : nat) (s : S) : outcome (num * num * num * S) :=
  match fuel with
  | O => NoFuel
  | Datatypes.S fuel =>
      let '(u1, s) := unif s in
      let '(u2, s) := unif s in
      let v1 := lit 2 0 * u1 - lit 1 0 in
      let v2 := lit 2 0 * u2 - lit 1 0 in
      let w := v1 * v1 + v2 * v2 in
      if fge w (lit 1 0) then disc fuel s else Ok (v1, v2, w, s)
  end.

(** random.cpp:96-115 *)
Fixpoint tail (fuel : nat) (s : S) : outcome (num * S) :=
  match fuel with
  | O => NoFuel
  | Datatypes.S fuel' =>
      let* (v1, v2, w, s1) := disc fuel s in
      let c := fsqrt A ((lit 9 0 - lit 2 0 * flog A w) / w) in
      let s' := c * v1 in
      let t := c * v2 in
      if (fabs A s' <=? lit 3 0) && (fabs A t <=? lit 3 0) then tail fuel' s1
      else Ok (if fgt (fabs A s') (lit 3 0) then s' else t, s1)
  end.

(** random.cpp:64-118, randomgenerator.cpp:71-126. [fuel] bounds the number of iterations of each rejection loop. *)
Definition Norm01 (fuel : nat) (s : S) : outcome (num * S) :=
  let '(u, s) := unif s in
  if u <? lit 8638 4 then
    let '(u1, s) := unif s in
    let '(u2, s) := unif s in
    let '(u3, s) := unif s in
    Ok (lit 2 0 * (u1 + u2 + u3) - lit 3 0, s)
  else if u <? lit 9745 4 then
    let '(u1, s) := unif s in
    let '(u2, s) := unif s in
    Ok (lit 15 1 * (u1 + u2 - lit 1 0), s)
  else if u <? lit 9973002039 10 then wedge fuel s
  else tail fuel s.

(** the loops "for ... noise[...] = Norm01()": n draws in program order *)
Fixpoint draws (fuel n : nat) (s : S) : outcome (list num * S) :=
  match n with
  | O => Ok ([], s)
  | Datatypes.S n =>
      let* (x, s) := Norm01 fuel s in
      let* (xs, s) := draws fuel n s in
      Ok (x :: xs, s)
  end.

End Norm01.

(** random.hpp:45 Unif01 = dsfmt_gv_genrand_close_open; dSFMT.h:319-321: genrand_close1_open2 - 1.0, the double with the bits
    of the next word. *)
Definition Unif01 {A : Arith} (rec : recursion) (d : dsfmt) : num A * dsfmt :=
  let '(w, d) := next_word rec d in (ofbits A w - lit A 1 0, d).

(** random.hpp:48 Unif01Open; dSFMT.h:365-379: |= 1 on the bits, then - 1.0 *)
Definition Unif01Open {A : Arith} (rec : recursion) (d : dsfmt) : num A * dsfmt :=
  let '(w, d) := next_word rec d in (ofbits A (Z.lor w 1) - lit A 1 0, d).

(** ** Random's static state, random.cpp:31-34. The seed file (use_seed_file_, seed_file_) is not modelled: the Python
    module has no access to it. [leaked] is a ghost counter of RandomGenerator objects allocated by "new" and never deleted. *)
Record rstate := mkRstate { is_init : bool; start_seed : Z; gen : dsfmt; leaked : nat }.
Definition rstate0 : rstate := mkRstate false 0 dsfmt_zero 0.

Section Random.
Variable rec : recursion.

(** random.cpp:44-48, Initialize(unsigned long) *)
Definition InitializeSeed (seed : Z) (st : rstate) : rstate :=
  mkRstate true seed (init_gen_rand seed) (leaked st).

(** random.cpp:36-42, Initialize(); [now] is time(0) converted to unsigned long *)
Definition InitializeTime (now : Z) (st : rstate) : rstate :=
  let '(s, _) := genrand_uint32 rec (init_gen_rand (u64 now)) in
  mkRstate true s (init_gen_rand s) (leaked st).

(** random.cpp:121-127 *)
Definition GetStartSeed (st : rstate) : outcome Z :=
  if is_init st then Ok (start_seed st) else Throw NotInitialized.

(** random.hpp:51 DrawUint32 *)
Definition DrawUint32 (st : rstate) : Z * rstate :=
  let '(w, d) := genrand_uint32 rec (gen st) in
  (w, mkRstate (is_init st) (start_seed st) d (leaked st)).

(** "rg = new RandomGenerator(); rg->Initialize(Random::DrawUint32());" gaussianfield.cpp:278-281, 322-325;
    randomgenerator.cpp:63-68. The object is never deleted. *)
Definition new_generator (st : rstate) : dsfmt * rstate :=
  let '(seed, st) := DrawUint32 st in
  (init_gen_rand seed, mkRstate (is_init st) (start_seed st) (gen st) (Datatypes.S (leaked st))).

End Random.
