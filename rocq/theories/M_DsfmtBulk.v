(** Model of the functions of dSFMT that fill a whole array: src/nrlib/random/dSFMT.cpp:66-302, 456-514, and of the two single
    draws of dSFMT.h that M_Random.v does not need. *)
From Coq Require Import ZArith List Bool.
From Flocq Require Import IEEE754.BinarySingleNaN.
From Flocq Require IEEE754.Binary IEEE754.Bits.
From Verif Require Import Base Arith M_Dsfmt.
Import ListNotations.
Open Scope nat_scope.

(** dSFMT.h:277-287, dsfmt_genrand_close1_open2: the double with the bits of the next word *)
Definition genrand_close1_open2 {A : Arith} (rec : recursion) (d : dsfmt) : num A * dsfmt :=
  let '(w, d) := next_word rec d in (ofbits A w, d).
(** dSFMT.h:341-343, dsfmt_genrand_open_close: 2.0 - genrand_close1_open2 *)
Definition genrand_open_close {A : Arith} (rec : recursion) (d : dsfmt) : num A * dsfmt :=
  let '(w, d) := next_word rec d in ((lit A 2 0 - ofbits A w)%num, d).

Section Fill.
Variable rec : recursion.
(** what is done to the 128-bit words before they are handed out, lane by lane *)
Variable conv : w128 -> w128.

(** do_recursion(&array[i], a, b, &lung) *)
Definition put (s : list w128 * w128) (i : nat) (a b : w128) : list w128 * w128 :=
  let '(arr, lung) := s in
  let '(r, lung') := rec a b lung in
  (upd arr i r, lung').

(** dSFMT.cpp:156-164: for i < N - POS1, from the status only *)
Definition fill1 (st : list w128) (s : list w128 * w128) (i : nat) : list w128 * w128 :=
  put s i (nth i st w128_0) (nth (i + DSFMT_POS1) st w128_0).
(** dSFMT.cpp:165-168: for i < N, from the status and the array *)
Definition fill2 (st : list w128) (s : list w128 * w128) (i : nat) : list w128 * w128 :=
  put s i (nth i st w128_0) (nth (i + DSFMT_POS1 - DSFMT_N) (fst s) w128_0).
(** dSFMT.cpp:208-212: from the array only; the word that is no longer needed is converted *)
Definition fill3 (s : list w128 * w128) (i : nat) : list w128 * w128 :=
  let '(arr, lung) := put s i (nth (i - DSFMT_N) (fst s) w128_0)
                              (nth (i + DSFMT_POS1 - DSFMT_N) (fst s) w128_0) in
  (upd arr (i - DSFMT_N) (conv (nth (i - DSFMT_N) arr w128_0)), lung).
(** dSFMT.cpp:216-221: the same, and the word goes into the status before the conversion. [j] is the second loop counter. *)
Definition fill4 (s : list w128 * w128 * list w128 * nat) (i : nat) : list w128 * w128 * list w128 * nat :=
  let '(p, st, j) := s in
  let '(arr, lung) := put p i (nth (i - DSFMT_N) (fst p) w128_0)
                              (nth (i + DSFMT_POS1 - DSFMT_N) (fst p) w128_0) in
  (upd arr (i - DSFMT_N) (conv (nth (i - DSFMT_N) arr w128_0)), lung, upd st j (nth i arr w128_0), S j).

(** dSFMT.cpp:144-302, gen_rand_array_c1o2, _c0o1, _o0o1, _o0c1: the same loops with another conversion (c1o2 has no conversion,
    modelled by the identity). [array] is the caller's memory as 128-bit words, [size] their number. Asserts are off; with
    fewer than N words the second loop writes outside the array. *)
Definition gen_rand_array (g : dsfmt) (array : list w128) : outcome (list w128 * dsfmt) :=
  let size := length array in
  if size <? DSFMT_N then UB OutOfBounds else
  let st := status g in
  let s := (array, nth DSFMT_N st w128_0) in
  let s := fill1 st s 0 in
  let s := fold_left (fill1 st) (range 1 (DSFMT_N - DSFMT_POS1)) s in
  let s := fold_left (fill2 st) (range (DSFMT_N - DSFMT_POS1) DSFMT_N) s in
  let s := fold_left fill3 (range DSFMT_N (size - DSFMT_N)) s in
  let i := Nat.max DSFMT_N (size - DSFMT_N) in
  let j := 2 * DSFMT_N - size in
  let st := fold_left (fun st j => upd st j (nth (j + size - DSFMT_N) (fst s) w128_0)) (range 0 j) st in
  let '(arr, lung, st, _) := fold_left fill4 (range i size) (s, st, j) in
  let arr := fold_left (fun arr i => upd arr i (conv (nth i arr w128_0))) (range (size - DSFMT_N) size) arr in
  Ok (arr, {| status := upd st DSFMT_N lung; idx := idx g |}).
End Fill.

(** ** The conversions, on the bits of a double *)
Definition b64_1 : Bits.binary64 := Bits.b64_of_bits 0x3ff0000000000000.
Definition b64_m1 : Bits.binary64 := Bits.b64_of_bits 0xbff0000000000000.
Definition b64_2 : Bits.binary64 := Bits.b64_of_bits 0x4000000000000000.

Inductive range_kind : Set := Close1Open2 | CloseOpen | OpenClose | OpenOpen.

(** dSFMT.cpp:103-134, convert_c0o1, convert_o0c1, convert_o0o1, standard C versions, one lane *)
Definition conv64 (k : range_kind) (w : Z) : Z :=
  match k with
  | Close1Open2 => w
  | CloseOpen => Bits.bits_of_b64 (Bits.b64_minus mode_NE (Bits.b64_of_bits w) b64_1)
  | OpenClose => Bits.bits_of_b64 (Bits.b64_minus mode_NE b64_2 (Bits.b64_of_bits w))
  | OpenOpen => Bits.bits_of_b64 (Bits.b64_minus mode_NE (Bits.b64_of_bits (Z.lor w 1)) b64_1)
  end.
(** dSFMT.cpp:76-99, SSE2 versions: -1.0 is added instead *)
Definition conv64_sse2 (k : range_kind) (w : Z) : Z :=
  match k with
  | Close1Open2 => w
  | CloseOpen => Bits.bits_of_b64 (Bits.b64_plus mode_NE (Bits.b64_of_bits w) b64_m1)
  | OpenClose => Bits.bits_of_b64 (Bits.b64_minus mode_NE b64_2 (Bits.b64_of_bits w))
  | OpenOpen => Bits.bits_of_b64 (Bits.b64_plus mode_NE (Bits.b64_of_bits (Z.lor w 1)) b64_m1)
  end.
Definition lanes (f : Z -> Z) (w : w128) : w128 := (f (fst w), f (snd w)).

(** A double array of even length seen as 128-bit words, and back *)
Fixpoint as128 (l : list Z) : list w128 :=
  match l with a :: b :: l => (a, b) :: as128 l | _ => [] end.
Fixpoint as64 (l : list w128) : list Z :=
  match l with (a, b) :: l => a :: b :: as64 l | [] => [] end.

(** dSFMT.cpp:456-514, dsfmt_fill_array_close1_open2, _open_close, _close_open, _open_open. The array is given and returned by the
    bits of its doubles. The asserts "size is even", "size >= N64" are off; a last odd element is left alone. *)
Definition fill_array (rec : recursion) (convert : range_kind -> Z -> Z) (k : range_kind) (g : dsfmt) (array : list Z)
  : outcome (list Z * dsfmt) :=
  let* (arr, g) := gen_rand_array rec (lanes (convert k)) g (as128 array) in
  Ok (as64 arr ++ skipn (2 * (length array / 2)) array, g).
