(** Model of the dSFMT generator, src/nrlib/random/dSFMT.{h,cpp}, dSFMT-common.h, dSFMT-params19937.h.
    64-bit words are [Z] in [0,2^64); a w128_t is the pair (u[0], u[1]). *)
From Coq Require Import ZArith List Bool.
From Verif Require Import Base.
Import ListNotations.
Open Scope Z_scope.

(** dSFMT.h:72 DSFMT_N = (19937-128)/104 + 1; dSFMT.h:78 DSFMT_N64; dSFMT-params19937.h *)
Definition DSFMT_N : nat := 191.
Definition DSFMT_N64 : nat := 382.
Definition DSFMT_POS1 : nat := 117.
Definition DSFMT_SL1 : Z := 19.
Definition DSFMT_SR : Z := 12.
Definition DSFMT_MSK1 : Z := 0x000ffafffffffb3f.
Definition DSFMT_MSK2 : Z := 0x000ffdfffc90fffd.
Definition DSFMT_FIX1 : Z := 0x90014964b32f4329.
Definition DSFMT_FIX2 : Z := 0x3b8d12ac548a7c7a.
Definition DSFMT_PCV1 : Z := 0x3d84e1ac0dc82880.
Definition DSFMT_PCV2 : Z := 0x0000000000000001.
(** dSFMT-params.h:33-34 *)
Definition DSFMT_LOW_MASK : Z := 0x000FFFFFFFFFFFFF.
Definition DSFMT_HIGH_CONST : Z := 0x3FF0000000000000.

Definition w128 : Type := (Z * Z)%type.
Definition w128_0 : w128 := (0, 0).

(** uint64_t shifts *)
Definition shl64 (x k : Z) : Z := u64 (Z.shiftl x k).
Definition shr64 (x k : Z) : Z := Z.shiftr x k.

(** dSFMT-common.h:101-113, do_recursion, standard C version: (r, lung) from a, b, lung. *)
Definition do_recursion (a b lung : w128) : w128 * w128 :=
  let t0 := fst a in
  let t1 := snd a in
  let L0 := fst lung in
  let L1 := snd lung in
  let l0 := Z.lxor (Z.lxor (Z.lxor (shl64 t0 DSFMT_SL1) (shr64 L1 32)) (shl64 L1 32)) (fst b) in
  let l1 := Z.lxor (Z.lxor (Z.lxor (shl64 t1 DSFMT_SL1) (shr64 L0 32)) (shl64 L0 32)) (snd b) in
  let r0 := Z.lxor (Z.lxor (shr64 l0 DSFMT_SR) (Z.land l0 DSFMT_MSK1)) t0 in
  let r1 := Z.lxor (Z.lxor (shr64 l1 DSFMT_SR) (Z.land l1 DSFMT_MSK2)) t1 in
  ((r0, r1), (l0, l1)).

(** SSE2 intrinsics on 128-bit values held as two 64-bit lanes (low lane first). *)
Definition mm_slli_epi64 (x : w128) (k : Z) : w128 := (shl64 (fst x) k, shl64 (snd x) k).
Definition mm_srli_epi64 (x : w128) (k : Z) : w128 := (shr64 (fst x) k, shr64 (snd x) k).
Definition mm_xor (x y : w128) : w128 := (Z.lxor (fst x) (fst y), Z.lxor (snd x) (snd y)).
Definition mm_and (x y : w128) : w128 := (Z.land (fst x) (fst y), Z.land (snd x) (snd y)).
(** 32-bit lanes of a 128-bit value, lane 0 lowest; _mm_shuffle_epi32(x, imm): result lane n is
    source lane (imm >> 2n) & 3. *)
Definition lane32 (x : w128) (n : Z) : Z :=
  match n with
  | 0 => u32 (fst x)
  | 1 => Z.shiftr (fst x) 32
  | 2 => u32 (snd x)
  | _ => Z.shiftr (snd x) 32
  end.
Definition mm_shuffle_epi32 (x : w128) (imm : Z) : w128 :=
  let l n := lane32 x (Z.land (Z.shiftr imm (2 * n)) 3) in
  (Z.lor (l 0) (Z.shiftl (l 1) 32), Z.lor (l 2) (Z.shiftl (l 3) 32)).
(** dSFMT-common.h: #define SSE2_SHUFF 0x1b *)
Definition SSE2_SHUFF : Z := 0x1b.

(** dSFMT-common.h:77-92, do_recursion, SSE2 version *)
Definition do_recursion_sse2 (a b u : w128) : w128 * w128 :=
  let x := a in
  let z := mm_slli_epi64 x DSFMT_SL1 in
  let y := mm_shuffle_epi32 u SSE2_SHUFF in
  let z := mm_xor z b in
  let y := mm_xor y z in
  let v := mm_srli_epi64 y DSFMT_SR in
  let w := mm_and y (DSFMT_MSK1, DSFMT_MSK2) in
  let v := mm_xor v x in
  let v := mm_xor v w in
  (v, y).

(** dSFMT.h DSFMT_T: status[DSFMT_N+1] and idx. *)
Record dsfmt := mkDsfmt { status : list w128; idx : nat }.

(** The recursion used, standard C or SSE2. *)
Definition recursion : Type := w128 -> w128 -> w128 -> w128 * w128.

(** one do_recursion(&status[i], &status[i], &status[pos], &lung) *)
Definition rec_step (rec : recursion) (pos : nat -> nat) (s : list w128 * w128) (i : nat)
  : list w128 * w128 :=
  let '(st, lung) := s in
  let '(r, lung') := rec (nth i st w128_0) (nth (pos i) st w128_0) lung in
  (upd st i r, lung').

(** dSFMT.cpp:410-426, dsfmt_gen_rand_all *)
Definition gen_rand_all (rec : recursion) (st : list w128) : list w128 :=
  let s := (st, nth DSFMT_N st w128_0) in
  let lo i := (i + DSFMT_POS1)%nat in
  let hi i := (i + DSFMT_POS1 - DSFMT_N)%nat in
  let s := rec_step rec (fun _ => DSFMT_POS1) s 0%nat in
  let s := fold_left (rec_step rec lo) (range 1 (DSFMT_N - DSFMT_POS1)) s in
  let s := fold_left (rec_step rec hi) (range (DSFMT_N - DSFMT_POS1) DSFMT_N) s in
  let '(st, lung) := s in
  upd st DSFMT_N lung.

(** psfmt64[i] with psfmt64 = &status[0].u[0] *)
Definition word64 (st : list w128) (i : nat) : Z :=
  let w := nth (i / 2) st w128_0 in
  if Nat.even i then fst w else snd w.

(** the common part of the dsfmt_genrand_* functions, dSFMT.h:256-287, 365-377: refill when exhausted, then
    take the next word. *)
Definition next_word (rec : recursion) (g : dsfmt) : Z * dsfmt :=
  let g := if (DSFMT_N64 <=? idx g)%nat
           then {| status := gen_rand_all rec (status g); idx := 0 |} else g in
  (word64 (status g) (idx g), {| status := status g; idx := S (idx g) |}).

(** dSFMT.h:256-266, dsfmt_genrand_uint32 *)
Definition genrand_uint32 (rec : recursion) (g : dsfmt) : Z * dsfmt :=
  let '(w, g) := next_word rec g in (Z.land w 0xffffffff, g).

(** dSFMT.cpp:526-544: the 32-bit words psfmt[0..n-1] of the initial state, newest first, for little endian
    (idxof is the identity). *)
Definition init_next (prev i : Z) : Z := u32 (1812433253 * Z.lxor prev (Z.shiftr prev 30) + i).
Fixpoint init_words (n : nat) (i prev : Z) : list Z :=
  match n with
  | O => []
  | S n => prev :: init_words n (i + 1) (init_next prev i)
  end.
(** the same memory seen as w128_t's: u[0] = u32[0] + 2^32 u32[1], u[1] = u32[2] + 2^32 u32[3] *)
Fixpoint pack128 (l : list Z) : list w128 :=
  match l with
  | a :: b :: c :: d :: l => (a + 2 ^ 32 * b, c + 2 ^ 32 * d) :: pack128 l
  | _ => []
  end.

(** dSFMT.cpp:329-337, initial_mask (status[0..N-1]) *)
Definition mask_word (w : Z) : Z := Z.lor (Z.land w DSFMT_LOW_MASK) DSFMT_HIGH_CONST.
Definition initial_mask (st : list w128) : list w128 :=
  map (fun w => (mask_word (fst w), mask_word (snd w))) (firstn DSFMT_N st) ++ skipn DSFMT_N st.

(** dSFMT.cpp:351-362: the parity "inner" *)
Definition certification_parity (lung : w128) : Z :=
  let t0 := Z.lxor (fst lung) DSFMT_FIX1 in
  let t1 := Z.lxor (snd lung) DSFMT_FIX2 in
  let inner := Z.lxor (Z.land t0 DSFMT_PCV1) (Z.land t1 DSFMT_PCV2) in
  let fold i inner := Z.lxor inner (Z.shiftr inner i) in
  Z.land (fold 1 (fold 2 (fold 4 (fold 8 (fold 16 (fold 32 inner)))))) 1.
(** dSFMT.cpp:343-382, period_certification, the branch compiled for odd DSFMT_PCV2 *)
Definition period_certification (st : list w128) : list w128 :=
  let lung := nth DSFMT_N st w128_0 in
  if certification_parity lung =? 1 then st
  else upd st DSFMT_N (fst lung, Z.lxor (snd lung) 1).

(** dSFMT.cpp:526-544, dsfmt_chk_init_gen_rand; the parameter type uint32_t truncates the seed. The mexp check
    (531-535) compares a constant with itself. *)
Definition init_gen_rand (seed : Z) : dsfmt :=
  let words := init_words ((DSFMT_N + 1) * 4) 1 (u32 seed) in
  {| status := period_certification (initial_mask (pack128 words)); idx := DSFMT_N64 |}.

(** dSFMT.cpp / C++ static initialisation of dsfmt_global_data: all zero *)
Definition dsfmt_zero : dsfmt := {| status := repeat w128_0 (S DSFMT_N); idx := 0 |}.
