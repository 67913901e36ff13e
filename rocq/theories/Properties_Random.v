(** Properties of the random generator: seeds, uniform numbers, the two builds, the state step, bulk filling. *)
From Coq Require Import ZArith Bool Lia Reals List.
From Verif Require Import Base Arith RealArith FloatArith M_Dsfmt M_DsfmtBulk M_Random M_Field M_Api S_Api S_Random
  P_RngSame P_RngMain P_RngMore ExampleLib.
Import ListNotations.
Open Scope Z_scope.

(** The model gives the numbers of the generator's published reference output for seed 0: 1.030581026769374 ... *)
Fixpoint first_digits (n : nat) (g : dsfmt) : list Z :=
  match n with
  | O => []
  | S n => let '(w, g) := next_word do_recursion g in (w - DSFMT_HIGH_CONST) * 10 ^ 15 / 2 ^ 52 :: first_digits n g
  end.
Example reference_output : first_digits 5 (init_gen_rand 0) =
  [030581026769374; 213140320067012; 299002525016001; 381138853044628; 863488397063594].
Proof. vm_compute. reflexivity. Qed.

(** C05. Two seeds that are not the same 32-bit number give streams that differ within the first 386 uniform numbers, in
    both builds: as real numbers, and as doubles whatever the math library. *)
Theorem C05_seeds_differ : forall rec s1 s2, is_build rec -> s1 mod 2 ^ 32 <> s2 mod 2 ^ 32 ->
  exists n, (n < 386)%nat /\ nth_unif (A := Rarith) rec s1 n <> nth_unif (A := Rarith) rec s2 n.
Proof. exact c05. Qed.
Print Assumptions C05_seeds_differ.

Theorem C05_seeds_differ_double : forall m rec s1 s2, is_build rec -> s1 mod 2 ^ 32 <> s2 mod 2 ^ 32 ->
  exists n, (n < 386)%nat /\
    BinarySingleNaN.B2R (nth_unif (A := Farith m) rec s1 n) <> BinarySingleNaN.B2R (nth_unif (A := Farith m) rec s2 n).
Proof. exact c05_f. Qed.
Print Assumptions C05_seeds_differ_double.

Example C05_case : is_build do_recursion_sse2 /\ 1 mod 2 ^ 32 <> 4294967295 mod 2 ^ 32.
Proof. split; [right; reflexivity|discriminate]. Qed.

(** C06. In every state that seeding and drawing can reach, each way to draw gives an exact double of the promised range. *)
Theorem C06_uniform_range : forall m rec g, is_build rec -> reachable rec g ->
  (exists k, 0 <= k < 2 ^ 52 /\ exactly (fst (Unif01 (A := Farith m) rec g)) (IZR k / IZR (2 ^ 52))) /\
  (exists k, 0 < k < 2 ^ 52 /\ exactly (fst (Unif01Open (A := Farith m) rec g)) (IZR k / IZR (2 ^ 52))) /\
  (exists k, 0 < k <= 2 ^ 52 /\ exactly (fst (genrand_open_close (A := Farith m) rec g)) (IZR k / IZR (2 ^ 52))) /\
  (exists k, 0 <= k < 2 ^ 52 /\ exactly (fst (genrand_close1_open2 (A := Farith m) rec g)) (1 + IZR k / IZR (2 ^ 52))) /\
  0 <= fst (genrand_uint32 rec g) < 2 ^ 32.
Proof. exact c06. Qed.
Print Assumptions C06_uniform_range.

(** C06 for programs: whatever the module was used for, once it is seeded its generator is in such a state. *)
Theorem C06_module_reachable : forall (L : Lib) rec fuel (h : list (Z * call L)), is_build rec ->
  is_init (after rec fuel h) = true -> reachable rec (gen (after rec fuel h)).
Proof. exact program_reachable. Qed.
Print Assumptions C06_module_reachable.

Example C06_case : reachable do_recursion (after_draws do_recursion [D01; D32; D01Open] (init_gen_rand 12)) /\
  is_init (after do_recursion 100 [(3, ex_sim2)]) = true.
Proof. split; [exists 12, [D01; D32; D01Open]; reflexivity|vm_compute; reflexivity]. Qed.

(** C07. The generator step of the two builds is the same function on 128-bit operands with a lung of 64-bit words; the
    streams are the same for every seed and history of draws; and every program gives the same results in both builds. *)
Theorem C07_same_step : forall a b lung, 0 <= fst lung < 2 ^ 64 -> 0 <= snd lung < 2 ^ 64 ->
  do_recursion_sse2 a b lung = do_recursion a b lung.
Proof. exact same_step. Qed.
Print Assumptions C07_same_step.

Theorem C07_same_streams : forall (A : Arith) seed h,
  let g1 := after_draws do_recursion h (init_gen_rand seed) in
  let g2 := after_draws do_recursion_sse2 h (init_gen_rand seed) in
  g1 = g2 /\ fst (genrand_uint32 do_recursion g1) = fst (genrand_uint32 do_recursion_sse2 g2) /\
  forall k, fst (single (A := A) do_recursion k g1) = fst (single (A := A) do_recursion_sse2 k g2).
Proof. exact @streams_same. Qed.
Print Assumptions C07_same_streams.

Theorem C07_same_programs : forall (L : Lib) fuel (p : list (Z * call L)),
  run do_recursion fuel p rstate0 = run do_recursion_sse2 fuel p rstate0.
Proof. exact same_programs. Qed.
Print Assumptions C07_same_programs.

Example C07_case : let lung := (2 ^ 63 + 5, 7) in
  0 <= fst lung < 2 ^ 64 /\ 0 <= snd lung < 2 ^ 64 /\
  do_recursion_sse2 (1, 2) (3, 4) lung = ((30072635522, 23627038982), (30065295363, 23623368708)).
Proof. split; [|split]; [cbn; lia|cbn; lia|vm_compute; reflexivity]. Qed.

(** C08. No two different reachable states have the same successor, whatever is drawn; so a stream that comes back to a
    state it had after [h] is in that cycle from its beginning. *)
Theorem C08_step_injective : forall rec k1 k2 g1 g2, is_build rec -> reachable rec g1 -> reachable rec g2 ->
  after_draw rec k1 g1 = after_draw rec k2 g2 -> g1 = g2.
Proof. exact c08_inj. Qed.
Print Assumptions C08_step_injective.

Theorem C08_no_shorter_cycle : forall rec g h k, is_build rec -> reachable rec g ->
  after_draws rec (h ++ k) g = after_draws rec h g -> after_draws rec k g = g.
Proof. exact c08_nocycle. Qed.
Print Assumptions C08_no_shorter_cycle.

(** The parity condition of the period certification, counted in one bits. *)
Theorem C08_parity : forall seed, let lung := nth 191 (status (init_gen_rand seed)) w128_0 in
  Nat.Odd (ones (Z.land (Z.lxor (fst lung) DSFMT_FIX1) DSFMT_PCV1) +
           ones (Z.land (Z.lxor (snd lung) DSFMT_FIX2) DSFMT_PCV2)).
Proof. intros seed. apply Nat.odd_spec. exact (cert_odd seed). Qed.
Print Assumptions C08_parity.

Example C08_case : let g := init_gen_rand 5 in
  reachable do_recursion g /\ reachable do_recursion (after_draw do_recursion D01 g) /\
  idx (after_draw do_recursion D01 g) <> idx g.
Proof.
  cbv zeta. split; [exists 5, []; reflexivity|]. split; [exists 5, [D01]; reflexivity|]. vm_compute. discriminate.
Qed.

(** C45. Filling any sequence of arrays of admissible sizes, of any of the four kinds, gives the doubles that single draws
    give, and leaves a generator whose further draws are those that would have followed. *)
Theorem C45_bulk_is_single : forall m rec convert seed fs, is_bulk_build rec convert -> admissible fs ->
  let g := init_gen_rand seed in
  exists outs g', fills rec convert fs g = Ok (outs, g') /\
    map (map (ofbits (Farith m))) outs = fst (single_runs (A := Farith m) rec fs g) /\
    forall k n, fst (singles (A := Farith m) rec k n g') =
                fst (singles (A := Farith m) rec k n (snd (single_runs (A := Farith m) rec fs g))).
Proof. exact c45. Qed.
Print Assumptions C45_bulk_is_single.

Example C45_case : is_bulk_build do_recursion_sse2 conv64_sse2 /\
  admissible [(CloseOpen, repeat 0 382); (OpenOpen, repeat 7 400)].
Proof.
  split; [right; split; reflexivity|].
  repeat constructor; cbn [snd]; rewrite repeat_length; try lia; [exists 191%nat|exists 200%nat]; reflexivity.
Qed.
