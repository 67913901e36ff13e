(** C11, second sentence: calls that are not serialised. *)
From Coq Require Import ZArith Bool Lia List.
From Verif Require Import Base Arith M_Variogram M_Dsfmt M_Random M_Field M_Api M_Race M_Race3 S_Api S_Random P_Race P_Race3 ExampleLib.
Import ListNotations.

(** Two threads that simulate at the same time can draw the same number: both get what each of them would get alone. *)
Theorem C11_race_same_field : forall (L : Lib) rec fuel (h : list (Z * call L)) now (c1 c2 : call L), is_build rec ->
  let st := after rec fuel h in
  is_init st = true -> low_dim c1 = true -> low_dim c2 = true ->
  exists sched, concurrent rec fuel sched [c1; c2] (gen st) = Ok [fst (step rec fuel now c1 st); fst (step rec fuel now c2 st)].
Proof. intros L rec fuel. exact (c11_race rec fuel). Qed.
Print Assumptions C11_race_same_field.

(** So can any number of threads, and 3D calls too, which draw their whole noise from the shared generator: each of them gets the field it
    would get alone. *)
Theorem C11_race_any : forall (L : Lib) rec fuel (h : list (Z * call L)) now (cs : list (call L)), is_build rec ->
  let st := after rec fuel h in
  is_init st = true -> Forall (fun c => is_array (fst (step rec fuel now c st))) cs ->
  exists sched, concurrent3 rec fuel sched cs (gen st) = Ok (map (fun c => fst (step rec fuel now c st)) cs).
Proof. intros L rec fuel. exact (c11_race3 rec fuel). Qed.
Print Assumptions C11_race_any.

(** Schedules that let one draw finish before the next begins give what the threads get under the interpreter lock, whatever the
    order. *)
Theorem C11_one_at_a_time : forall (L : Lib) rec fuel (h : list (Z * call L)) now (cs : list (call L)) order, is_build rec ->
  let st := after rec fuel h in
  is_init st = true -> NoDup order -> (forall t, In t order <-> (t < length cs)%nat) -> (forall c, In c cs -> low_dim c = true) ->
  let locked := map snd (thread_run rec fuel order (map (fun c => [c]) cs) now st) in
  Forall is_array locked ->
  exists rs, concurrent rec fuel (flat_map (fun t => [t; t; t; t]) order) cs (gen st) = Ok rs /\ length rs = length cs /\
    forall k, (k < length order)%nat -> nth (nth k order 0%nat) rs NoFuel = nth k locked NoFuel.
Proof. intros L rec fuel. exact (c11_serial rec fuel). Qed.
Print Assumptions C11_one_at_a_time.

(** Four threads at the last word of the generator's array can read past its end. *)
Theorem C11_race_overrun : forall (L : Lib) rec fuel g (c1 c2 c3 c4 : call L), is_build rec -> reachable rec g ->
  S (idx g) = DSFMT_N64 -> exists sched, concurrent rec fuel sched [c1; c2; c3; c4] g = UB OutOfBounds.
Proof. intros L rec fuel. exact (c11_overrun rec fuel). Qed.
Print Assumptions C11_race_overrun.

Example C11_race_case : is_init (after do_recursion 100 [(0%Z, @CSeed ELib 4)]) = true /\ low_dim ex_sim1 = true /\ low_dim ex_sim2 = true.
Proof. repeat split; vm_compute; reflexivity. Qed.
Example C11_one_case : let st := after do_recursion 100 [(0%Z, @CSeed ELib 4)] in
  NoDup [1; 0]%nat /\ Forall is_array (map snd (thread_run do_recursion 100 [1; 0]%nat (map (fun c => [c]) [ex_sim1; ex_sim2]) 0 st)).
Proof.
  cbv zeta. split; [|apply is_array_all; vm_compute; reflexivity].
  constructor; [intros [H|[]]; discriminate|]. constructor; [intros []|constructor].
Qed.
Example C11_overrun_case : forall seed, let g := after_draws do_recursion (D32 :: repeat D32 380) (init_gen_rand seed) in
  reachable do_recursion g /\ S (idx g) = DSFMT_N64.
Proof. intros seed. cbv zeta. split; [exists seed, (D32 :: repeat D32 380); reflexivity|apply last_word]. Qed.
Example C11_race_any_case : let st := after do_recursion 100 [(0%Z, @CSeed ELib 4)] in
  is_init st = true /\ Forall (fun c => is_array (fst (step do_recursion 100 0 c st))) [ex_sim3; ex_sim1; ex_sim3; ex_sim2].
Proof. cbv zeta. split; [vm_compute; reflexivity|]. repeat constructor; apply is_array_one; vm_compute; reflexivity. Qed.
