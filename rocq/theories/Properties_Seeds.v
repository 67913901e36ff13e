(** What seeds promise about fields: C78, C79, C80. *)
From Coq Require Import ZArith List Bool Lia.
From Verif Require Import Base Arith M_Variogram M_Dsfmt M_Random M_Field M_Api S_Api S_Random P_Seeds ExampleLib.
Import ListNotations.
Open Scope Z_scope.
Local Opaque new_generator genrand_uint32 init_gen_rand.

(** C78. Different seeds give different fields: false in one and two dimensions. Whatever else happened in the two processes, any 1D or 2D
    simulate call returns the same field right after seed(41243) and right after seed(69349). *)
Theorem C78_fields_refuted : forall (L : Lib) (rec : recursion) (fuel : nat) (c : call L) (h1 h2 : list (Z * call L)) t1 t2 u1 u2,
  is_build rec -> low_dim c = true ->
  fst (run rec fuel [(t1, CSeed 41243); (u1, c)] (after rec fuel h1)) = fst (run rec fuel [(t2, CSeed 69349); (u2, c)] (after rec fuel h2)).
Proof. exact @c78_seeds. Qed.
Print Assumptions C78_fields_refuted.
(** The reason: there are at most 2^32 results a given 1D or 2D call can have, whatever the seed and whatever was called before. *)
Theorem C78_at_most_2_32_fields : forall (L : Lib) (rec : recursion) (fuel : nat) (c : call L), low_dim c = true ->
  exists F : Z -> outcome (value L), forall (h : list (Z * call L)) t,
  exists k, 0 <= k < 2 ^ 32 /\ fst (step rec fuel t c (after rec fuel h)) = F k.
Proof. exact @c78_few. Qed.
Print Assumptions C78_at_most_2_32_fields.

(** C79. Calling simulate again gives a new field: false in one and two dimensions. After seed(140136564), the sixth and the seventh
    of seven equal calls return the same field. *)
Theorem C79_repeat_refuted : forall (L : Lib) (rec : recursion) (fuel : nat) (c : call L) (h : list (Z * call L)) t u,
  is_build rec -> low_dim c = true ->
  let r := fst (run rec fuel ((t, CSeed 140136564) :: repeat (u, c) 7) (after rec fuel h)) in
  Forall is_array (tl r) -> nth 6 r NoFuel = nth 7 r NoFuel.
Proof. exact @c79_repeat. Qed.
Print Assumptions C79_repeat_refuted.

(** C80. Automatic seeds. Two processes whose first random call is made in the same second (more exactly, at clock times that agree
    modulo 2^32) get the same results from then on, and the same seed from seed(). *)
Theorem C80_same_second : forall (L : Lib) (rec : recursion) (fuel : nat) (h1 h2 : list (Z * call L)) t1 t2 (c : call L) ts1 ts2 cs,
  t1 mod 2 ^ 32 = t2 mod 2 ^ 32 ->
  (forall t c, In (t, c) h1 -> accepted c -> is_query c = true) -> (forall t c, In (t, c) h2 -> accepted c -> is_query c = true) ->
  is_simulate c = true -> accepted c -> length ts1 = length cs -> length ts2 = length cs ->
  run rec fuel ((t1, c) :: at_times ts1 cs) (after rec fuel h1) = run rec fuel ((t2, c) :: at_times ts2 cs) (after rec fuel h2).
Proof. exact @c80_same. Qed.
Print Assumptions C80_same_second.
(** That different seconds give different results is false: 21 September 2026, 18:26:34 and 20:56:27 (UTC). *)
Theorem C80_different_seconds_refuted : forall (L : Lib) (rec : recursion) (fuel : nat) (h1 h2 : list (Z * call L)) (c : call L) ts1 ts2 cs,
  is_build rec ->
  (forall t c, In (t, c) h1 -> accepted c -> is_query c = true) -> (forall t c, In (t, c) h2 -> accepted c -> is_query c = true) ->
  is_simulate c = true -> accepted c -> length ts1 = length cs -> length ts2 = length cs ->
  run rec fuel ((1790015194, c) :: at_times ts1 cs) (after rec fuel h1) = run rec fuel ((1790024187, c) :: at_times ts2 cs) (after rec fuel h2).
Proof. exact @c80_times. Qed.
Print Assumptions C80_different_seconds_refuted.
(** The documentation says that the automatic seed is the current time; at 1790015194 seed() reports 2124511989. *)
Theorem C80_time_refuted : forall (L : Lib) (rec : recursion) (fuel : nat) (h : list (Z * call L)) (c : call L) t o s, is_build rec ->
  (forall t c, In (t, c) h -> accepted c -> is_query c = true) ->
  is_simulate c = true -> accepted c -> step rec fuel 1790015194 c (after rec fuel h) = (o, s) ->
  fst (step rec fuel t (@CGetSeed L) s) = Ok (VInt 2124511989).
Proof. exact @c80_not_time. Qed.
Print Assumptions C80_time_refuted.

(** Calls that meet the hypotheses, with fields that are not exceptions *)
Example Seeds_case : is_build do_recursion /\ low_dim ex_sim1 = true /\ is_simulate ex_sim1 = true /\ accepted_b ex_sim1 = true /\
  is_array (nth 1 (fst (run do_recursion 100 [(0, CSeed 41243); (0, ex_sim1)] (@after ELib do_recursion 100 []))) NoFuel) /\
  Forall is_array (tl (fst (run do_recursion 100 ((0, CSeed 140136564) :: repeat (0, ex_sim1) 7) (@after ELib do_recursion 100 [])))) /\
  is_array (fst (step do_recursion 100 1790015194 ex_sim1 (@after ELib do_recursion 100 [(1, CGetSeed)]))).
Proof.
  split; [left; reflexivity|]. split; [vm_compute; reflexivity|]. split; [reflexivity|]. split; [vm_compute; reflexivity|].
  split; [apply is_array_one; vm_compute; reflexivity|]. split; [apply is_array_all; vm_compute; reflexivity|apply is_array_one; vm_compute; reflexivity].
Qed.
