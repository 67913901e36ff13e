(** C84: several processes. *)
From Coq Require Import ZArith Bool Lia List.
From Verif Require Import Base Arith M_Variogram M_Dsfmt M_Random M_Field M_Api M_Fork S_Api S_Fork P_Fork ExampleLib.
Import ListNotations.
Open Scope nat_scope.

(** Whatever happens in the other processes, and in whatever order, a process gets what its own calls give when they are made alone. *)
Theorem C84_isolated : forall (L : Lib) rec fuel (es : list (event L)) p w st, nth_error w p = Some (Some st) ->
  results_of p (fst (history rec fuel es w)) = fst (run rec fuel (calls_of p es) st).
Proof. intros L rec fuel. exact (c84_isolated rec fuel). Qed.
Print Assumptions C84_isolated.

(** But a process forked from one whose generator is initialised gets the same fields as its parent, from the same calls, at whatever
    times they are made. *)
Theorem C84_forked_refuted : forall (L : Lib) rec fuel (es : list (event L)) p w st, nth_error w p = Some (Some st) -> is_init st = true ->
  let q := length w in let rs := fst (history rec fuel (Fork p :: es) w) in
  map snd (calls_of p es) = map snd (calls_of q es) -> results_of p rs = results_of q rs.
Proof. intros L rec fuel. exact (c84_forked rec fuel). Qed.
Print Assumptions C84_forked_refuted.

(** a seeded process, two children, the same field from each of them and from the parent *)
Definition ex_history : list (event ELib) :=
  [Do 0 7%Z (CSeed 4); Fork 0; Fork 0; Do 2 8%Z ex_sim1; Do 0 9%Z ex_sim1; Do 1 9%Z ex_sim1].
Example C84_case : let rs := fst (history do_recursion 100 ex_history [Some rstate0]) in
  map fst rs = [0; 2; 0; 1] /\ forallb is_array_b (map snd (tl rs)) = true.
Proof. cbv zeta. split; vm_compute; reflexivity. Qed.
Example C84_same :
  let es := tl (tl ex_history) in
  match snd (happen do_recursion 100 (Do 0 7%Z (@CSeed ELib 4)) [Some rstate0]) with [Some st] => is_init st | _ => false end = true /\
  map snd (calls_of 0 es) = map snd (calls_of 1 es) /\ length (calls_of 1 es) = 1.
Proof. cbv zeta. repeat split; vm_compute; reflexivity. Qed.
