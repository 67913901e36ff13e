(** C83: calls that run out of memory. *)
From Coq Require Import ZArith Bool Lia List.
From Flocq Require Import IEEE754.BinarySingleNaN.
From Verif Require Import Base Arith M_Variogram M_Dsfmt M_Random M_Field M_Api M_Alloc S_Api S_Alloc P_Alloc ExampleLib.
Import ListNotations.
Open Scope nat_scope.

(** A call that returns an array needs a certain number n of allocations. With n or more it returns that array and leaves the state it
    should. With fewer it either raises an exception, and the random stream is then where it was before the call or where the
    successful call leaves it, nowhere in between, and at most two buffers are lost; or it writes through a null pointer. (Before: the
    first call of an unseeded process chooses its seed first of all.) *)
Theorem C83_all_or_nothing_partial : forall (L : Lib) rec fuel now (c : call L) st, is_array (fst (step rec fuel now c st)) ->
  let before := if is_init st then st else InitializeTime rec now st in let after := snd (step rec fuel now c st) in
  exists n, 0 < n /\ forall k,
    (n <= k -> call_mem rec fuel now c k st = Some (Ended (fst (step rec fuel now c st)), k - n, after)) /\
    (k < n -> exists e st', call_mem rec fuel now c k st = Some (e, 0, st') /\
       (e = NullWrite \/ exists lost, e = NoMemory lost /\ lost <= 2) /\ (stream st' = stream before \/ stream st' = stream after)).
Proof. intros L rec fuel. exact (c83_all rec fuel). Qed.
Print Assumptions C83_all_or_nothing_partial.

(** If there is no memory at all the call raises an exception and the stream is untouched. *)
Theorem C83_nothing_left : forall (L : Lib) rec fuel now (c : call L) st, is_array (fst (step rec fuel now c st)) ->
  let before := if is_init st then st else InitializeTime rec now st in
  exists e, call_mem rec fuel now c 0 st = Some (e, 0, before) /\ e = NoMemory 0.
Proof. intros L rec fuel. exact (c83_first rec fuel). Qed.
Print Assumptions C83_nothing_left.

(** Every call that returns a non-empty array can crash instead of raising an exception. *)
Theorem C83_exception_refuted : forall (L : Lib) rec fuel now (c : call L) st l, fst (step rec fuel now c st) = Ok (VArray l) -> l <> [] ->
  exists k st', call_mem rec fuel now c k st = Some (NullWrite, 0, st').
Proof. intros L rec fuel. exact (c83_crash rec fuel). Qed.
Print Assumptions C83_exception_refuted.

(** Every call can raise the exception after its numbers have been drawn. *)
Theorem C83_drawn_in_vain : forall (L : Lib) rec fuel now (c : call L) st, is_array (fst (step rec fuel now c st)) ->
  exists k, call_mem rec fuel now c k st = Some (NoMemory 0, 0, snd (step rec fuel now c st)).
Proof. intros L rec fuel. exact (c83_late rec fuel). Qed.
Print Assumptions C83_drawn_in_vain.

(** Making the call again then gives another field than the failed call would have given. *)
Definition mantissas (o : outcome (value ELib)) : list positive :=
  match o with Ok (VArray l) => map (fun x : num ELib => match x with B754_finite _ m _ _ => m | _ => 1%positive end) l | _ => [] end.
Definition seeded4 := after do_recursion 100 [(0%Z, @CSeed ELib 4)].
Theorem C83_retry_refuted : exists k st', call_mem do_recursion 100 0 ex_sim1 k seeded4 = Some (NoMemory 0, 0, st') /\
  is_array (fst (step do_recursion 100 0 ex_sim1 seeded4)) /\ is_array (fst (step do_recursion 100 0 ex_sim1 st')) /\
  fst (step do_recursion 100 0 ex_sim1 st') <> fst (step do_recursion 100 0 ex_sim1 seeded4).
Proof.
  assert (A : is_array (fst (step do_recursion 100 0 ex_sim1 seeded4))) by (apply is_array_one; vm_compute; reflexivity).
  destruct (c83_late do_recursion 100 0 ex_sim1 seeded4 A) as [k K].
  exists k, (snd (step do_recursion 100 0 ex_sim1 seeded4)). split; [exact K|]. split; [exact A|]. split; [apply is_array_one; vm_compute; reflexivity|].
  assert (N : negb (Pos.eqb (hd 1%positive (mantissas (fst (step do_recursion 100 0 ex_sim1 (snd (step do_recursion 100 0 ex_sim1 seeded4))))))
    (hd 1%positive (mantissas (fst (step do_recursion 100 0 ex_sim1 seeded4))))) = true) by (vm_compute; reflexivity).
  intros E. rewrite E, Pos.eqb_refl in N. discriminate N.
Qed.
Print Assumptions C83_retry_refuted.

Example C83_case : Forall (fun c => is_array (fst (step do_recursion 100 0 c rstate0))) [ex_sim1; ex_sim2; ex_sim3].
Proof. repeat constructor; apply is_array_one; vm_compute; reflexivity. Qed.
