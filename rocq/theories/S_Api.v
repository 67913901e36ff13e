(** Vocabulary for statements about programs that use the Python module. *)
From Coq Require Import ZArith List Bool.
From Verif Require Import Base Arith M_Variogram M_Dsfmt M_Random M_Field M_Api.
Import ListNotations.
Open Scope Z_scope.

Section S.
Context {L : Lib}.

(** Calls that only ask something. *)
Definition is_query (c : call L) : bool :=
  match c with
  | CGetSeed | CVariogram _ _ _ _ _ _ _ | CCorr1 _ _ | CCorr2 _ _ _ | CCorr3 _ _ _ _ | CSize _ _ => true
  | CSeed _ | CSimulate _ _ | CAdvanced _ _ _ => false
  end.

Definition is_simulate (c : call L) : bool :=
  match c with CSimulate _ _ | CAdvanced _ _ _ => true | _ => false end.

(** Every integer argument given fits the C++ type it is passed to; otherwise Python raises TypeError. *)
Definition size_ok (z : Z) : Prop := 0 <= z < 2 ^ 64.
Definition int_ok (z : Z) : Prop := - 2 ^ 31 <= z < 2 ^ 31.
Definition given {T} (P : T -> Prop) (o : option T) : Prop := forall z, o = Some z -> P z.
Definition dims_ok (d : dims L) : Prop :=
  size_ok (d_nx d) /\ given size_ok (d_ny d) /\ given size_ok (d_nz d).
Definition accepted (c : call L) : Prop :=
  match c with
  | CSeed z => size_ok z
  | CSize _ d | CSimulate _ d => dims_ok d
  | CAdvanced _ d a =>
      dims_ok d /\ given int_ok (a_padx a) /\ given int_ok (a_pady a) /\ given int_ok (a_padz a)
  | _ => True
  end.

(** The number of dimensions asked for: the y direction counts if ny > 1 and dy is not negative (left out, ny is 1 and dy is
    -1.0), the z direction if moreover nz > 1 and dz is not negative. *)
Definition wants (n : option Z) (d : option (num L)) : bool :=
  (1 <? opt n 1) && negb (flt L (opt d (lit L (-1) 0)) (lit L 0 0)).
Definition dim_asked (d : dims L) : nat :=
  if negb (wants (d_ny d) (d_dy d)) then 1 else if negb (wants (d_nz d) (d_dz d)) then 2 else 3.
Definition low_dim (c : call L) : bool :=
  match c with
  | CSimulate _ d | CAdvanced _ d _ => negb (dim_asked d =? 3)%nat
  | _ => false
  end.

(** The same condition on the arguments of simulate calls as a boolean. *)
Definition in_range (lo hi : Z) (o : option Z) : bool :=
  match o with None => true | Some z => (lo <=? z) && (z <? hi) end.
Definition dims_ok_b (d : dims L) : bool :=
  in_range 0 (2 ^ 64) (Some (d_nx d)) && in_range 0 (2 ^ 64) (d_ny d) && in_range 0 (2 ^ 64) (d_nz d).
Definition accepted_b (c : call L) : bool :=
  match c with
  | CSeed z => in_range 0 (2 ^ 64) (Some z)
  | CSize _ d | CSimulate _ d => dims_ok_b d
  | CAdvanced _ d a =>
      dims_ok_b d && in_range (- 2 ^ 31) (2 ^ 31) (a_padx a) && in_range (- 2 ^ 31) (2 ^ 31) (a_pady a)
                  && in_range (- 2 ^ 31) (2 ^ 31) (a_padz a)
  | _ => true
  end.

(** The seed in force after a program: the last number given to seed(); failing that, the number [auto t] chosen at the
    first simulate call, [t] being the clock then. Calls rejected with TypeError do not count. *)
Definition seed_effect (auto : Z -> Z) (t : Z) (c : call L) (current : option Z) : option Z :=
  match c with
  | CSeed z => if accepted_b c then Some z else current
  | CSimulate _ _ | CAdvanced _ _ _ =>
      if accepted_b c then match current with Some z => Some z | None => Some (auto t) end else current
  | _ => current
  end.
Fixpoint seed_in_force (auto : Z -> Z) (current : option Z) (h : list (Z * call L)) : option Z :=
  match h with
  | [] => current
  | (t, c) :: h => seed_in_force auto (seed_effect auto t c current) h
  end.

(** The call came back to the caller, with a value or an exception. *)
Definition came_back {T} (o : outcome T) : Prop :=
  match o with Ok _ | Throw _ => True | UB _ | NoFuel => False end.

(** The state after a program started in a fresh process. *)
Definition after (rec : recursion) (fuel : nat) (h : list (Z * call L)) : rstate :=
  snd (run rec fuel h rstate0).
Definition all_back (rec : recursion) (fuel : nat) (h : list (Z * call L)) : Prop :=
  Forall came_back (fst (run rec fuel h rstate0)).

(** The same calls, made at clock times [ts]. *)
Definition at_times (ts : list Z) (cs : list (call L)) : list (Z * call L) := combine ts cs.

(** The number of values promised. *)
Definition field_length (d : dims L) : Z :=
  if (dim_asked d =? 1)%nat then d_nx d
  else if (dim_asked d =? 2)%nat then d_nx d * opt (d_ny d) 1
  else d_nx d * opt (d_ny d) 1 * opt (d_nz d) 1.

(** The call returned a field. *)
Definition is_array (o : outcome (value L)) : Prop := exists l, o = Ok (VArray l).

(** How many 1D/2D simulations of a program returned a field ([os] are the results of the calls). *)
Fixpoint low_dim_fields (p : list (Z * call L)) (os : list (outcome (value L))) : nat :=
  match p, os with
  | (_, c) :: p, Ok _ :: os => (if low_dim c then 1 else 0) + low_dim_fields p os
  | _ :: p, _ :: os => low_dim_fields p os
  | _, _ => 0
  end.

(** Threads under the interpreter lock: each thread is the list of calls it will make, a schedule says which thread
    makes its next call; a scheduled thread that has no calls left does nothing. *)
Fixpoint thread_run (rec : recursion) (fuel : nat) (sched : list nat) (threads : list (list (call L))) (now : Z) (st : rstate)
  : list (nat * outcome (value L)) :=
  match sched with
  | [] => []
  | tid :: sched =>
      match nth tid threads [] with
      | [] => thread_run rec fuel sched threads now st
      | c :: cs =>
          let '(o, st) := step rec fuel now c st in
          (tid, o) :: thread_run rec fuel sched (upd threads tid cs) now st
      end
  end.

(** The calls of such an execution in the order they happen. *)
Fixpoint thread_calls (sched : list nat) (threads : list (list (call L))) : list (call L) :=
  match sched with
  | [] => []
  | tid :: sched =>
      match nth tid threads [] with
      | [] => thread_calls sched threads
      | c :: cs => c :: thread_calls sched (upd threads tid cs)
      end
  end.

(** [x] numbered from [k]. *)
Fixpoint number {T} (k : nat) (x : list T) : list (nat * T) :=
  match x with [] => [] | a :: x => (k, a) :: number (S k) x end.

(** What seed() answers. *)
Definition seed_answer (o : option Z) : outcome (value L) :=
  match o with Some z => Ok (VInt z) | None => Throw NotInitialized end.

(** The arguments of a simulate call. *)
Definition sim_dims (c : call L) : option (dims L) :=
  match c with CSimulate _ d | CAdvanced _ d _ => Some d | _ => None end.

(** Boolean forms, for examples. *)
Definition came_back_b {T} (o : outcome T) : bool :=
  match o with Ok _ | Throw _ => true | UB _ | NoFuel => false end.
Definition is_array_b (o : outcome (value L)) : bool := match o with Ok (VArray _) => true | _ => false end.
Lemma came_back_all {T} (l : list (outcome T)) : forallb came_back_b l = true -> Forall came_back l.
Proof. induction l as [|[] l IH]; simpl; intros H; try discriminate; constructor; simpl; auto. Qed.
Lemma is_array_all (l : list (outcome (value L))) : forallb is_array_b l = true -> Forall is_array l.
Proof.
  induction l as [|[[]| | |] l IH]; simpl; intros H; try discriminate; constructor; simpl; auto. eexists; reflexivity.
Qed.
Lemma is_array_one (o : outcome (value L)) : is_array_b o = true -> is_array o.
Proof. destruct o as [[]| | |]; simpl; intros H; try discriminate. eexists; reflexivity. Qed.

Definition the_int (o : outcome (value L)) : option Z := match o with Ok (VInt z) => Some z | _ => None end.
Lemma the_int_Ok o z : the_int o = Some z -> o = Ok (VInt z).
Proof. destruct o as [[]| | |]; simpl; congruence. Qed.
Definition not_initialized_b (o : outcome (value L)) : bool := match o with Throw NotInitialized => true | _ => false end.
Lemma not_initialized_one o : not_initialized_b o = true -> o = Throw NotInitialized.
Proof. destruct o as [| [] | |]; simpl; congruence. Qed.

End S.
