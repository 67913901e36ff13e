(** Several processes that use the module. The random state is static data of the module (random.cpp:31-34), so each process has its own:
    a forked process starts with a copy of its parent's (os.fork, the "fork" start method of multiprocessing), a spawned one with that of a
    freshly loaded module. *)
From Coq Require Import ZArith List Bool.
From Verif Require Import Base Arith M_Variogram M_Dsfmt M_Random M_Field M_Api.
Import ListNotations.

Section Fork.
Context {L : Lib}.
Variable rec : recursion.
Variable fuel : nat.

Inductive event : Type :=
| Fork (p : nat)                          (* process p forks; the child gets the next number *)
| Spawn                                   (* a new process loads the module *)
| Do (p : nat) (now : Z) (c : call L).    (* process p makes a call *)

(** A process that ran into undefined behaviour or does not return takes no further part: None. *)
Definition world : Type := list (option rstate).
(** What happens, and the result with the number of the process if it was a call. *)
Definition happen (e : event) (w : world) : list (nat * outcome (value L)) * world :=
  match e with
  | Fork p => match nth_error w p with Some (Some st) => ([], w ++ [Some st]) | _ => ([], w) end
  | Spawn => ([], w ++ [Some rstate0])
  | Do p now c =>
      match nth_error w p with
      | Some (Some st) =>
          let '(o, st) := step rec fuel now c st in
          ([(p, o)], upd w p (match o with UB _ | NoFuel => None | _ => Some st end))
      | _ => ([], w)
      end
  end.
Fixpoint history (es : list event) (w : world) : list (nat * outcome (value L)) * world :=
  match es with
  | [] => ([], w)
  | e :: es => let '(r, w) := happen e w in let '(rs, w) := history es w in (r ++ rs, w)
  end.
End Fork.
Arguments event L : clear implicits.
