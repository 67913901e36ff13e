(** The files that belong to a build. *)
From Coq Require Import List Bool String.
From Verif Require Import M_Sources.
Import ListNotations.
Open Scope string_scope.

Section Spec.
Variable canon : path -> option string.
Variable is_file : path -> bool.
Variable names : string -> list string.
Variable beside : string -> string -> path.
Variable as_is in_src : string -> path.
Variable system : string -> bool.
Variable ignore : list string.

(** [p] is what the name [n] in the file [f] stands for: next to the file, or else from the root, or else in the source folder *)
Definition means (f n : string) (p : path) : Prop :=
  is_file p = true /\
  (p = beside f n \/ is_file (beside f n) = false /\ (p = as_is n \/ is_file (as_is n) = false /\ p = in_src n)).
(** the text of [p] starts with that of an ignored folder *)
Definition skipped (p : path) : Prop := exists i r, In i ignore /\ text p = i ++ r.
(** [f] includes [p] *)
Definition includes (f : string) (p : path) : Prop := (exists n, In n (names f) /\ means f n p) /\ ~ skipped p.

(** The source file that belongs to a header or the header that belongs to a source file. *)
Definition partner (p q : path) : Prop :=
  base q = base p /\ is_file q = true /\
  In (ext p, ext q) [(".hpp", ".cpp"); (".h", ".c"); (".h", ".cpp"); (".cpp", ".hpp"); (".c", ".h")].

(** [p] is the file [f] of the project *)
Definition is_project (p : path) (f : string) : Prop := canon p = Some f /\ system f = false.

(** The source file that belongs to a header: x.cpp of x.hpp, x.c of x.h, or x.cpp of x.h when there is no x.c. *)
Definition source_of (p q : path) : Prop :=
  base q = base p /\ is_file q = true /\
  (In (ext p, ext q) [(".hpp", ".cpp"); (".h", ".c")] \/ (ext p, ext q) = (".h", ".cpp") /\ is_file (mkPath (base p) ".c") = false).

(** The files needed from the start files: those themselves, what needed files include, and what goes with that. *)
Inductive needed (goes_with : path -> path -> Prop) (starts : list path) : string -> Prop :=
| needed_start : forall p f, In p starts -> is_project p f -> needed goes_with starts f
| needed_include : forall g p f, needed goes_with starts g -> includes g p -> is_project p f -> needed goes_with starts f
| needed_other : forall g p q f, needed goes_with starts g -> includes g p -> goes_with p q -> is_project q f -> needed goes_with starts f.
End Spec.
