(** What a build of the package with the Arm Performance Libraries promises. *)
From Coq Require Import String List Arith.
From Verif Require Import M_Armpl.
Import ListNotations.

(** the disk before the first build *)
Definition fresh : disk :=
  {| state := None; target := None; archive := fun _ _ => Missing; script := fun _ _ => Missing; library := fun _ _ => NoData;
     package := []; platform_txt := None |}.

(** The package has the first [n] files of the library for [p] and [v], each of them whole, and nothing else. *)
Definition holds (n : nat) (p : platform) (v : version) (d : disk) : Prop :=
  forall q w i b, In (q, w, i, b) (package d) <-> q = p /\ w = v /\ i < n /\ b = true.

(** It has the whole library of the platform and version asked for, and is labelled with the platform. *)
Definition packaged (size : platform -> version -> nat) (p : platform) (v : version) (d : disk) : Prop :=
  holds (size p v) p v d /\ platform_txt d = Some p.

(** No script was extracted in part and no library was installed in part. *)
Definition neat (size : platform -> version -> nat) (v : version) (d : disk) : Prop :=
  forall p, script d p v <> Part /\ (library d p v = NoData \/ library d p v = EmptyData \/ library d p v = Files (size p v)).

(** Any number of builds of version [v] for any platforms, ended in any way at any step, after each of which the disk satisfies [P]. *)
Inductive builds (size : platform -> version -> nat) (v : version) (P : disk -> Prop) (d0 : disk) : disk -> Prop :=
| none_yet : builds size v P d0 d0
| one_more d p broken t e t' d' : builds size v P d0 d -> build size broken p v t d = (e, t', d') -> P d' -> builds size v P d0 d'.
