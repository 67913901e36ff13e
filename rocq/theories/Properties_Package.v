(** C47: what "from gaussianfft import *" does. *)
From Coq Require Import List Bool String.
From Verif Require Import M_Package.
Import ListNotations.
Open Scope string_scope.

(** It fails: __all__ promises SizeTVector and DoubleVector, which nothing defines. *)
Theorem C47_star_import_refuted : star_import true package_all = AttributeError "SizeTVector" /\
  exists s1 s2, s1 <> s2 /\ forall s, In s package_all ->
    (known package_names s = false /\ submodule s = false) <-> s = s1 \/ s = s2.
Proof.
  split; [vm_compute; reflexivity|]. exists "SizeTVector", "DoubleVector". split; [discriminate|].
  intros s H. cbn [package_all In] in H.
  repeat (destruct H as [<-|H]; [vm_compute; split; [intros [A B]; try discriminate; auto|intros [A|A]; try discriminate; auto]|]).
  contradiction.
Qed.
Print Assumptions C47_star_import_refuted.

(** Without those two names it would work, given scipy, and bind every name. *)
Theorem C47_other_names_partial :
  let rest := filter (fun s => negb ((s =? "SizeTVector") || (s =? "DoubleVector"))) package_all in
  star_import true rest = Bound rest /\ star_import false rest = ImportError "util".
Proof. vm_compute. split; reflexivity. Qed.
Print Assumptions C47_other_names_partial.
