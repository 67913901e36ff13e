(** C44, further: IsValidIndex. *)
From Coq Require Import ZArith Bool Lia.
From Verif Require Import Base M_Grid P_Grid.
Open Scope Z_scope.

Lemma valid_iff ni nj i j : IsValidIndex ni nj i j = true <-> 0 <= i < Z.of_nat ni /\ 0 <= j < Z.of_nat nj.
Proof. unfold IsValidIndex. rewrite !andb_true_iff, !Z.leb_le, !Z.ltb_lt. lia. Qed.
(** An index is accepted exactly when the cell is in the grid, and then its element exists. *)
Theorem C44_valid : forall ni nj i j, (IsValidIndex ni nj i j = true <-> 0 <= i < Z.of_nat ni /\ 0 <= j < Z.of_nat nj) /\
  (IsValidIndex ni nj i j = true -> (GetIndex2 ni (Z.to_nat i) (Z.to_nat j) < ni * nj)%nat).
Proof.
  intros ni nj i j. split; [apply valid_iff|]. intros H. apply valid_iff in H. apply GetIndex2_lt; lia.
Qed.
Print Assumptions C44_valid.
Example C44_valid_case : IsValidIndex 3 2 2 1 = true /\ IsValidIndex 3 2 3 1 = false /\ IsValidIndex 3 2 (-1) 0 = false.
Proof. repeat split; reflexivity. Qed.
