(** Specification of FFT-friendly sizes. *)
From Coq Require Import ZArith List.
From Verif Require Import Base M_FftSize.
Import ListNotations.
Open Scope Z_scope.

Definition smooth7 (n : Z) : Prop :=
  exists a b c d, 0 <= a /\ 0 <= b /\ 0 <= c /\ 0 <= d /\ n = 2 ^ a * 3 ^ b * 5 ^ c * 7 ^ d.
Definition admissible (even : bool) (m n : Z) : Prop :=
  smooth7 n /\ m <= n /\ (even = true -> exists h, n = 2 * h).
(** [n] is the least admissible size for [m]. *)
Definition best_size (even : bool) (m n : Z) : Prop :=
  admissible even m n /\ forall n', admissible even m n' -> n <= n'.

(** What compiled code does with a double of 2^64 or more converted to size_t: 0 on x86-64, the largest value on ARM. *)
Definition x86_or_arm (oor : Z -> outcome Z) : Prop :=
  forall x, 2 ^ 64 <= x -> oor x = Ok 0 \/ oor x = Ok (2 ^ 64 - 1).

(** The computed ceil(log(m)/log(p)) is the least a with m <= p^a, or one more. *)
Definition good_logs (clogf : Z -> Z -> Z) (m : Z) : Prop :=
  forall p, In p [2; 3; 5; 7] ->
    exists a, 0 <= a /\ m <= p ^ a /\ (forall b, 0 <= b < a -> p ^ b < m) /\ (clogf p m = a \/ clogf p m = a + 1).

From Verif Require Import Arith M_Variogram M_Random M_Api S_Api.

(** What a call of advanced.simulate asks for in direction [i] (0, 1, 2 for x, y, z): the number of cells, the padding given
    (None when the default is asked for), and the size of the padded grid; [ns] is the answer of simulation_size. *)
Definition cells {L : Lib} (d : dims L) (i : nat) : Z :=
  nth i [d_nx d; opt (d_ny d) 1; opt (d_nz d) 1] 1.
Definition pad_given {L : Lib} (a : adv L) (i : nat) : option Z :=
  match nth i [a_padx a; a_pady a; a_padz a] None with
  | Some p => if p <? 0 then None else Some p
  | None => None
  end.
Definition requested {L : Lib} (d : dims L) (a : adv L) (ns : list Z) (i : nat) : Z :=
  match pad_given a i with Some p => cells d i + p | None => nth i ns 0 end.
(** Every simulated direction has room for its cells, at least one, and at most [B] in total. *)
Definition has_room {L : Lib} (d : dims L) (a : adv L) (ns : list Z) (B : Z) : Prop :=
  forall i, (i < dim_asked d)%nat ->
    0 <= cells d i <= requested d a ns i /\ 1 <= requested d a ns i <= B.
(** The number of cells of the padded grid in direction [i]: what the size search returns for the size requested. The first
    direction must be even in 2D and 3D. *)
Definition must_even {L : Lib} (d : dims L) (i : nat) : bool := Nat.eqb i 0 && Nat.ltb 1 (dim_asked d).
Definition grid_used {L : Lib} (d : dims L) (a : adv L) (ns : list Z) (i : nat) : outcome Z :=
  FindNewSizeWithPadding (clogf L) (oor L) (requested d a ns i) (must_even d i).
(** every requested size is at least 1 (and fits size_t) *)
Definition asks {L : Lib} (d : dims L) (a : adv L) (ns : list Z) : Prop :=
  forall i, (i < dim_asked d)%nat -> 1 <= requested d a ns i < 2 ^ 64.
(** The platform: defined-by-the-machine conversions, and good logarithms up to [B]. *)
Definition good_lib (L : Lib) (B : Z) : Prop :=
  x86_or_arm (oor L) /\ (forall m, 1 <= m <= B -> good_logs (clogf L) m).
