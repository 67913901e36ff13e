(** A padded size below the requested size makes the simulation read past the end of its array. *)
From Coq Require Import ZArith List Bool Lia.
From Verif Require Import Base Arith RealArith M_Variogram M_Padding M_FftSize M_Grid M_CovGrid M_Fft M_Dsfmt M_Random M_Field M_Api
  S_Api S_CovGrid S_Sizes P_Base P_Grid P_Api P_Field P_Field3 P_Bounds P_FftSize P_Sim P_Sim2 ExampleLib.
Import ListNotations.
Open Scope Z_scope.

Lemma mapM_oob {T} (l : list T) : forall m s, (length l < s + m)%nat -> (s <= length l)%nat -> mapM (fun i => rd l i) (seq s m) = UB OutOfBounds.
Proof.
  induction m; intros s Hs Hl; [lia|].
  cbn [seq mapM]. unfold rd at 1. destruct (nth_error l s) eqn:E; [|reflexivity].
  cbn [bind]. rewrite IHm; auto; [lia|]. apply Nat.le_succ_l. apply nth_error_Some. congruence.
Qed.

Section P.
Context {L : Lib}.
Hypothesis HL : fft_sizes L.
Variable rec : recursion.
Variable fuel : nat.

Lemma field1d_oob (v : variogram L) nx n dx sx noise : (0 < n)%nat -> (n < nx)%nat -> length noise = n ->
  field1d v nx n dx sx noise = UB OutOfBounds.
Proof.
  intros Hn Hx Hl. pose proof (field1d_ok HL v n n dx sx noise Hn (le_n n) Hl) as H.
  unfold field1d in *.
  apply bind_Ok in H as (cov & -> & H). cbn [bind]. apply bind_Ok in H as (cf & -> & H). cbn [bind].
  apply bind_Ok in H as (nf & -> & H). cbn [bind]. apply bind_Ok in H as (cv & -> & H). cbn [bind].
  apply bind_Ok in H as (tmp & Ht & H). rewrite Ht. cbn [bind].
  apply mapM_oob; [|lia].
  assert (length tmp = n).
  { unfold ComputeFFTInv1D in Ht. destruct cv; [injection Ht as <-; apply repeat_length|]. unfold fftw in Ht. 
    destruct (_ <=? _)%nat in Ht; [|discriminate]. cbn [bind] in Ht. rewrite repeat_length in Ht.
    apply mapM_length in Ht. rewrite seq_length in Ht. exact Ht. }
  lia.
Qed.

(** a 1D simulation with a padded size below nx: the noise is drawn, then the copy runs past the end *)
Lemma overrun_1d t (v : variogram L) (d : dims L) (a : adv L) ns z st :
  dim_asked d = 1%nat -> fst (step rec fuel t (CSize v d) st) = Ok (VSizes ns) -> length ns = dim_asked d ->
  accepted (CAdvanced v d a) -> asks d a ns -> grid_used d a ns 0 = Ok z -> 0 < z < d_nx d -> z < 2 ^ 31 ->
  fst (step rec fuel t (CAdvanced v d a) st) = NoFuel \/ fst (step rec fuel t (CAdvanced v d a) st) = UB OutOfBounds.
Proof.
  intros Hd Hs Hl Ha Hr Hz Hzn Hz31.
  destruct (sizes_used _ _ t v d a ns st Hs Hl Hr) as (E & _ & _). specialize (E Hd). rewrite Hz in E.
  cbn [step fst] in Hs. apply bind_Ok in Hs as (x & A & _).
  destruct (adv_args_cases a) as [[y Hy]|Hy].
  2:{ exfalso. assert (X := proj1 (sim_args_ok (CAdvanced v d a) eq_refl) Ha). destruct X as [x' Hx].
      unfold sim_args in Hx. rewrite A, Hy in Hx. discriminate. }
  rewrite (step_adv _ _ _ _ _ _ _ _ _ A Hy). pose proof A as A'. apply args_inv in A' as [-> _].
  pose proof A as D. apply dim_args in D. apply adv_args_inv in Hy as [-> _].
  rewrite Hd in D. cbn [run_core]. unfold sim_core, SimulateAny. rewrite D. unfold Simulate1D. rewrite E. cbn [bind].
  rewrite narrow_ok by auto. cbn [bind]. rewrite new_generator_eq.
  match goal with |- context [draws ?u ?f ?n ?g] => destruct (draws_onf u f n g) as [[[xs s'] Hx]| Hx]; rewrite Hx end; cbn [bind after_core fst].
  - rewrite field1d_oob; cbn [bind after_core fst]; auto; try lia. apply draws_length in Hx. exact Hx.
  - auto.
Qed.
End P.

Lemma prod_seq_len n m : length (list_prod (seq 0 n) (seq 0 m)) = (n * m)%nat.
Proof. rewrite prod_length, !seq_length. reflexivity. Qed.
Lemma prod3_seq_len n m k : length (list_prod (seq 0 n) (list_prod (seq 0 m) (seq 0 k))) = (n * m * k)%nat.
Proof. rewrite !prod_length, !seq_length. lia. Qed.

Lemma Rlib_sizes o cl : fft_sizes (Rlib o cl).
Proof.
  repeat split; intros; cbn [r2c1 r2c2 r2c3 c2r1 c2r2 c2r3 Rlib].
  - unfold Rr2c1. rewrite map_length, seq_length. reflexivity.
  - unfold Rc2r1. rewrite map_length, seq_length. reflexivity.
  - unfold Rr2c2. rewrite map_length. apply prod_seq_len.
  - unfold Rc2r2. rewrite map_length. apply prod_seq_len.
  - unfold Rr2c3. rewrite map_length. apply prod3_seq_len.
  - unfold Rc2r3. rewrite map_length. apply prod3_seq_len.
Qed.
Lemma ELib_sizes : fft_sizes ELib.
Proof.
  repeat split; intros; cbn [r2c1 r2c2 r2c3 c2r1 c2r2 c2r3 ELib]; unfold er2c3, ec2r3; rewrite map_length, prod3_seq_len; lia.
Qed.
