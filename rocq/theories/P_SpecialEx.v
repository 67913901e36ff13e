(** A generator whose draws are all known: every word is the bits of 1.0, every normal draw is -3. With it the hypotheses
    "the call returns an array" of the theorems in exact arithmetic are met. *)
From Coq Require Import ZArith List Bool Lia Reals Lra.
From Verif Require Import Base Arith RealArith M_Variogram M_Padding M_FftSize M_Grid M_CovGrid M_Fft M_Dsfmt M_Random M_Field M_Api
  S_Api S_CovGrid S_Sizes S_Special P_Base P_Api P_Field P_Field3 P_Bounds P_FftSize P_Sim P_Sim2 P_Overrun P_Padding P_Logs2 P_Refute
  P_Rng P_RngInit P_RngFloat P_Special.
Import ListNotations.
Open Scope R_scope.

Definition ones : w128 := (DSFMT_HIGH_CONST, DSFMT_HIGH_CONST).
Definition rec1 : recursion := fun _ _ _ => (ones, ones).
Local Opaque init_gen_rand gen_rand_all genrand_uint32.

Lemma ones_word s k : List.length (fst s) = DSFMT_N -> Wd rec1 s k = DSFMT_HIGH_CONST.
Proof.
  intros H. unfold Wd. pose proof (X_step rec1 s (k / 2) H) as E. apply pair_equal_spec in E as [E _].
  rewrite Nat.add_comm, E. unfold lane. destruct (Nat.even k); reflexivity.
Qed.

Section L.
Variables (o : Z -> outcome Z) (cl : Z -> Z -> Z).
Notation L := (Rlib o cl).
Notation u := (Unif01 (A := L) rec1).

Lemma of_one : @ofbits L DSFMT_HIGH_CONST - 1 = 0.
Proof.
  destruct (of_bits_hi 0 ltac:(lia)) as [_ E]. rewrite Z.add_0_r in E.
  change (Binary.B2R 53 1024 (Bits.b64_of_bits DSFMT_HIGH_CONST) - 1 = 0). rewrite E. ring.
Qed.

Lemma ones_unif s g k : List.length (fst s) = DSFMT_N -> pos_ok rec1 s k g ->
  exists g', u g = (0, g') /\ pos_ok rec1 s (S k) g'.
Proof.
  intros H P. destruct (next_word_pos _ _ H k g P) as [E P'].
  exists (snd (next_word rec1 g)). split; [|exact P'].
  unfold Unif01. destruct (next_word rec1 g) as [w d]. cbn [fst snd] in *. rewrite E, ones_word by auto.
  apply pair_equal_spec. split; [|reflexivity].
  transitivity (@ofbits L DSFMT_HIGH_CONST - 1); [|apply of_one].
  change (@ofbits L DSFMT_HIGH_CONST - 1 / 1 = @ofbits L DSFMT_HIGH_CONST - 1). f_equal. field.
Qed.

Lemma ones_norm fuel s g k : List.length (fst s) = DSFMT_N -> pos_ok rec1 s k g ->
  exists g', Norm01 (A := L) u fuel g = Ok (-3, g') /\ pos_ok rec1 s (4 + k) g'.
Proof.
  intros H P0. destruct (ones_unif s g k H P0) as (g1 & E1 & P1). destruct (ones_unif s g1 _ H P1) as (g2 & E2 & P2).
  destruct (ones_unif s g2 _ H P2) as (g3 & E3 & P3). destruct (ones_unif s g3 _ H P3) as (g4 & E4 & P4).
  exists g4. split; [|exact P4]. unfold Norm01. rewrite E1.
  assert (B : flt L 0 (lit L 8638 4) = true).
  { change (Rltb 0 (8638 / IZR (10 ^ 4)) = true). unfold Rltb. destruct (Rlt_dec 0 (8638 / IZR (10 ^ 4))) as [|N]; auto.
    exfalso. apply N. change (10 ^ 4)%Z with 10000%Z. lra. }
  rewrite B, E2, E3, E4. apply f_equal. apply pair_equal_spec. split; [|reflexivity].
  change (2 / 1 * (0 + 0 + 0) - 3 / 1 = -3). lra.
Qed.

Lemma ones_draws fuel s n : List.length (fst s) = DSFMT_N -> forall k g, pos_ok rec1 s k g ->
  exists g', draws (A := L) u fuel n g = Ok (repeat (-3) n, g').
Proof.
  intros H. induction n as [|n IH]; intros k g P; [exists g; reflexivity|].
  destruct (ones_norm fuel s g k H P) as (g1 & E & P1). destruct (IH _ _ P1) as (g2 & E2).
  exists g2. cbn [draws]. rewrite E. cbn [bind]. rewrite E2. reflexivity.
Qed.

Lemma ones_fresh fuel n seed : exists g', draws (A := L) u fuel n (init_gen_rand seed) = Ok (repeat (-3) n, g').
Proof.
  destruct (init_spec seed) as (Hl & _ & _ & Hi).
  apply (ones_draws fuel (start seed) n (start_length seed) 0).
  pose proof (pos_start rec1 (status (init_gen_rand seed)) Hl) as P. rewrite <- Hi in P.
  unfold start. destruct (init_gen_rand seed) as [s i]. exact P.
Qed.

(** with this generator a 1D call in exact arithmetic returns an array *)
Lemma ones_1d fuel t (v : variogram L) (d : dims L) (a : adv L) ns z st :
  dim_asked d = 1%nat -> fst (step rec1 fuel t (CSize v d) st) = Ok (VSizes ns) -> length ns = dim_asked d ->
  accepted (CAdvanced v d a) -> asks d a ns -> grid_used d a ns 0 = Ok z -> (0 < z < 2 ^ 31)%Z -> (d_nx d <= z)%Z ->
  exists l st', step rec1 fuel t (CAdvanced v d a) st = (Ok (@VArray L l), st').
Proof.
  intros Hd Hs Hl Ha Hr Hz Hzn Hx.
  destruct (sizes_used _ _ t v d a ns st Hs Hl Hr) as (E & _ & _). specialize (E Hd). rewrite Hz in E.
  cbn [step fst] in Hs. apply bind_Ok in Hs as (x & A & _).
  destruct (adv_args_cases a) as [[y Hy]|Hy].
  2:{ exfalso. assert (X := proj1 (sim_args_ok (CAdvanced v d a) eq_refl) Ha). destruct X as [x' Hx'].
      unfold sim_args in Hx'. rewrite A, Hy in Hx'. discriminate. }
  assert (G : exists l, fst (step rec1 fuel t (CAdvanced v d a) st) = Ok (@VArray L l)).
  2:{ destruct G as [l G]. destruct (step rec1 fuel t (CAdvanced v d a) st) as [r st']. cbn [fst] in G. exists l, st'.
      apply pair_equal_spec. auto. }
  rewrite (step_adv _ _ _ _ _ _ _ _ _ A Hy). pose proof A as A'. apply args_inv in A' as [-> _].
  pose proof A as D. apply dim_args in D. apply adv_args_inv in Hy as [-> _].
  rewrite Hd in D. cbn [run_core]. unfold sim_core, SimulateAny. rewrite D. unfold Simulate1D. rewrite E. cbn [bind].
  rewrite narrow_ok by lia. cbn [bind]. rewrite new_generator_eq.
  match goal with |- context [draws _ ?f ?n (init_gen_rand ?s)] => destruct (ones_fresh f n s) as [g' Hx']; rewrite Hx' end. cbn [bind].
  rewrite (field1d_ok (Rlib_sizes o cl)); [|lia|lia|apply repeat_length]. cbn [bind after_core fst]. eexists. reflexivity.
Qed.
End L.
