(** Accuracy of correlations in double precision: consequences for the range of the values and for monotonicity. *)
From Coq Require Import ZArith Bool Lia Reals Lra String List.
From Flocq Require Import Core IEEE754.BinarySingleNaN.
From Verif Require Import Base Arith RealArith FloatArith M_Variogram S_Vario S_Random S_Normal P_RBounds P_Cov P_Vario P_VarioNames P_VarioMore P_Special2 P_VarioF P_NormF S_CorrF P_CorrF P_CorrF2 P_CorrF4 P_CorrF5 P_CorrF7 S_Accur P_Accur P_Accur2 P_Accur3 P_Accur5 P_Accur6 P_Accur10 P_Accur11.
Import ListNotations.
Open Scope R_scope.

Section Api.
Variable m : libm.
Hypothesis ok : fair m.
Hypothesis T : trig_rounded m.
Hypothesis ER : exp_rounded m.
Hypothesis PR : pow_rounded m.
Notation F := (Farith m).
Lemma real_create s (main perp depth azi dp power : b64) v : @CreateVariogram F s main perp depth azi dp power = Ok v ->
  exists w, @CreateVariogram Rarith s (B2R main) (B2R perp) (B2R depth) (B2R azi) (B2R dp) (B2R power) = Ok w.
Proof.
  intros H. assert (Ha : is_ascii s).
  { destruct (is_ascii_dec s) as [Q|Q]; [exact Q|]. rewrite (names_bad s (main : num F) perp depth azi dp power Q) in H. discriminate H. }
  destruct (Create_total (A := Rarith) s (B2R main) (B2R perp) (B2R depth) (B2R azi) (B2R dp) (B2R power) Ha) as (w & W & _). exists w. exact W.
Qed.
Section Args.
Variables (s : string) (main perp depth azi dp power : b64) (k : R) (v : variogram F).
Hypothesis HF : @CreateVariogram F s main perp depth azi dp power = Ok v.
Hypothesis FP : is_finite power = true. Hypothesis P : 0 < B2R power <= 2.
Hypothesis M : ordinary main. Hypothesis MP : ordinary_arg perp. Hypothesis MD : ordinary_arg depth. Hypothesis AA : angle azi. Hypothesis AD : angle dp.
Hypothesis K : 1 <= k <= 262144. Hypothesis KR : ratio_at_most k (B2R main) (or_main (B2R main) (B2R perp)) (or_main (B2R main) (B2R depth)).
Lemma nearly_unit (x y z : b64) : ordinary_lag x -> ordinary_lag y -> ordinary_lag z ->
  is_finite (@GetCorr1 F v x) = true /\ - (k ^ 2 * bpow radix2 (-40)) <= B2R (@GetCorr1 F v x) <= 1 + k ^ 2 * bpow radix2 (-40) /\
  is_finite (@GetCorr2 F v x y) = true /\ - (k ^ 2 * bpow radix2 (-40)) <= B2R (@GetCorr2 F v x y) <= 1 + k ^ 2 * bpow radix2 (-40) /\
  is_finite (@GetCorr3 F v x y z) = true /\ - (k ^ 2 * bpow radix2 (-40)) <= B2R (@GetCorr3 F v x y z) <= 1 + k ^ 2 * bpow radix2 (-40).
Proof.
  intros X Y Z. destruct (real_create s main perp depth azi dp power v HF) as (w & W).
  destruct (ord_arg main perp M MP) as (_ & _ & NZ2). destruct (ord_arg main depth M MD) as (_ & _ & NZ3).
  destruct (c36_3d _ _ _ _ _ _ _ w W (mod_pos _ (ord_mod _ M)) NZ2 NZ3 ltac:(lra)) as (_ & U & _).
  destruct (c77_rotated m ok T ER PR s main perp depth azi dp power x y z k v w HF W FP P M MP MD AA AD X Y Z K KR) as ((A1 & B1) & (A2 & B2) & (A3 & B3)).
  rewrite corr1_2, corr2_3 in B1. rewrite corr2_3 in B2. pose proof (U (B2R x) 0 0) as U1. pose proof (U (B2R x) (B2R y) 0) as U2. pose proof (U (B2R x) (B2R y) (B2R z)) as U3.
  apply Rabs_le_inv in B1, B2, B3. split; [exact A1|split; [lra|split; [exact A2|split; [lra|split; [exact A3|lra]]]]].
Qed.
(** lags on a ray from the origin *)
Lemma nearly_monotone (c : R) (x y z x' y' z' : b64) : ordinary_lag x -> ordinary_lag y -> ordinary_lag z -> ordinary_lag x' -> ordinary_lag y' -> ordinary_lag z' ->
  1 <= c -> B2R x' = c * B2R x -> B2R y' = c * B2R y -> B2R z' = c * B2R z ->
  B2R (@GetCorr1 F v x') <= B2R (@GetCorr1 F v x) + k ^ 2 * bpow radix2 (-39) /\
  B2R (@GetCorr2 F v x' y') <= B2R (@GetCorr2 F v x y) + k ^ 2 * bpow radix2 (-39) /\
  B2R (@GetCorr3 F v x' y' z') <= B2R (@GetCorr3 F v x y z) + k ^ 2 * bpow radix2 (-39).
Proof.
  intros X Y Z X' Y' Z' C EX EY EZ. destruct (real_create s main perp depth azi dp power v HF) as (w & W).
  destruct (ord_arg main perp M MP) as (_ & _ & NZ2). destruct (ord_arg main depth M MD) as (_ & _ & NZ3).
  destruct (c36_3d _ _ _ _ _ _ _ w W (mod_pos _ (ord_mod _ M)) NZ2 NZ3 ltac:(lra)) as (_ & _ & _ & U).
  destruct (c77_rotated m ok T ER PR s main perp depth azi dp power x y z k v w HF W FP P M MP MD AA AD X Y Z K KR) as ((A1 & B1) & (A2 & B2) & (A3 & B3)).
  destruct (c77_rotated m ok T ER PR s main perp depth azi dp power x' y' z' k v w HF W FP P M MP MD AA AD X' Y' Z' K KR) as ((A1' & B1') & (A2' & B2') & (A3' & B3')).
  rewrite corr1_2, corr2_3 in B1, B1'. rewrite corr2_3 in B2, B2'. rewrite EX in B1', B2', B3'. rewrite EY in B2', B3'. rewrite EZ in B3'.
  pose proof (U c (B2R x) 0 0 C) as U1. pose proof (U c (B2R x) (B2R y) 0 C) as U2. pose proof (U c (B2R x) (B2R y) (B2R z) C) as U3. rewrite !Rmult_0_r in U1. rewrite Rmult_0_r in U2.
  apply Rabs_le_inv in B1, B2, B3, B1', B2', B3'. assert (E : k ^ 2 * bpow radix2 (-39) = 2 * (k ^ 2 * bpow radix2 (-40))) by (change (-39)%Z with (-40 + 1)%Z; rewrite bp1; ring). rewrite E.
  split; [|split]; lra.
Qed.
End Args.
End Api.
