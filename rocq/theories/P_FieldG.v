(** The error of a simulated field in double precision, for all dimensions at once. *)
From Coq Require Import ZArith List Bool Lia Reals Lra Psatz.
From Flocq Require Import Core IEEE754.BinarySingleNaN.
From Verif Require Import Base Arith RealArith FloatArith M_Variogram M_Grid M_CovGrid M_Fft M_Field S_CovGrid S_Random S_CorrF P_NormF P_CorrF P_CorrF2 P_Accur P_Accur2
  P_Base P_Grid P_Bounds P_Overrun P_Dft P_DftList P_DftField P_Euclid P_FieldE S_FieldF P_FieldF.
Import ListNotations.
Open Scope R_scope.

Lemma qi_surj T n q : (0 < n)%nat -> (q < dN T * (n / 2 + 1))%nat -> exists k, (k < dN (rows T n))%nat /\ qi T n k = q.
Proof.
  intros Hn Hq. set (h := (n / 2 + 1)%nat) in *. destruct (div_lt_flat _ _ _ Hq) as [A B].
  assert (B' : (q mod h < n)%nat) by (apply (half_lt' n Hn); exact B).
  exists (q / h * n + q mod h)%nat. split; [apply flat_lt; auto|]. unfold qi. destruct (flat_div n (q / h) (q mod h) B') as [E1 E2]. rewrite E2.
  destruct (Nat.ltb_spec (q mod h) (n / 2 + 1)) as [_|L]; [|exfalso; unfold h in *; lia]. unfold stored. rewrite E1, E2. fold h. rewrite (Nat.div_mod q h) at 3 by (unfold h; lia). lia.
Qed.
Lemma cvals_nth X q : nth q (cvals X) (0, 0) = (B2R (fst (nth q X (zero64, zero64))), B2R (snd (nth q X (zero64, zero64)))).
Proof. unfold cvals. change (0, 0) with ((fun z : b64 * b64 => (B2R (fst z), B2R (snd z))) (zero64, zero64)). rewrite map_nth. reflexivity. Qed.
Lemma vals_nth x j : nthR (vals x) j = B2R (nth j x zero64).
Proof. unfold nthR, vals. change 0 with (B2R zero64). apply map_nth. Qed.

Section G.
Variable T : dsys.
Variable n : nat.
Hypothesis GT : good T.
Hypothesis Hn : (0 < n)%nat.
Notation S := (rows T n).
Notation N := (dN S).
Notation h := (n / 2 + 1)%nat.
Notation r := (sqrt (INR N)).
Variables (m : libm) (f : fftlib) (o : Z -> outcome Z) (cl : Z -> Z -> Z).
Notation L := (Flib m f o cl).
Variables (eps dl : R) (M : nat).
Variables (fwd : list b64 -> list (b64 * b64)) (bwd : list (b64 * b64) -> list b64).
Hypothesis HN : (Z.of_nat N < 2 ^ 53)%Z.
Hypothesis HM : (dN T * h <= M)%nat.
Hypothesis He : bpow radix2 (-53) <= eps.
Hypothesis Hd : 0 <= dl.
Hypothesis Hs : eps + dl <= 1 / 1000000.
Hypothesis HF : forall x, length x = N -> all_finite x -> rn N (nthR (vals x)) <= huge ->
  all_cfinite (fwd x) /\ length (fwd x) = (dN T * h)%nat /\ fd T n (cvals (fwd x)) (gr2c T n (vals x)) <= eps * (r * rn N (nthR (vals x))) + tiny.
Hypothesis HB : forall X, length X = M -> all_cfinite X -> fn T n (cvals X) <= huge ->
  all_finite (bwd X) /\ length (bwd X) = N /\ rn N (fun j => nthR (vals (bwd X)) j - nthR (gc2r T n (cvals X)) j) <= eps * (r * fn T n (cvals X)) + tiny.

Variables (c : list R) (cF noise xF : list b64) (X : list (b64 * b64)).
Notation C := (fwd cF).
Notation W := (fwd xF).
Hypothesis Hc : forall j, (j < N)%nat -> Rabs (nthR c j) <= 1.
Hypothesis HcF : length cF = N /\ all_finite cF /\ forall j, (j < N)%nat -> Rabs (nthR (vals cF) j - nthR c j) <= dl.
Hypothesis Hno : length noise = N /\ all_finite noise /\ rn N (nthR (vals noise)) <= bpow radix2 100.
Hypothesis HxF : length xF = N /\ forall j, (j < N)%nat ->
  nth j xF zero64 = Bm (@fwd_scale L N) (nth j noise zero64) \/ nth j xF zero64 = Bm (nth j noise zero64) (@fwd_scale L N).
Hypothesis HX : length X = M /\ forall i, (i < M)%nat -> exists q, (q < dN T * h)%nat /\ ((i < dN T * h)%nat -> q = i) /\
  (nth i X (zero64, zero64) = @cmul L (@clip_sqrt L (nth q C (zero64, zero64))) (nth q W (zero64, zero64)) \/
   nth i X (zero64, zero64) = @cmul L (nth q W (zero64, zero64)) (@clip_sqrt L (nth q C (zero64, zero64)))).
Notation nu := (rn N (nthR (vals noise))).
Notation e := (sqrt (eps + dl)).

Lemma Np : (0 < N)%nat. Proof. apply (g_pos S). apply rows_good; auto. Qed.
Lemma He0 : 0 < eps. Proof. pose proof (bpow_gt_0 radix2 (-53)). lra. Qed.
Lemma ee : e * e = eps + dl. Proof. apply sqrt_sqrt. pose proof He0. lra. Qed.
Lemma e0 : 0 < e. Proof. apply sqrt_lt_R0. pose proof He0. lra. Qed.
Lemma e1 : e <= 1 / 1000.
Proof. rewrite <- (sqrt_square (1 / 1000)) by lra. apply sqrt_le_1; pose proof He0; lra. Qed.
Lemma tnt : 0 <= tn <= tiny. Proof. split; [apply bpow_ge_0|apply bpow_le; lia]. Qed.
Lemma tiny_eps : tiny <= eps / 1000.
Proof.
  assert (A : bpow radix2 10 * tiny <= eps). { unfold tiny. rewrite <- bpow_plus. apply Rle_trans with (2 := He). apply bpow_le. lia. }
  change (bpow radix2 10) with 1024 in A. assert (0 < tiny) by apply bpow_gt_0. lra.
Qed.
Lemma u0 : 0 < u53. Proof. apply bpow_gt_0. Qed.
Lemma Nbig : INR N <= bpow radix2 53.
Proof. rewrite INR_IZR_INZ. change (bpow radix2 53) with (IZR (2 ^ 53)). apply IZR_le. lia. Qed.
Lemma rbig : r <= bpow radix2 27.
Proof.
  apply Rle_trans with (sqrt (bpow radix2 54)). - apply sqrt_le_1; [apply pos_INR|apply bpow_ge_0|]. apply Rle_trans with (1 := Nbig). apply bpow_le. lia.
  - change 54%Z with (27 + 27)%Z. rewrite bpow_plus, sqrt_square by apply bpow_ge_0. lra.
Qed.
Lemma NT : INR N * tiny <= 1. 
Proof.
  apply Rle_trans with (bpow radix2 53 * bpow radix2 (-900)); [apply Rmult_le_compat_r; [apply bpow_ge_0|apply Nbig]|]. rewrite <- bpow_plus. change 1 with (bpow radix2 0). apply bpow_le. lia.
Qed.
Lemma le_huge a : a <= bpow radix2 28 -> a <= huge. Proof. intros H. apply Rle_trans with (1 := H). apply bpow_le. lia. Qed.

(** covariances *)
Lemma cF_small : rn N (nthR (vals cF)) <= huge.
Proof.
  destruct HcF as (_ & _ & H). pose proof (cF_norm T n dl c (vals cF) Hc H) as A. apply le_huge. apply Rle_trans with (1 := A). pose proof rbig. pose proof (sqrt_pos (INR N)). pose proof He0.
  change (bpow radix2 28) with (bpow radix2 (27 + 1)). rewrite <- bp2. nra.
Qed.
Lemma CF_ok : all_cfinite C /\ length C = (dN T * h)%nat /\ fd T n (cvals C) (gr2c T n (vals cF)) <= eps * (r * rn N (nthR (vals cF))) + tiny.
Proof. destruct HcF as (A & B & _). apply HF; auto. apply cF_small. Qed.
(** noise *)
Lemma noise_nth j : (j < N)%nat -> fin (nth j noise zero64) = true /\ Rabs (B2R (nth j noise zero64)) <= bpow radix2 100.
Proof.
  intros Hj. destruct Hno as (A & B & D). split; [apply B, nth_In; lia|]. rewrite <- vals_nth. apply Rle_trans with (2 := D). apply rn_coord; auto.
Qed.
Lemma xF_ok : all_finite xF /\ forall j, (j < N)%nat -> Rabs (nthR (vals xF) j - nthR (vals noise) j * / r) <= 8 * u53 * (Rabs (nthR (vals noise) j) * / r) + tn.
Proof.
  assert (Q : forall j, (j < N)%nat -> fin (nth j xF zero64) = true /\ Rabs (nthR (vals xF) j - nthR (vals noise) j * / r) <= 8 * u53 * (Rabs (nthR (vals noise) j) * / r) + tn).
  { intros j Hj. destruct HxF as [_ A]. specialize (A j Hj). destruct (noise_nth j Hj) as [F1 B1]. rewrite !vals_nth. eapply (scaled_err m f o cl N (nth j noise zero64)); auto; [apply Np|].
    apply Rle_trans with (1 := B1). apply bpow_le. lia. }
  split; [|intros; apply Q; auto]. intros a Ha. apply (In_nth _ _ zero64) in Ha as (j & Hj & <-). apply Q. destruct HxF. lia.
Qed.
Lemma nu0 : 0 <= nu. Proof. apply rn_nn. Qed.
Lemma r_ge1 : 1 <= r. Proof. apply (r1 T n GT Hn). Qed.
Lemma p101 : 2 * bpow radix2 100 + 1 <= bpow radix2 102.
Proof. change 102%Z with (100 + 2)%Z. rewrite bpow_plus. change (bpow radix2 2) with 4. assert (1 <= bpow radix2 100) by (change 1 with (bpow radix2 0); apply bpow_le; lia). lra. Qed.
Lemma xF_small : rn N (nthR (vals xF)) <= huge.
Proof.
  destruct xF_ok as [_ A]. pose proof (xF_norm T n GT Hn e u53 tiny tn e0 e1 u0 tnt (vals noise) (vals xF) A ltac:(unfold vals; rewrite map_length; apply Hno)) as B.
  pose proof r_ge1. pose proof (rn_nn N (nthR (vals xF))). pose proof u53_small. pose proof nu0. pose proof NT. pose proof tnt. destruct Hno as (_ & _ & D). pose proof p101.
  assert (INR N * tn <= INR N * tiny) by (apply Rmult_le_compat_l; [apply pos_INR|lra]).
  assert (1 * rn N (nthR (vals xF)) <= r * rn N (nthR (vals xF))) by (apply Rmult_le_compat_r; lra).
  assert ((1 + 8 * u53) * nu <= 2 * nu) by (apply Rmult_le_compat_r; lra).
  apply Rle_trans with (bpow radix2 102); [lra|]. apply bpow_le. lia.
Qed.
Lemma WF_ok : all_cfinite W /\ length W = (dN T * h)%nat /\ fd T n (cvals W) (gr2c T n (vals xF)) <= eps * (r * rn N (nthR (vals xF))) + tiny.
Proof. destruct HxF as [A _]. apply HF; auto; [apply xF_ok|apply xF_small]. Qed.
Lemma lenv : length (vals noise) = N. Proof. unfold vals. rewrite map_length. apply Hno. Qed.
Lemma stB : fd T n (cvals W) (gr2c T n (map (fun a => a * / r) (vals noise))) <= 10 * eps * nu + 3 * (INR N * tiny) /\ fn T n (cvals W) <= 101 / 100 * nu + 3 * (INR N * tiny).
Proof.
  destruct WF_ok as (_ & _ & A). destruct xF_ok as [_ B].
  split.
  - apply (stageB T n GT Hn eps dl e u53 tiny tn He0 Hd e0 ee e1 u0 He tnt (vals noise) (vals xF)); auto. apply lenv.
  - apply (WF_norm T n GT Hn eps dl e u53 tiny tn He0 Hd e0 ee e1 u0 He tnt (vals noise) (vals xF)); auto. apply lenv.
Qed.
(** filter and product *)
Lemma entry q : (q < dN T * h)%nat -> forall p, p = @cmul L (@clip_sqrt L (nth q C (zero64, zero64))) (nth q W (zero64, zero64)) \/
   p = @cmul L (nth q W (zero64, zero64)) (@clip_sqrt L (nth q C (zero64, zero64))) ->
  let s := fst (@clip_sqrt L (nth q C (zero64, zero64))) in let w := nth q W (zero64, zero64) in
  Rabs (B2R s - sqrt (Rmax (fst (nth q (cvals C) (0, 0))) 0)) <= u53 * sqrt (Rmax (fst (nth q (cvals C) (0, 0))) 0) /\
  fin (fst p) = true /\ fin (snd p) = true /\
  Rabs (B2R (fst p) - B2R s * B2R (fst w)) <= u53 * Rabs (B2R s * B2R (fst w)) + tn /\
  Rabs (B2R (snd p) - B2R s * B2R (snd w)) <= u53 * Rabs (B2R s * B2R (snd w)) + tn.
Proof.
  intros Hq p Hp s w. destruct CF_ok as (FC & LC & EC). destruct WF_ok as (FW & LW & EW). destruct stB as [_ NW].
  assert (Fc : fin (fst (nth q C (zero64, zero64))) = true) by (apply FC, nth_In; lia).
  assert (Fw : fin (fst w) = true /\ fin (snd w) = true) by (apply FW, nth_In; lia). destruct Fw as [Fw1 Fw2].
  destruct (clip_err m f o cl _ Fc) as (s' & E & Fs & Es). assert (Es' : s = s') by (unfold s; rewrite E; reflexivity).
  rewrite cvals_nth. cbn [fst snd]. rewrite <- Es' in *. split; [exact Es|].
  destruct (qi_surj T n q Hn Hq) as (k & Hk & Eq).
  assert (Bw : Rabs (B2R (fst w)) <= bpow radix2 102 /\ Rabs (B2R (snd w)) <= bpow radix2 102).
  { rewrite fn_qi in NW. destruct (cn_coord N (fun k => nth (qi T n k) (cvals W) (0, 0)) k Hk) as [A B]. cbv beta in A, B. rewrite Eq in A, B.
    rewrite cvals_nth in A, B. cbn [fst snd] in A, B. fold w in A, B. pose proof NT. pose proof p101. destruct Hno as (_ & _ & D).
    assert (P4 : 4 <= bpow radix2 100) by (change 4 with (bpow radix2 2); apply bpow_le; lia). lra. }
  destruct HcF as (_ & _ & HcF').
  destruct (filter_err T n GT Hn eps dl e u53 tiny tn He0 Hd e0 ee e1 u0 He tnt tiny_eps c (vals cF) (cvals C) Hc HcF' EC k (B2R s) Hk) as [_ Bs].
  { rewrite Eq, cvals_nth. cbn [fst snd]. exact Es. }
  assert (Bs' : Rabs (B2R s) <= bpow radix2 28). { pose proof rbig. apply Rle_trans with (1 := Bs). change 28%Z with (27 + 1)%Z. rewrite <- bp2. pose proof (bpow_ge_0 radix2 27). lra. }
  assert (Tp : forall a, Rabs a <= bpow radix2 102 -> Rabs (B2R s * a) <= top).
  { intros a Ha. rewrite Rabs_mult. apply Rle_trans with (bpow radix2 28 * bpow radix2 102); [apply Rmult_le_compat; auto using Rabs_pos|]. rewrite <- bpow_plus. apply bpow_le. lia. }
  destruct w as [wa wb] eqn:Ew. cbn [fst snd] in *. apply (cmul_err m f o cl s wa wb p); auto; try (apply Tp; tauto).
  rewrite E in Hp. fold w in Hp. rewrite Ew in Hp. exact Hp.
Qed.
Definition sF (k : nat) : R := B2R (fst (@clip_sqrt L (nth (qi T n k) C (zero64, zero64)))).
Lemma X_entry i : (i < M)%nat -> fin (fst (nth i X (zero64, zero64))) = true /\ fin (snd (nth i X (zero64, zero64))) = true.
Proof. intros Hi. destruct HX as [_ A]. destruct (A i Hi) as (q & Hq & _ & E). destruct (entry q Hq _ E) as (_ & F1 & F2 & _). split; assumption. Qed.
Lemma X_fin : all_cfinite X.
Proof. intros z Hz. apply (In_nth _ _ (zero64, zero64)) in Hz as (i & Hi & <-). apply X_entry. destruct HX as [E _]. rewrite <- E. exact Hi. Qed.
Lemma X_qi k : (k < N)%nat ->
  Rabs (sF k - sqrt (Rmax (fst (nth (qi T n k) (cvals C) (0, 0))) 0)) <= u53 * sqrt (Rmax (fst (nth (qi T n k) (cvals C) (0, 0))) 0) /\
  Rabs (fst (nth (qi T n k) (cvals X) (0, 0)) - sF k * fst (nth (qi T n k) (cvals W) (0, 0))) <= u53 * Rabs (sF k * fst (nth (qi T n k) (cvals W) (0, 0))) + tn /\
  Rabs (snd (nth (qi T n k) (cvals X) (0, 0)) - sF k * snd (nth (qi T n k) (cvals W) (0, 0))) <= u53 * Rabs (sF k * snd (nth (qi T n k) (cvals W) (0, 0))) + tn.
Proof.
  intros Hk. pose proof (qi_lt T n GT Hn k Hk) as Hq. destruct HX as [_ A]. destruct (A (qi T n k) ltac:(lia)) as (q & Hq' & Eq & E). rewrite (Eq Hq) in *.
  destruct (entry _ Hq _ E) as (A1 & _ & _ & A2 & A3). rewrite !cvals_nth in *. cbn [fst snd] in *. unfold sF. split; [exact A1|]. split; [exact A2|exact A3].
Qed.
Lemma sF_ok k : (k < N)%nat -> Rabs (sF k - amp S (nthR c) k) <= 102 / 100 * (e * r) /\ Rabs (sF k) <= 11 / 10 * r.
Proof.
  intros Hk. destruct CF_ok as (_ & _ & EC). destruct HcF as (_ & _ & HcF').
  apply (filter_err T n GT Hn eps dl e u53 tiny tn He0 Hd e0 ee e1 u0 He tnt tiny_eps c (vals cF) (cvals C) Hc HcF' EC k (sF k) Hk). apply X_qi; auto.
Qed.
Lemma X_err k : (k < N)%nat ->
  Rabs (fst (nth (qi T n k) (cvals X) (0, 0)) - sF k * fst (nth (qi T n k) (cvals W) (0, 0))) <= u53 * Rabs (sF k * fst (nth (qi T n k) (cvals W) (0, 0))) + tn /\
  Rabs (snd (nth (qi T n k) (cvals X) (0, 0)) - sF k * snd (nth (qi T n k) (cvals W) (0, 0))) <= u53 * Rabs (sF k * snd (nth (qi T n k) (cvals W) (0, 0))) + tn.
Proof. intros Hk. destruct (X_qi k Hk) as (_ & A & B). split; assumption. Qed.
Lemma big100 : bpow radix2 100 <= huge. Proof. apply bpow_le. lia. Qed.
Lemma X_small : fn T n (cvals X) <= huge.
Proof.
  destruct stB as [B1 B2].
  pose proof (XF_norm T n GT Hn eps dl e u53 tiny tn He0 Hd e0 ee e1 u0 He tnt c (vals noise) (cvals W) (cvals X) sF Hc sF_ok B1 B2 X_err lenv) as A.
  apply Rle_trans with (1 := A). destruct Hno as (_ & _ & D). pose proof rbig as RB. pose proof r_ge1 as R1. pose proof nu0. pose proof NT.
  assert (Q1 : r * nu <= bpow radix2 27 * bpow radix2 100) by (apply Rmult_le_compat; lra). rewrite <- bpow_plus in Q1.
  assert (Q2 : r * (INR N * tiny) <= bpow radix2 27 * 1). { apply Rmult_le_compat; try lra. apply Rmult_le_pos; [apply pos_INR|apply bpow_ge_0]. }
  assert (Q3 : 16 * bpow radix2 127 <= huge) by (change 16 with (bpow radix2 4); rewrite <- bpow_plus; apply bpow_le; lia).
  assert (Q4 : bpow radix2 27 <= bpow radix2 127) by (apply bpow_le; lia). change (27 + 100)%Z with 127%Z in Q1. pose proof (bpow_gt_0 radix2 27). lra.
Qed.
Lemma bwd_ok : all_finite (bwd X) /\ length (bwd X) = N /\ rn N (fun j => nthR (vals (bwd X)) j - nthR (gc2r T n (cvals X)) j) <= eps * (r * fn T n (cvals X)) + tiny.
Proof. apply HB; [apply HX|apply X_fin|apply X_small]. Qed.
Notation out := (map (fun x : b64 => Bm x (@fwd_scale L N)) (bwd X)).
Lemma y_small : rn N (nthR (vals (bwd X))) <= bpow radix2 800.
Proof.
  destruct stB as [B1 B2]. destruct bwd_ok as (_ & _ & E).
  pose proof (yF_norm T n GT Hn eps dl e u53 tiny tn He0 Hd e0 ee e1 u0 He tnt c (vals noise) (cvals W) (cvals X) sF Hc sF_ok B1 B2 X_err lenv (vals (bwd X)) E) as A.
  apply Rle_trans with (1 := A). destruct Hno as (_ & _ & D). pose proof Nbig as NB. pose proof (pos_INR N). pose proof nu0. pose proof NT.
  assert (Q1 : INR N * nu <= bpow radix2 53 * bpow radix2 100) by (apply Rmult_le_compat; lra). rewrite <- bpow_plus in Q1.
  assert (Q2 : INR N * (INR N * tiny) <= bpow radix2 53 * 1). { apply Rmult_le_compat; try lra. apply Rmult_le_pos; [apply pos_INR|apply bpow_ge_0]. }
  assert (Q3 : 16 * bpow radix2 153 <= bpow radix2 800) by (change 16 with (bpow radix2 4); rewrite <- bpow_plus; apply bpow_le; lia).
  assert (Q4 : bpow radix2 53 <= bpow radix2 153) by (apply bpow_le; lia). change (53 + 100)%Z with 153%Z in Q1. pose proof (bpow_gt_0 radix2 53). lra.
Qed.
Lemma out_err : all_finite out /\ forall j, (j < N)%nat -> Rabs (nthR (vals out) j - nthR (vals (bwd X)) j * / r) <= 8 * u53 * (Rabs (nthR (vals (bwd X)) j) * / r) + tn.
Proof.
  destruct bwd_ok as (F & Ln & _).
  assert (Q : forall j, (j < N)%nat -> fin (nth j out zero64) = true /\ Rabs (nthR (vals out) j - nthR (vals (bwd X)) j * / r) <= 8 * u53 * (Rabs (nthR (vals (bwd X)) j) * / r) + tn).
  { intros j Hj. rewrite !vals_nth. rewrite (nth_map' _ _ j zero64 zero64) by lia.
    apply (scaled_err m f o cl N (nth j (bwd X) zero64)); auto; [apply Np|apply F, nth_In; lia|].
    rewrite <- vals_nth. apply Rle_trans with (2 := y_small). apply rn_coord; auto. }
  split; [|intros; apply Q; auto]. intros a Ha. apply (In_nth _ _ zero64) in Ha as (j & Hj & <-). rewrite map_length in Hj. apply Q. lia.
Qed.
Theorem field_err : all_finite out /\ length out = N /\
  rn N (fun j => nthR (vals out) j - rsum N (fun l => ker S (amp S (nthR c)) j l * nth l (vals noise) 0)) <= 2 * (sqrt (INR N * (eps + dl)) * nu) + bpow radix2 (-700).
Proof.
  destruct out_err as [F E]. destruct bwd_ok as (_ & Ln & EB). destruct stB as [B1 B2]. split; [exact F|]. split; [rewrite map_length; exact Ln|].
  pose proof (stageE T n GT Hn eps dl e u53 tiny tn He0 Hd e0 ee e1 u0 He tnt c (vals noise) (cvals W) (cvals X) sF Hc sF_ok B1 B2 X_err lenv (vals (bwd X)) (vals out) EB E) as A.
  eapply Rle_trans; [|apply Rle_trans with (1 := A)].
  - right. apply rn_ext. intros j Hj. f_equal. symmetry. apply (field_y T n GT Hn c (vals noise)); auto. apply lenv.
  - apply Rplus_le_compat.
    + rewrite sqrt_mult by (try apply pos_INR; pose proof He0; lra). right. ring.
    + apply Rle_trans with (bpow radix2 4 * (bpow radix2 53 * (bpow radix2 53 * tiny))).
      * pose proof Nbig as NB. pose proof (pos_INR N). assert (0 < tiny) by apply bpow_gt_0.
        assert (Q1 : INR N * tiny <= bpow radix2 53 * tiny) by (apply Rmult_le_compat_r; lra).
        assert (Q2 : INR N * (INR N * tiny) <= bpow radix2 53 * (bpow radix2 53 * tiny)) by (apply Rmult_le_compat; auto; apply Rmult_le_pos; lra).
        change (bpow radix2 4) with 16. assert (0 <= bpow radix2 53 * (bpow radix2 53 * tiny)) by (repeat apply Rmult_le_pos; try apply bpow_ge_0; lra). lra.
      * unfold tiny. rewrite <- !bpow_plus. apply bpow_le. lia.
Qed.
End G.
