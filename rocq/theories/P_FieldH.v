(** The simulated fields of one, two and three dimensions in double precision. *)
From Coq Require Import ZArith List Bool Lia Reals Lra Psatz.
From Flocq Require Import Core IEEE754.BinarySingleNaN.
From Verif Require Import Base Arith RealArith FloatArith M_Variogram M_Grid M_CovGrid M_Fft M_Field S_CovGrid S_Random S_CorrF P_NormF P_CorrF P_CorrF2 P_Accur P_Accur2
  P_Base P_Grid P_Bounds P_Overrun P_Dft P_DftList P_DftField P_Euclid P_FieldE S_FieldF P_FieldF P_FieldG.
Import ListNotations.
Open Scope R_scope.

(** ** norms of lists *)
Lemma rsum_prefix n k f : (n <= k)%nat -> (forall i, 0 <= f i) -> rsum n f <= rsum k f.
Proof.
  intros H P. replace k with (n + (k - n))%nat by lia. rewrite rsum_app. pose proof (rsum_nonneg (k - n) (fun i => f (n + i)%nat) ltac:(intros; apply P)). lra.
Qed.
Lemma rn_sqrt N f : rn N f = sqrt (rsum N (fun j => f j ^ 2)).
Proof. unfold rn, cn, cip, re. f_equal. apply rsum_ext. intros. cbn [fst snd]. ring. Qed.
Lemma len_rn x N : length x = N -> len x = rn N (nthR x).
Proof. intros <-. rewrite rn_sqrt. reflexivity. Qed.
Lemma dist_rn x y N : length x = N -> dist x y = rn N (fun j => nthR x j - nthR y j).
Proof. intros <-. rewrite rn_sqrt. reflexivity. Qed.
Lemma cn_sqrt N f g : cn N (fun k => csub (f k) (g k)) = sqrt (rsum N (fun k => sq2 (f k) (g k))).
Proof. unfold cn, cip, csub, sq2. f_equal. apply rsum_ext. intros. cbn [fst snd]. ring. Qed.
Lemma gherm_nil T n k : gherm T n [] k = (0, 0) \/ gherm T n [] k = (0, - 0).
Proof. unfold gherm. destruct (_ <? _)%nat; [left|right]; [destruct (_ + _)%nat; reflexivity|]. unfold conj. destruct (_ + _)%nat; reflexivity. Qed.
Lemma fd_nil T n X : fd T n X [] = fn T n X.
Proof.
  unfold fd, fn. unfold cn, cip. f_equal. apply rsum_ext. intros k Hk. unfold csub. cbn [fst snd]. destruct (gherm_nil T n k) as [-> | ->]; cbn [fst snd]; ring.
Qed.
Lemma herm1_g n X k : (0 < n)%nat -> (k < n)%nat -> gherm (cyc 1) n X k = herm1 n X k.
Proof. intros Hn Hk. unfold gherm, herm1. rewrite (Nat.mod_small k n), (Nat.div_small k n) by auto. cbn [cyc dng]. rewrite Nat.mod_1_r. reflexivity. Qed.
Lemma herm2_g n0 n1 X a b : (b < n1)%nat -> gherm (cyc n0) n1 X (a * n1 + b) = herm2 n0 n1 X a b.
Proof. intros Hb. unfold gherm, herm2. destruct (flat_div n1 a b Hb) as [-> ->]. cbn [cyc dng]. reflexivity. Qed.
Lemma herm3_g n0 n1 n2 X a b c : (b < n1)%nat -> (c < n2)%nat -> gherm (prod_sys (cyc n0) (cyc n1)) n2 X ((a * n1 + b) * n2 + c) = herm3 n0 n1 n2 X a b c.
Proof.
  intros Hb Hc. unfold gherm, herm3. destruct (flat_div n2 (a * n1 + b) c Hc) as [-> ->]. cbn [prod_sys cyc dng dN]. destruct (flat_div n1 a b Hb) as [-> ->]. reflexivity.
Qed.
Lemma sdist1_g n X Y : (0 < n)%nat -> sdist1 n X Y = fd (cyc 1) n X Y.
Proof. intros Hn. unfold sdist1, fd. rewrite cn_sqrt. fold (sys1 n). rewrite dN1. f_equal. apply rsum_ext. intros k Hk. rewrite !herm1_g by auto. reflexivity. Qed.
Lemma sdist2_g n0 n1 X Y : sdist2 n0 n1 X Y = fd (cyc n0) n1 X Y.
Proof. unfold sdist2, fd. rewrite cn_sqrt. fold (sys2 n0 n1). rewrite sumf2. f_equal. apply rsum_ext; intros a Ha; apply rsum_ext; intros b Hb. rewrite !herm2_g by auto. reflexivity. Qed.
Lemma sdist3_g n0 n1 n2 X Y : sdist3 n0 n1 n2 X Y = fd (prod_sys (cyc n0) (cyc n1)) n2 X Y.
Proof.
  unfold sdist3, fd. rewrite cn_sqrt. fold (sys3 n0 n1 n2). rewrite sumf3. f_equal.
  apply rsum_ext; intros a Ha; apply rsum_ext; intros b Hb; apply rsum_ext; intros c Hc. rewrite !herm3_g by auto. reflexivity.
Qed.
Lemma vlen (x : list b64) : length (vals x) = length x. Proof. apply map_length. Qed.

Section F.
Variables (m : libm) (f : fftlib) (o : Z -> outcome Z) (cl : Z -> Z -> Z) (o' : Z -> outcome Z) (cl' : Z -> Z -> Z).
Notation L := (Flib m f o cl).
Notation L' := (Rlib o' cl').
Variables (eps dl : R).
Hypothesis HA : accurate eps f.
Hypothesis HL : fft_sizes L.
Hypothesis He : bpow radix2 (-53) <= eps.
Hypothesis Hd : 0 <= dl.
Hypothesis Hs : eps + dl <= 1 / 1000000.
Definition bound (N : nat) (noise : list b64) : R := 2 * (sqrt (INR N * (eps + dl)) * len (vals noise)) + bpow radix2 (-700).

(** the library in the form used by [field_err] *)
Lemma fwd1 n : (0 < n)%nat -> (Z.of_nat n < 2 ^ 53)%Z -> forall x, length x = dN (sys1 n) -> all_finite x -> rn (dN (sys1 n)) (nthR (vals x)) <= huge ->
  all_cfinite (f_r2c1 f n x) /\ length (f_r2c1 f n x) = (dN (cyc 1) * (n / 2 + 1))%nat /\
  fd (cyc 1) n (cvals (f_r2c1 f n x)) (gr2c (cyc 1) n (vals x)) <= eps * (sqrt (INR (dN (sys1 n))) * rn (dN (sys1 n)) (nthR (vals x))) + tiny.
Proof.
  intros Hn HN x. rewrite dN1. intros Hx F B. rewrite <- (len_rn (vals x) n) in * by (rewrite vlen; auto). destruct (a_r1 _ _ HA n x Hn HN Hx F B) as [A1 A2].
  rewrite sdist1_g, r2c1_g in A2 by auto. split; [exact A1|]. split; [|exact A2]. cbn [cyc dN]. rewrite Nat.mul_1_l. destruct HL as (H & _). apply (H n x).
Qed.
Lemma bwd1 n : (0 < n)%nat -> (Z.of_nat n < 2 ^ 53)%Z -> forall X, length X = n -> all_cfinite X -> fn (cyc 1) n (cvals X) <= huge ->
  all_finite (f_c2r1 f n X) /\ length (f_c2r1 f n X) = dN (sys1 n) /\
  rn (dN (sys1 n)) (fun j => nthR (vals (f_c2r1 f n X)) j - nthR (gc2r (cyc 1) n (cvals X)) j) <= eps * (sqrt (INR (dN (sys1 n))) * fn (cyc 1) n (cvals X)) + tiny.
Proof.
  intros Hn HN X HX F B. rewrite dN1. rewrite <- fd_nil, <- sdist1_g in * by auto. destruct (a_c1 _ _ HA n X Hn HN HX F B) as [A1 A2].
  assert (E : length (f_c2r1 f n X) = n) by (destruct HL as (_ & H & _); apply (H n X)).
  rewrite (dist_rn _ _ n) in A2 by (rewrite vlen; exact E). rewrite c2r1_g in A2 by auto. split; [exact A1|]. split; [exact E|exact A2].
Qed.
Lemma fwd2 n0 n1 : (0 < n0)%nat -> (0 < n1)%nat -> (Z.of_nat (n0 * n1) < 2 ^ 53)%Z -> forall x, length x = dN (sys2 n0 n1) -> all_finite x -> rn (dN (sys2 n0 n1)) (nthR (vals x)) <= huge ->
  all_cfinite (f_r2c2 f n0 n1 x) /\ length (f_r2c2 f n0 n1 x) = (dN (cyc n0) * (n1 / 2 + 1))%nat /\
  fd (cyc n0) n1 (cvals (f_r2c2 f n0 n1 x)) (gr2c (cyc n0) n1 (vals x)) <= eps * (sqrt (INR (dN (sys2 n0 n1))) * rn (dN (sys2 n0 n1)) (nthR (vals x))) + tiny.
Proof.
  intros H0 H1 HN x. rewrite dN2. intros Hx F B. rewrite <- (len_rn (vals x) (n0 * n1)) in * by (rewrite vlen; auto). destruct (a_r2 _ _ HA n0 n1 x ltac:(nia) HN Hx F B) as [A1 A2].
  rewrite sdist2_g, r2c2_g in A2 by auto. split; [exact A1|]. split; [|exact A2]. destruct HL as (_ & _ & H & _). apply (H n0 n1 x).
Qed.
Lemma bwd2 n0 n1 : (0 < n0)%nat -> (0 < n1)%nat -> (Z.of_nat (n0 * n1) < 2 ^ 53)%Z -> forall X, length X = (n0 * (n1 / 2 + 1))%nat -> all_cfinite X -> fn (cyc n0) n1 (cvals X) <= huge ->
  all_finite (f_c2r2 f n0 n1 X) /\ length (f_c2r2 f n0 n1 X) = dN (sys2 n0 n1) /\
  rn (dN (sys2 n0 n1)) (fun j => nthR (vals (f_c2r2 f n0 n1 X)) j - nthR (gc2r (cyc n0) n1 (cvals X)) j) <= eps * (sqrt (INR (dN (sys2 n0 n1))) * fn (cyc n0) n1 (cvals X)) + tiny.
Proof.
  intros H0 H1 HN X HX F B. rewrite dN2. rewrite <- fd_nil, <- sdist2_g in * by auto. destruct (a_c2 _ _ HA n0 n1 X ltac:(nia) HN HX F B) as [A1 A2].
  assert (E : length (f_c2r2 f n0 n1 X) = (n0 * n1)%nat) by (destruct HL as (_ & _ & _ & H & _); apply (H n0 n1 X)).
  rewrite (dist_rn _ _ (n0 * n1)) in A2 by (rewrite vlen; exact E). rewrite c2r2_g in A2 by auto. split; [exact A1|]. split; [exact E|exact A2].
Qed.
Notation T3 n0 n1 := (prod_sys (cyc n0) (cyc n1)).
Lemma fwd3 n0 n1 n2 : (0 < n0)%nat -> (0 < n1)%nat -> (0 < n2)%nat -> (Z.of_nat (n0 * n1 * n2) < 2 ^ 53)%Z -> forall x, length x = dN (sys3 n0 n1 n2) -> all_finite x -> rn (dN (sys3 n0 n1 n2)) (nthR (vals x)) <= huge ->
  all_cfinite (f_r2c3 f n0 n1 n2 x) /\ length (f_r2c3 f n0 n1 n2 x) = (dN (T3 n0 n1) * (n2 / 2 + 1))%nat /\
  fd (T3 n0 n1) n2 (cvals (f_r2c3 f n0 n1 n2 x)) (gr2c (T3 n0 n1) n2 (vals x)) <= eps * (sqrt (INR (dN (sys3 n0 n1 n2))) * rn (dN (sys3 n0 n1 n2)) (nthR (vals x))) + tiny.
Proof.
  intros H0 H1 H2 HN x. rewrite dN3. intros Hx F B. rewrite <- (len_rn (vals x) (n0 * n1 * n2)) in * by (rewrite vlen; auto).
  destruct (a_r3 _ _ HA n0 n1 n2 x ltac:(repeat apply Nat.mul_pos_pos; auto) HN Hx F B) as [A1 A2].
  rewrite sdist3_g, r2c3_g in A2 by auto. split; [exact A1|]. split; [|exact A2]. destruct HL as (_ & _ & _ & _ & H & _). apply (H n0 n1 n2 x).
Qed.
Lemma bwd3 n0 n1 n2 : (0 < n0)%nat -> (0 < n1)%nat -> (0 < n2)%nat -> (Z.of_nat (n0 * n1 * n2) < 2 ^ 53)%Z -> forall X, length X = (n0 * n1 * (n2 / 2 + 1))%nat -> all_cfinite X -> fn (T3 n0 n1) n2 (cvals X) <= huge ->
  all_finite (f_c2r3 f n0 n1 n2 X) /\ length (f_c2r3 f n0 n1 n2 X) = dN (sys3 n0 n1 n2) /\
  rn (dN (sys3 n0 n1 n2)) (fun j => nthR (vals (f_c2r3 f n0 n1 n2 X)) j - nthR (gc2r (T3 n0 n1) n2 (cvals X)) j)
    <= eps * (sqrt (INR (dN (sys3 n0 n1 n2))) * fn (T3 n0 n1) n2 (cvals X)) + tiny.
Proof.
  intros H0 H1 H2 HN X HX F B. rewrite dN3. rewrite <- fd_nil, <- sdist3_g in * by auto. destruct (a_c3 _ _ HA n0 n1 n2 X ltac:(repeat apply Nat.mul_pos_pos; auto) HN HX F B) as [A1 A2].
  assert (E : length (f_c2r3 f n0 n1 n2 X) = (n0 * n1 * n2)%nat) by (destruct HL as (_ & _ & _ & _ & _ & H); apply (H n0 n1 n2 X)).
  rewrite (dist_rn _ _ (n0 * n1 * n2)) in A2 by (rewrite vlen; exact E). rewrite c2r3_g in A2 by auto. split; [exact A1|]. split; [exact E|exact A2].
Qed.

(** ** one dimension *)
Lemma fold_lt n k : (0 < n)%nat -> (k < n)%nat -> (fold_index n k < n / 2 + 1)%nat.
Proof. intros Hn Hk. unfold fold_index. destruct (Nat.leb_spec k (n / 2)); [lia|]. pose proof (Nat.div_mod n 2 ltac:(lia)). pose proof (Nat.mod_upper_bound n 2 ltac:(lia)). lia. Qed.
Lemma near_lists N (xF : list b64) (x : list R) : length xF = N -> length x = N -> near_table dl (Ok xF) (Ok x) ->
  all_finite xF /\ forall j, (j < N)%nat -> Rabs (nthR (vals xF) j - nthR x j) <= dl /\ Rabs (nthR x j) <= 1.
Proof. intros E1 E2 (a & b & A & B & F & H). injection A as <-. injection B as <-. split; [exact F|]. rewrite <- E2. exact H. Qed.

Lemma field1_near (v : variogram (Farith m)) (w : variogram Rarith) nx n dx sx dx' sx' (noise : list b64) : (0 < n)%nat -> (nx <= n)%nat -> (Z.of_nat n < 2 ^ 53)%Z ->
  length noise = n -> all_finite noise -> len (vals noise) <= bpow radix2 100 ->
  near_table dl (@FFTCovGrid1D (Farith m) v n dx sx) (@FFTCovGrid1D Rarith w n dx' sx') ->
  near_field (bound n noise) (@field1d L v nx n dx sx noise) (@field1d L' w nx n dx' sx' (vals noise)).
Proof.
  intros Hn Hx HN Hl Fn Bn HT. rewrite !cov1_ok in HT.
  apply (near_lists n) in HT as [FT HT]; try (rewrite map_length, seq_length; reflexivity).
  set (cF0 := map (@cov1_spec (Farith m) v n dx sx) (seq 0 n)) in *. set (c := map (@cov1_spec Rarith w n dx' sx') (seq 0 n)) in *.
  assert (Lc : @length b64 cF0 = n) by (unfold cF0; rewrite map_length, seq_length; reflexivity).
  destruct (field1d_lin o' cl' w nx n dx' sx' (vals noise) Hn Hx ltac:(rewrite vlen; auto)) as (out & E & Lo & Ho).
  set (cF := map (fun a : b64 => Bm (Flit 1 0) a) cF0).
  set (xF := map (fun a : b64 => Bm (@fwd_scale L n) a) noise).
  set (X := map (fun k => @cmul L (@clip_sqrt L (nth (fold_index n k) (f_r2c1 f n cF) (@czero L))) (nth (fold_index n k) (f_r2c1 f n xF) (@czero L))) (seq 0 n)).
  assert (EF : @field1d L v nx n dx sx noise = Ok (firstn nx (map (fun x : b64 => Bm x (@fwd_scale L n)) (f_c2r1 f n X)))) by (apply (field1d_ok HL); auto).
  assert (Fc : forall j, (j < n)%nat -> fin (nth j cF zero64) = true /\ B2R (nth j cF zero64) = B2R (nth j cF0 zero64)).
  { intros j Hj. unfold cF. rewrite (nth_map' _ _ j zero64 zero64) by lia. apply mult_1. apply FT, nth_In. change (j < @length b64 cF0)%nat. lia. }
  assert (LcF : length cF = n) by (unfold cF; rewrite map_length; exact Lc).
  assert (LxF : length xF = n) by (unfold xF; rewrite map_length; exact Hl).
  assert (LX : length X = n) by (unfold X; rewrite map_length, seq_length; reflexivity).
  assert (HH : (dN (cyc 1) * (n / 2 + 1) <= n)%nat \/ (n = 1)%nat) by (cbn [cyc dN]; destruct (half_le n Hn); lia).
  assert (HM : (dN (cyc 1) * (n / 2 + 1) <= n)%nat). { cbn [cyc dN]. destruct (half_le n Hn) as [?| ->]; [lia|]. cbn. lia. }
  assert (Hh : forall x k, (k < n)%nat -> (fold_index n k < length (f_r2c1 f n x))%nat) by (intros x k Hk; destruct HL as (H & _); change (f_r2c1 f n x) with (r2c1 L n x); rewrite H; apply fold_lt; auto).
  pose proof (field_err (cyc 1) n (cyc_good 1 ltac:(lia)) Hn m f o cl eps dl n (f_r2c1 f n) (f_c2r1 f n)) as Q. fold (sys1 n) in Q. rewrite (dN1 n) in Q.
  specialize (Q HN HM He Hd Hs).
  pose proof (fwd1 n Hn HN) as Q1. pose proof (bwd1 n Hn HN) as Q2. rewrite (dN1 n) in Q1, Q2. specialize (Q Q1 Q2 c cF noise xF X).
  destruct Q as (F & Lf & D).
  - intros j Hj. apply HT; auto.
  - split; [exact LcF|]. split.
    + intros a Ha. apply (In_nth _ _ zero64) in Ha as (j & Hj & <-). apply Fc. lia.
    + intros j Hj. rewrite vals_nth. rewrite (proj2 (Fc j Hj)), <- vals_nth. apply HT; auto.
  - split; [auto|]. split; [auto|]. rewrite <- (len_rn (vals noise) n) by (rewrite vlen; auto). exact Bn.
  - split; [exact LxF|]. intros j Hj. left. unfold xF. rewrite (nth_map' _ _ j zero64 zero64) by lia. reflexivity.
  - split; [exact LX|]. intros i Hi. exists (fold_index n i). split; [cbn [cyc dN]; rewrite Nat.mul_1_l; apply fold_lt; auto|].
    split. { cbn [cyc dN]. intros H. unfold fold_index. destruct (Nat.leb_spec i (n / 2)); lia. }
    left. unfold X. rewrite (nth_indep _ (zero64, zero64) ((fun k => @cmul L (@clip_sqrt L (nth (fold_index n k) (f_r2c1 f n cF) (@czero L))) (nth (fold_index n k) (f_r2c1 f n xF) (@czero L))) 0%nat)) by (rewrite map_length, seq_length; exact Hi).
    rewrite (map_nth (fun k => @cmul L (@clip_sqrt L (nth (fold_index n k) (f_r2c1 f n cF) (@czero L))) (nth (fold_index n k) (f_r2c1 f n xF) (@czero L)))). rewrite seq_nth, Nat.add_0_l by auto.
    rewrite (nth_indep (f_r2c1 f n cF) (@czero L) (zero64, zero64)) by (apply Hh; auto). rewrite (nth_indep (f_r2c1 f n xF) (@czero L) (zero64, zero64)) by (apply Hh; auto). reflexivity.
  - set (full := map (fun x : b64 => Bm x (@fwd_scale L n)) (f_c2r1 f n X)) in *.
    exists (firstn nx full), out. split; [exact EF|]. split; [exact E|]. split; [rewrite firstn_length, Lo, Lf; lia|]. split.
    { intros a Ha. apply F. rewrite <- (firstn_skipn nx full). apply in_or_app. left. exact Ha. }
    unfold bound. rewrite (len_rn (vals noise) n) by (rewrite vlen; auto). apply Rle_trans with (2 := D). rewrite (dist_rn _ _ nx) by (rewrite vlen, firstn_length, Lf; lia). rewrite !rn_sqrt. apply sqrt_le_1_alt.
    apply Rle_trans with (rsum nx (fun j => (nthR (vals full) j - rsum n (fun l => ker (sys1 n) (amp (sys1 n) (nthR c)) j l * nth l (vals noise) 0)) ^ 2)).
    + right. apply rsum_ext. intros j Hj. f_equal. f_equal.
      * rewrite !vals_nth. rewrite <- (firstn_skipn nx full) at 2. rewrite app_nth1; [reflexivity|rewrite firstn_length, Lf; lia].
      * unfold nthR at 1. rewrite Ho by auto. apply rsum_ext. intros l Hll. f_equal. unfold ker1. apply ker_ext. intros k Hk. apply amp_ext. intros q Hq. rewrite dN1 in Hq.
        unfold nthR, c. rewrite nth_map_seq by auto. reflexivity.
    + apply rsum_prefix; auto. intros. apply pow2_ge_0.
Qed.

(** ** two and three dimensions: the product of the spectra *)
Lemma prod_entries (W C : list (b64 * b64)) M : length W = M -> length C = M ->
  let X := map (fun i => @cmul L (nth i W (@czero L)) (@clip_sqrt L (nth i C (@czero L)))) (seq 0 M) in
  length X = M /\ forall i, (i < M)%nat -> exists q, (q < M)%nat /\ ((i < M)%nat -> q = i) /\
    (nth i X (zero64, zero64) = @cmul L (@clip_sqrt L (nth q C (zero64, zero64))) (nth q W (zero64, zero64)) \/
     nth i X (zero64, zero64) = @cmul L (nth q W (zero64, zero64)) (@clip_sqrt L (nth q C (zero64, zero64)))).
Proof.
  intros LW LC. cbv zeta. set (F := fun i => @cmul L (nth i W (@czero L)) (@clip_sqrt L (nth i C (@czero L)))). split; [rewrite map_length, seq_length; reflexivity|].
  intros i Hi. exists i. split; [exact Hi|]. split; [auto|]. right.
  rewrite (nth_indep _ (zero64, zero64) (F 0%nat)) by (rewrite map_length, seq_length; exact Hi). rewrite (map_nth F), seq_nth, Nat.add_0_l by auto. unfold F.
  rewrite (nth_indep W (@czero L) (zero64, zero64)) by (rewrite LW; auto). rewrite (nth_indep C (@czero L) (zero64, zero64)) by (rewrite LC; auto). reflexivity.
Qed.
Lemma scaled_entries (noise : list b64) N M : length noise = N ->
  length (map (fun x : b64 => Bm x (@fwd_scale L M)) noise) = N /\ forall j, (j < N)%nat ->
  nth j (map (fun x : b64 => Bm x (@fwd_scale L M)) noise) zero64 = Bm (@fwd_scale L M) (nth j noise zero64) \/
  nth j (map (fun x : b64 => Bm x (@fwd_scale L M)) noise) zero64 = Bm (nth j noise zero64) (@fwd_scale L M).
Proof. intros E. split; [rewrite map_length; exact E|]. intros j Hj. right. rewrite (nth_map' _ _ j zero64 zero64) by lia. reflexivity. Qed.

Lemma full2_near (v : variogram (Farith m)) (w : variogram Rarith) nx ny dx dy sx sy dx' dy' sx' sy' (noise : list b64) : (0 < nx)%nat -> (0 < ny)%nat -> (Z.of_nat (nx * ny) < 2 ^ 53)%Z ->
  length noise = (nx * ny)%nat -> all_finite noise -> len (vals noise) <= bpow radix2 100 ->
  near_table dl (@FFTCovGrid2D (Farith m) v nx dx ny dy sx sy) (@FFTCovGrid2D Rarith w nx dx' ny dy' sx' sy') ->
  let full := (@full2 L v nx ny dx dy sx sy noise : list b64) in
  all_finite full /\ length full = (nx * ny)%nat /\
  rn (nx * ny) (fun q => nthR (vals full) q - nthR (@full2 L' w nx ny dx' dy' sx' sy' (vals noise)) q) <= bound (nx * ny) noise.
Proof.
  intros Hx Hy HN Hl Fn Bn HT full. rewrite !cov2_ok in HT.
  apply (near_lists (nx * ny)) in HT as [FT HT]; try (rewrite map_length, seq_length; reflexivity).
  pose (cF := @cov2_list L v nx dx ny dy sx sy : list b64). pose (c := @cov2_list L' w nx dx' ny dy' sx' sy' : list R).
  change (all_finite cF) in FT. change (forall j, (j < nx * ny)%nat -> Rabs (nthR (vals cF) j - nthR c j) <= dl /\ Rabs (nthR c j) <= 1) in HT.
  assert (Lc : length cF = (nx * ny)%nat) by (unfold cF, cov2_list; rewrite map_length, seq_length; reflexivity).
  assert (EN : dN (rows (cyc ny) nx) = (nx * ny)%nat) by (cbn; lia).
  pose (xF := map (fun x : b64 => Bm x (@fwd_scale L (nx * ny))) noise).
  pose (X := map (fun i => @cmul L (nth i (f_r2c2 f ny nx xF) (@czero L)) (@clip_sqrt L (nth i (f_r2c2 f ny nx cF) (@czero L)))) (seq 0 ((nx / 2 + 1) * ny))).
  assert (EF : full = map (fun x : b64 => Bm x (@fwd_scale L (nx * ny))) (f_c2r2 f ny nx X)) by reflexivity.
  assert (Hh : forall x, length (f_r2c2 f ny nx x) = (ny * (nx / 2 + 1))%nat) by (intros x; destruct HL as (_ & _ & H & _); apply (H ny nx x)).
  pose proof (field_err (cyc ny) nx (cyc_good ny Hy) Hx m f o cl eps dl (ny * (nx / 2 + 1)) (f_r2c2 f ny nx) (f_c2r2 f ny nx)) as Q. rewrite EN in Q.
  specialize (Q HN (le_n _) He Hd Hs).
  assert (HN' : (Z.of_nat (ny * nx) < 2 ^ 53)%Z) by (rewrite (Nat.mul_comm ny nx); exact HN). pose proof (fwd2 ny nx Hy Hx HN') as Q1. pose proof (bwd2 ny nx Hy Hx HN') as Q2. change (sys2 ny nx) with (rows (cyc ny) nx) in Q1, Q2. rewrite EN in Q1, Q2. specialize (Q Q1 Q2 c cF noise xF X).
  destruct Q as (F & Lf & D).
  - intros j Hj. apply HT; auto.
  - split; [exact Lc|]. split; [exact FT|]. intros j Hj. apply HT; auto.
  - split; [auto|]. split; [auto|]. rewrite <- (len_rn (vals noise) (nx * ny)) by (rewrite vlen; auto). exact Bn.
  - apply scaled_entries; auto.
  - unfold X. replace ((nx / 2 + 1) * ny)%nat with (ny * (nx / 2 + 1))%nat by lia. apply prod_entries; apply Hh.
  - rewrite EF. split; [exact F|]. split; [exact Lf|]. unfold bound. rewrite (len_rn (vals noise) (nx * ny)) by (rewrite vlen; auto).
    eapply Rle_trans; [|exact D]. right. apply rn_ext. intros q Hq. f_equal.
    assert (Hi : (q mod nx < nx)%nat) by (apply Nat.mod_upper_bound; lia). assert (Hj : (q / nx < ny)%nat) by (apply Nat.div_lt_upper_bound; lia).
    assert (Eq : q = (q mod nx + nx * (q / nx))%nat) by (rewrite (Nat.div_mod q nx) at 1 by lia; lia).
    unfold nthR at 1. rewrite Eq at 1. rewrite (full2_nth o' cl' w nx ny dx' dy' sx' sy' (vals noise)) by (auto; rewrite vlen; auto).
    apply rsum_ext. intros l Hll. f_equal. unfold ker2, sys2. replace (q / nx * nx + q mod nx)%nat with q by lia. apply ker_ext. intros k Hk. apply amp_ext. intros p Hp. rewrite EN in Hp.
    unfold nthR, c, cov2_list, flat2. rewrite (nth_map_seq _ _ p) by auto. rewrite GetIJ_flat by auto. reflexivity.
Qed.
Lemma field2_near (v : variogram (Farith m)) (w : variogram Rarith) nx ny nxt nyt dx dy sx sy dx' dy' sx' sy' (noise : list b64) :
  (0 < nxt)%nat -> (0 < nyt)%nat -> (nx <= nxt)%nat -> (ny <= nyt)%nat -> (Z.of_nat (nxt * nyt) < 2 ^ 53)%Z ->
  length noise = (nxt * nyt)%nat -> all_finite noise -> len (vals noise) <= bpow radix2 100 ->
  near_table dl (@FFTCovGrid2D (Farith m) v nxt dx nyt dy sx sy) (@FFTCovGrid2D Rarith w nxt dx' nyt dy' sx' sy') ->
  near_field (bound (nxt * nyt) noise) (@field2d L v nx ny nxt nyt dx dy sx sy noise) (@field2d L' w nx ny nxt nyt dx' dy' sx' sy' (vals noise)).
Proof.
  intros Hx Hy Lx Ly HN Hl Fn Bn HT. destruct (full2_near v w nxt nyt dx dy sx sy dx' dy' sx' sy' noise Hx Hy HN Hl Fn Bn HT) as (F & Lf & D).
  rewrite (field2d_ok HL) by auto. rewrite (field2d_ok (Rlib_sizes o' cl')) by (auto; rewrite vlen; auto).
  set (fF := (@full2 L v nxt nyt dx dy sx sy noise : list b64)) in *. set (fR := @full2 L' w nxt nyt dx' dy' sx' sy' (vals noise)) in *.
  pose (g := fun x => let '(i, j) := GetIJ nx ny x in (i + nxt * j)%nat).
  assert (Hg : forall x, (x < nx * ny)%nat -> (g x < nxt * nyt)%nat).
  { intros x Hxx. unfold g. pose proof (GetIndex_GetIJ nx ny x Hxx) as H. destruct (GetIJ nx ny x) as [i j]. destruct H as (Hi & Hj & _). pose proof (GetIndex2_lt nxt nyt i j ltac:(lia) ltac:(lia)) as H2. unfold GetIndex2 in H2. lia. }
  exists (map (fun x => nth (g x) fF (lit L 0 0)) (seq 0 (nx * ny))), (map (fun x => nth (g x) fR (lit L' 0 0)) (seq 0 (nx * ny))).
  split; [f_equal; apply map_ext; intros a; unfold g; destruct (GetIJ nx ny a); reflexivity|].
  split; [f_equal; apply map_ext; intros a; unfold g; destruct (GetIJ nx ny a); reflexivity|].
  split; [rewrite !map_length; reflexivity|]. split.
  { intros a Ha. apply in_map_iff in Ha as (x & <- & Hxx). apply in_seq in Hxx. apply F, nth_In. change (g x < @length b64 fF)%nat. rewrite Lf. apply Hg. lia. }
  apply Rle_trans with (2 := D). rewrite (dist_rn _ _ (nx * ny)) by (rewrite vlen, map_length, seq_length; reflexivity). rewrite !rn_sqrt. apply sqrt_le_1_alt.
  set (E := fun q => (nthR (vals fF) q - nthR fR q) ^ 2).
  apply Rle_trans with (rsum (ny * nx) (fun x => E (g x))).
  - right. rewrite (Nat.mul_comm ny nx). apply rsum_ext. intros x Hxx. unfold E. apply (f_equal2 (fun a b => (a - b) ^ 2)).
    + rewrite !vals_nth. rewrite (nth_map_seq _ _ x) by auto. apply (f_equal B2R). apply nth_indep. change (g x < @length b64 fF)%nat. rewrite Lf. auto.
    + unfold nthR. rewrite (nth_map_seq _ _ x) by auto. apply nth_indep. unfold fR, full2. rewrite map_length. destruct (Rlib_sizes o' cl') as (_ & _ & _ & H4 & _). rewrite H4. rewrite Nat.mul_comm. auto.
  - rewrite (Nat.mul_comm nxt nyt), !rsum_flat. apply Rle_trans with (rsum ny (fun j => rsum nx (fun i => E (j * nxt + i)%nat))).
    + right. apply rsum_ext; intros j Hj; apply rsum_ext; intros i Hi. f_equal. unfold g. rewrite GetIJ_flat by nia. destruct (flat_div nx j i Hi) as [-> ->]. lia.
    + apply Rle_trans with (rsum ny (fun j => rsum nxt (fun i => E (j * nxt + i)%nat))).
      * apply rsum_le. intros j Hj. apply rsum_prefix; auto. intros. apply pow2_ge_0.
      * apply rsum_prefix; auto. intros. apply rsum_nonneg. intros. apply pow2_ge_0.
Qed.

Lemma full3_near (v : variogram (Farith m)) (w : variogram Rarith) nx ny nz dx dy dz sx sy sz dx' dy' dz' sx' sy' sz' (noise : list b64) :
  (0 < nx)%nat -> (0 < ny)%nat -> (0 < nz)%nat -> (Z.of_nat (nx * ny * nz) < 2 ^ 53)%Z ->
  length noise = (nx * ny * nz)%nat -> all_finite noise -> len (vals noise) <= bpow radix2 100 ->
  near_table dl (@FFTCovGrid3D (Farith m) v nx dx ny dy nz dz sx sy sz) (@FFTCovGrid3D Rarith w nx dx' ny dy' nz dz' sx' sy' sz') ->
  let full := (@full3 L v nx ny nz dx dy dz sx sy sz noise : list b64) in
  all_finite full /\ length full = (nx * ny * nz)%nat /\
  rn (nx * ny * nz) (fun q => nthR (vals full) q - nthR (@full3 L' w nx ny nz dx' dy' dz' sx' sy' sz' (vals noise)) q) <= bound (nx * ny * nz) noise.
Proof.
  intros Hx Hy Hz HN Hl Fn Bn HT full. rewrite !cov3_ok in HT.
  apply (near_lists (nx * ny * nz)) in HT as [FT HT]; try (rewrite map_length, seq_length; reflexivity).
  pose (cF := @cov3_list L v nx dx ny dy nz dz sx sy sz : list b64). pose (c := @cov3_list L' w nx dx' ny dy' nz dz' sx' sy' sz' : list R).
  change (all_finite cF) in FT. change (forall j, (j < nx * ny * nz)%nat -> Rabs (nthR (vals cF) j - nthR c j) <= dl /\ Rabs (nthR c j) <= 1) in HT.
  assert (Lc : length cF = (nx * ny * nz)%nat) by (unfold cF, cov3_list; rewrite map_length, seq_length; reflexivity).
  assert (EN : dN (rows (T3 nz ny) nx) = (nx * ny * nz)%nat) by (cbn; lia).
  assert (GT : good (T3 nz ny)) by (apply prod_good; apply cyc_good; auto).
  pose (xF := map (fun x : b64 => Bm x (@fwd_scale L (nx * ny * nz))) noise).
  pose (X := map (fun i => @cmul L (nth i (f_r2c3 f nz ny nx xF) (@czero L)) (@clip_sqrt L (nth i (f_r2c3 f nz ny nx cF) (@czero L)))) (seq 0 ((nx / 2 + 1) * ny * nz))).
  assert (EF : full = map (fun x : b64 => Bm x (@fwd_scale L (nx * ny * nz))) (f_c2r3 f nz ny nx X)) by reflexivity.
  assert (Hh : forall x, length (f_r2c3 f nz ny nx x) = (nz * ny * (nx / 2 + 1))%nat) by (intros x; destruct HL as (_ & _ & _ & _ & H & _); apply (H nz ny nx x)).
  pose proof (field_err (T3 nz ny) nx GT Hx m f o cl eps dl (nz * ny * (nx / 2 + 1)) (f_r2c3 f nz ny nx) (f_c2r3 f nz ny nx)) as Q. rewrite EN in Q.
  specialize (Q HN (le_n _) He Hd Hs).
  assert (HN' : (Z.of_nat (nz * ny * nx) < 2 ^ 53)%Z) by (replace (nz * ny * nx)%nat with (nx * ny * nz)%nat by ring; exact HN). pose proof (fwd3 nz ny nx Hz Hy Hx HN') as Q1. pose proof (bwd3 nz ny nx Hz Hy Hx HN') as Q2. change (sys3 nz ny nx) with (rows (T3 nz ny) nx) in Q1, Q2. rewrite EN in Q1, Q2. specialize (Q Q1 Q2 c cF noise xF X).
  destruct Q as (F & Lf & D).
  - intros j Hj. apply HT; auto.
  - split; [exact Lc|]. split; [exact FT|]. intros j Hj. apply HT; auto.
  - split; [auto|]. split; [auto|]. rewrite <- (len_rn (vals noise) (nx * ny * nz)) by (rewrite vlen; auto). exact Bn.
  - apply scaled_entries; auto.
  - unfold X. replace ((nx / 2 + 1) * ny * nz)%nat with (nz * ny * (nx / 2 + 1))%nat by (generalize (nx / 2)%nat; intros; ring). apply prod_entries; apply Hh.
  - rewrite EF. split; [exact F|]. split; [exact Lf|]. unfold bound. rewrite (len_rn (vals noise) (nx * ny * nz)) by (rewrite vlen; auto).
    eapply Rle_trans; [|exact D]. right. apply rn_ext. intros q Hq. f_equal.
    assert (Hi : (q mod nx < nx)%nat) by (apply Nat.mod_upper_bound; lia). assert (Hr : (q / nx < ny * nz)%nat) by (apply Nat.div_lt_upper_bound; lia).
    assert (Hj : ((q / nx) mod ny < ny)%nat) by (apply Nat.mod_upper_bound; lia). assert (Hk : (q / nx / ny < nz)%nat) by (apply Nat.div_lt_upper_bound; lia).
    assert (Eq : q = (q mod nx + nx * ((q / nx) mod ny) + nx * ny * (q / nx / ny))%nat).
    { rewrite (Nat.div_mod q nx) at 1 by lia. rewrite (Nat.div_mod (q / nx) ny) at 1 by lia. ring. }
    unfold nthR at 1. rewrite Eq at 1. rewrite (full3_nth o' cl' w nx ny nz dx' dy' dz' sx' sy' sz' (vals noise)) by (auto; rewrite vlen; auto).
    apply rsum_ext. intros l Hll. f_equal. unfold ker3, sys3. replace ((q / nx / ny * ny + (q / nx) mod ny) * nx + q mod nx)%nat with q by (rewrite Eq at 1; ring). apply ker_ext. intros k' Hk'. apply amp_ext. intros p Hp. rewrite EN in Hp.
    unfold nthR, c, cov3_list, flat3. rewrite (nth_map_seq _ _ p) by auto. rewrite (GetIJK_flat nx ny nz) by auto. reflexivity.
Qed.
Lemma field3_near (v : variogram (Farith m)) (w : variogram Rarith) nx ny nz nxt nyt nzt dx dy dz sx sy sz dx' dy' dz' sx' sy' sz' (noise : list b64) :
  (0 < nxt)%nat -> (0 < nyt)%nat -> (0 < nzt)%nat -> (nx <= nxt)%nat -> (ny <= nyt)%nat -> (nz <= nzt)%nat -> (Z.of_nat (nxt * nyt * nzt) < 2 ^ 53)%Z ->
  length noise = (nxt * nyt * nzt)%nat -> all_finite noise -> len (vals noise) <= bpow radix2 100 ->
  near_table dl (@FFTCovGrid3D (Farith m) v nxt dx nyt dy nzt dz sx sy sz) (@FFTCovGrid3D Rarith w nxt dx' nyt dy' nzt dz' sx' sy' sz') ->
  near_field (bound (nxt * nyt * nzt) noise) (@field3d L v nx ny nz nxt nyt nzt dx dy dz sx sy sz noise)
    (@field3d L' w nx ny nz nxt nyt nzt dx' dy' dz' sx' sy' sz' (vals noise)).
Proof.
  intros Hx Hy Hz Lx Ly Lz HN Hl Fn Bn HT. destruct (full3_near v w nxt nyt nzt dx dy dz sx sy sz dx' dy' dz' sx' sy' sz' noise Hx Hy Hz HN Hl Fn Bn HT) as (F & Lf & D).
  rewrite (field3d_ok HL) by auto. rewrite (field3d_ok (Rlib_sizes o' cl')) by (auto; rewrite vlen; auto).
  set (fF := (@full3 L v nxt nyt nzt dx dy dz sx sy sz noise : list b64)) in *. set (fR := @full3 L' w nxt nyt nzt dx' dy' dz' sx' sy' sz' (vals noise)) in *.
  pose (g := fun x => let '(i, j, k) := GetIJK nx ny x in (i + nxt * j + nxt * nyt * k)%nat).
  assert (Hg : forall x, (x < nx * ny * nz)%nat -> (g x < nxt * nyt * nzt)%nat).
  { intros x Hxx. unfold g. pose proof (GetIndex_GetIJK nx ny nz x Hxx) as H. destruct (GetIJK nx ny x) as [[i j] k]. destruct H as (Hi & Hj & Hk & _).
    pose proof (GetIndex3_lt nxt nyt nzt i j k ltac:(lia) ltac:(lia) ltac:(lia)) as H2. unfold GetIndex3 in H2. nia. }
  exists (map (fun x => nth (g x) fF (lit L 0 0)) (seq 0 (nx * ny * nz))), (map (fun x => nth (g x) fR (lit L' 0 0)) (seq 0 (nx * ny * nz))).
  split; [f_equal; apply map_ext; intros a; unfold g; destruct (GetIJK nx ny a) as [[? ?] ?]; reflexivity|].
  split; [f_equal; apply map_ext; intros a; unfold g; destruct (GetIJK nx ny a) as [[? ?] ?]; reflexivity|].
  split; [rewrite !map_length; reflexivity|]. split.
  { intros a Ha. apply in_map_iff in Ha as (x & <- & Hxx). apply in_seq in Hxx. apply F, nth_In. change (g x < @length b64 fF)%nat. rewrite Lf. apply Hg. lia. }
  apply Rle_trans with (2 := D). rewrite (dist_rn _ _ (nx * ny * nz)) by (rewrite vlen, map_length, seq_length; reflexivity). rewrite !rn_sqrt. apply sqrt_le_1_alt.
  set (E := fun q => (nthR (vals fF) q - nthR fR q) ^ 2).
  assert (C1 : (nz * ny * nx = nx * ny * nz)%nat) by ring. assert (C2 : (nzt * nyt * nxt = nxt * nyt * nzt)%nat) by ring.
  apply Rle_trans with (rsum (nz * ny * nx) (fun x => E (g x))).
  - right. rewrite C1. apply rsum_ext. intros x Hxx. unfold E. apply (f_equal2 (fun a b => (a - b) ^ 2)).
    + rewrite !vals_nth. rewrite (nth_map_seq _ _ x) by auto. apply (f_equal B2R). apply nth_indep. change (g x < @length b64 fF)%nat. rewrite Lf. auto.
    + unfold nthR. rewrite (nth_map_seq _ _ x) by auto. apply nth_indep. unfold fR, full3. rewrite map_length. destruct (Rlib_sizes o' cl') as (_ & _ & _ & _ & _ & H6). rewrite H6, C2. auto.
  - rewrite <- C2, !rsum_flat.
    apply Rle_trans with (rsum nz (fun k => rsum ny (fun j => rsum nx (fun i => E ((k * nyt + j) * nxt + i)%nat)))).
    + right. apply rsum_ext; intros k Hk; apply rsum_ext; intros j Hj; apply rsum_ext; intros i Hi. f_equal. unfold g.
      rewrite (GetIJK_flat nx ny nz). 2:{ rewrite <- C1. apply flat_lt; [apply flat_lt; auto|auto]. }
      destruct (flat_div nx (k * ny + j) i Hi) as [-> ->]. destruct (flat_div ny k j Hj) as [-> ->]. ring.
    + assert (P : forall q, 0 <= E q) by (intros; apply pow2_ge_0).
      apply Rle_trans with (rsum nz (fun k => rsum ny (fun j => rsum nxt (fun i => E ((k * nyt + j) * nxt + i)%nat)))).
      * apply rsum_le; intros k Hk; apply rsum_le; intros j Hj. apply rsum_prefix; auto.
      * apply Rle_trans with (rsum nz (fun k => rsum nyt (fun j => rsum nxt (fun i => E ((k * nyt + j) * nxt + i)%nat)))).
        -- apply rsum_le; intros k Hk. apply rsum_prefix; auto. intros. apply rsum_nonneg. auto.
        -- apply rsum_prefix; auto. intros. apply rsum_nonneg. intros. apply rsum_nonneg. auto.
Qed.
End F.
