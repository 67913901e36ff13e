(** Simulated fields in double precision: variograms made by the user, and results of simulate. *)
From Coq Require Import ZArith Bool String List Permutation Lia Reals Lra.
From Flocq Require Import Core IEEE754.BinarySingleNaN.
From Verif Require Import Base Arith RealArith FloatArith M_Variogram M_Grid M_CovGrid M_Fft M_Dsfmt M_Random M_Field M_Api S_CovGrid S_Vario S_Random S_Normal S_Api S_CorrF S_Accur P_NormF P_CorrF P_Accur P_Base P_Bounds P_Field3 P_Overrun P_NormSize S_FieldF S_FieldH P_FieldF P_FieldG P_FieldH P_FieldI.
Import ListNotations.
Open Scope R_scope.

Section F.
Variables (m : libm) (f : fftlib) (o : Z -> outcome Z) (cl : Z -> Z -> Z) (o' : Z -> outcome Z) (cl' : Z -> Z -> Z) (eps dl : R).
Notation L := (Flib m f o cl).
Notation L' := (Rlib o' cl').
Hypothesis HM : rounds_well m.
Hypothesis HA : accurate eps f.
Hypothesis HL : fft_sizes L.
Hypothesis He : bpow radix2 (-53) <= eps.
Hypothesis Hs : eps + dl <= 1 / 1000000.
Variables (v : variogram (Farith m)) (w : variogram Rarith).
Hypothesis HV : same_call m dl v w.

Lemma zero_B : B2R (Flit 0 0) = 0. Proof. apply zero_val. Qed.
Lemma dl_pos : 0 <= dl.
Proof. destruct HV as (s & r1 & r2 & r3 & a & d & p & _ & _ & _ & _ & _ & _ & _ & [(_ & _ & ->)|(_ & _ & k & K & _ & ->)]); [apply bpow_ge_0|apply Rmult_le_pos; [apply pow2_ge_0|apply bpow_ge_0]]. Qed.
Lemma tab1 n (dx : b64) : (Z.of_nat n < 2 ^ 53)%Z -> spacing n dx -> near_table dl (@FFTCovGrid1D (Farith m) v n dx (Flit 1 0)) (@FFTCovGrid1D Rarith w n (B2R dx) 1).
Proof.
  destruct HM as (M1 & M2 & M3 & M4). destruct HV as (s & r1 & r2 & r3 & a & d & p & C1 & C2 & P1 & P2 & R1 & R2 & R3 & [(-> & -> & ->)|(A1 & A2 & k & K & KR & ->)]).
  - rewrite zero_B in C2. apply (unrot_table1 m M1 M2 M3 M4 s r1 r2 r3 (Flit 0 0) (Flit 0 0) p v w); auto.
  - apply (rot_table1 m M1 M2 M3 M4 s r1 r2 r3 a d p v w); auto.
Qed.
Lemma tab2 nx (dx : b64) ny (dy : b64) : (Z.of_nat nx < 2 ^ 53)%Z -> (Z.of_nat ny < 2 ^ 53)%Z -> spacing nx dx -> spacing ny dy ->
  near_table dl (@FFTCovGrid2D (Farith m) v nx dx ny dy (Flit 1 0) (Flit 1 0)) (@FFTCovGrid2D Rarith w nx (B2R dx) ny (B2R dy) 1 1).
Proof.
  destruct HM as (M1 & M2 & M3 & M4). destruct HV as (s & r1 & r2 & r3 & a & d & p & C1 & C2 & P1 & P2 & R1 & R2 & R3 & [(-> & -> & ->)|(A1 & A2 & k & K & KR & ->)]).
  - rewrite zero_B in C2. apply (unrot_table2 m M1 M2 M3 M4 s r1 r2 r3 (Flit 0 0) (Flit 0 0) p v w); auto.
  - apply (rot_table2 m M1 M2 M3 M4 s r1 r2 r3 a d p v w); auto.
Qed.
Lemma tab3 nx (dx : b64) ny (dy : b64) nz (dz : b64) : (Z.of_nat nx < 2 ^ 53)%Z -> (Z.of_nat ny < 2 ^ 53)%Z -> (Z.of_nat nz < 2 ^ 53)%Z -> spacing nx dx -> spacing ny dy -> spacing nz dz ->
  near_table dl (@FFTCovGrid3D (Farith m) v nx dx ny dy nz dz (Flit 1 0) (Flit 1 0) (Flit 1 0)) (@FFTCovGrid3D Rarith w nx (B2R dx) ny (B2R dy) nz (B2R dz) 1 1 1).
Proof.
  destruct HM as (M1 & M2 & M3 & M4). destruct HV as (s & r1 & r2 & r3 & a & d & p & C1 & C2 & P1 & P2 & R1 & R2 & R3 & [(-> & -> & ->)|(A1 & A2 & k & K & KR & ->)]).
  - rewrite zero_B in C2. apply (unrot_table3 m M1 M2 M3 M4 s r1 r2 r3 (Flit 0 0) (Flit 0 0) p v w); auto.
  - apply (rot_table3 m M1 M2 M3 M4 s r1 r2 r3 a d p v w); auto.
Qed.
Lemma fuzz_bound n (noise : list b64) : length noise = n -> bound eps dl n noise = fuzz eps dl noise.
Proof. intros <-. reflexivity. Qed.

Lemma made1 nx n (dx : b64) (noise : list b64) : (0 < n)%nat -> (nx <= n)%nat -> (Z.of_nat n < 2 ^ 53)%Z -> spacing n dx ->
  length noise = n -> all_finite noise -> len (vals noise) <= bpow radix2 100 ->
  near_field (fuzz eps dl noise) (@field1d L v nx n dx (Flit 1 0) noise) (@field1d L' w nx n (B2R dx) 1 (vals noise)).
Proof.
  intros Hn Hx HN Hd Hl Hf HB. rewrite <- (fuzz_bound n noise Hl). apply field1_near; auto using dl_pos, tab1.
Qed.
Lemma le_mul a b : (0 < b)%nat -> (Z.of_nat (a * b) < 2 ^ 53)%Z -> (Z.of_nat a < 2 ^ 53)%Z. Proof. nia. Qed.
Lemma le_mul' a b : (0 < a)%nat -> (Z.of_nat (a * b) < 2 ^ 53)%Z -> (Z.of_nat b < 2 ^ 53)%Z. Proof. nia. Qed.
Lemma made2 nx ny nxt nyt (dx dy : b64) (noise : list b64) : (0 < nxt)%nat -> (0 < nyt)%nat -> (nx <= nxt)%nat -> (ny <= nyt)%nat -> (Z.of_nat (nxt * nyt) < 2 ^ 53)%Z -> spacing nxt dx -> spacing nyt dy ->
  length noise = (nxt * nyt)%nat -> all_finite noise -> len (vals noise) <= bpow radix2 100 ->
  near_field (fuzz eps dl noise) (@field2d L v nx ny nxt nyt dx dy (Flit 1 0) (Flit 1 0) noise) (@field2d L' w nx ny nxt nyt (B2R dx) (B2R dy) 1 1 (vals noise)).
Proof.
  intros Hn Hm Hx Hy HN Hd Hd' Hl Hf HB. rewrite <- (fuzz_bound _ noise Hl).
  apply field2_near; auto using dl_pos. apply tab2; auto; [apply (le_mul _ _ Hm HN)|apply (le_mul' _ _ Hn HN)].
Qed.
Lemma made3 nx ny nz nxt nyt nzt (dx dy dz : b64) (noise : list b64) :
  (0 < nxt)%nat -> (0 < nyt)%nat -> (0 < nzt)%nat -> (nx <= nxt)%nat -> (ny <= nyt)%nat -> (nz <= nzt)%nat -> (Z.of_nat (nxt * nyt * nzt) < 2 ^ 53)%Z ->
  spacing nxt dx -> spacing nyt dy -> spacing nzt dz ->
  length noise = (nxt * nyt * nzt)%nat -> all_finite noise -> len (vals noise) <= bpow radix2 100 ->
  near_field (fuzz eps dl noise) (@field3d L v nx ny nz nxt nyt nzt dx dy dz (Flit 1 0) (Flit 1 0) (Flit 1 0) noise)
    (@field3d L' w nx ny nz nxt nyt nzt (B2R dx) (B2R dy) (B2R dz) 1 1 1 (vals noise)).
Proof.
  intros Hn Hm Hk Hx Hy Hz HN Hd Hd' Hd'' Hl Hf HB. rewrite <- (fuzz_bound _ noise Hl).
  apply field3_near; auto using dl_pos. assert (0 < nxt * nyt)%nat by nia. pose proof (le_mul _ _ Hk HN) as HN2.
  apply tab3; auto; [apply (le_mul _ _ Hm HN2)|apply (le_mul' _ _ Hn HN2)|apply (le_mul' (nxt * nyt) _ ltac:(assumption) HN)].
Qed.

(** ** results of simulate *)
Lemma cell_spacing n d : (Z.of_nat n < 2 ^ 31)%Z -> cell d -> spacing n d.
Proof.
  intros Hn (F & A & B). split; [exact F|]. split; [exact A|]. pose proof (bpow_gt_0 radix2 (-100)).
  apply Rle_trans with (bpow radix2 31 * bpow radix2 60); [|rewrite <- bpow_plus; apply bpow_le; lia].
  apply Rmult_le_compat; [apply pos_INR|lra| |exact B]. rewrite INR_IZR_INZ. change (bpow radix2 31) with (IZR (2 ^ 31)). apply IZR_le. lia.
Qed.
Variables (rec : recursion) (fuel : nat).
Hypothesis HB : is_build rec.
Hypothesis HLog : log_sane m.
Notation U := (Unif01 (A := Farith m) rec).

Lemma fresh_ok s : no_two_halves U (init_gen_rand s) -> ok U (init_gen_rand s).
Proof. intros H. split; [|exact H]. apply gen_uniform; auto. exists s, []. reflexivity. Qed.
Lemma near_ok (e : R) (x : list b64) a b : near_field e a b -> a = Ok x -> near_field e (Ok x) b. Proof. intros H <-. exact H. Qed.

Lemma small1 t (d : dims L) (a : adv L) st l st' z : dim_asked d = 1%nat -> step rec fuel t (CAdvanced (L := L) v d a) st = (Ok (VArray l), st') ->
  sizes1 (L := L) v (d_nx d) (d_dx d) (opt (a_padx a) (-1)%Z) = Ok z -> (z < 2 ^ 31)%Z.
Proof.
  intros Hd H E. apply core_dim in H as (st1 & _ & _ & H). rewrite Hd in H. unfold Simulate1D in H. rewrite E in H. cbn [bind] in H.
  apply bind_Ok in H as (n & Hn & _). apply narrow_inv in Hn as [_ Hn]. exact Hn.
Qed.
Lemma small2 t (d : dims L) (a : adv L) st l st' z1 z2 : dim_asked d = 2%nat -> step rec fuel t (CAdvanced (L := L) v d a) st = (Ok (VArray l), st') ->
  sizes2 (L := L) v (d_nx d) (d_dx d) (opt (d_ny d) 1%Z) (opt (d_dy d) (lit L (-1) 0)) (opt (a_padx a) (-1)%Z) (opt (a_pady a) (-1)%Z) = Ok (z1, z2) -> (z1 < 2 ^ 31 /\ z2 < 2 ^ 31)%Z.
Proof.
  intros Hd H E. apply core_dim in H as (st1 & _ & _ & H). rewrite Hd in H. unfold Simulate2D in H. rewrite E in H. cbn [bind] in H.
  apply bind_Ok in H as (n & Hn & H). apply narrow_inv in Hn as [_ Hn]. apply bind_Ok in H as (n2 & Hn2 & H). apply narrow_inv in Hn2 as [_ Hn2]. split; assumption.
Qed.
Lemma small3 t (d : dims L) (a : adv L) st l st' z1 z2 z3 : dim_asked d = 3%nat -> step rec fuel t (CAdvanced (L := L) v d a) st = (Ok (VArray l), st') ->
  sizes3 (L := L) v (d_nx d) (d_dx d) (opt (d_ny d) 1%Z) (opt (d_dy d) (lit L (-1) 0)) (opt (d_nz d) 1%Z) (opt (d_dz d) (lit L (-1) 0)) (opt (a_padx a) (-1)%Z) (opt (a_pady a) (-1)%Z) (opt (a_padz a) (-1)%Z)
    = Ok (z1, z2, z3) -> (z1 < 2 ^ 31 /\ z2 < 2 ^ 31 /\ z3 < 2 ^ 31)%Z.
Proof.
  intros Hd H E. apply core_dim in H as (st1 & _ & _ & H). rewrite Hd in H. unfold Simulate3D in H. rewrite E in H. cbn [bind] in H.
  apply bind_Ok in H as (n & Hn & H). apply narrow_inv in Hn as [_ Hn]. apply bind_Ok in H as (n2 & Hn2 & H). apply narrow_inv in Hn2 as [_ Hn2].
  apply bind_Ok in H as (n3 & Hn3 & H). apply narrow_inv in Hn3 as [_ Hn3]. auto.
Qed.

Lemma field1d_room (u : variogram L) nx n (dx sx : b64) (noise l : list b64) : @field1d L u nx n dx sx noise = Ok l -> (nx <= n)%nat.
Proof.
  intros H. unfold field1d in H. apply bind_Ok in H as (cov & _ & H). apply bind_Ok in H as (cf & _ & H). apply bind_Ok in H as (nf & _ & H). cbv zeta in H.
  apply bind_Ok in H as (cv & _ & H). apply bind_Ok in H as (tmp & Ht & H).
  assert (Lt : length tmp = n).
  { unfold ComputeFFTInv1D in Ht. destruct cv; [injection Ht as <-; apply repeat_length|]. apply bind_Ok in Ht as (rd' & _ & Ht). apply mapM_length in Ht. rewrite Ht, seq_length. apply repeat_length. }
  destruct (Nat.le_gt_cases nx n) as [Hle|Hgt]; [exact Hle|]. rewrite mapM_oob in H by lia. discriminate H.
Qed.
Lemma api1 t (d : dims L) (a : adv L) st l st' : dim_asked d = 1%nat -> a_sx a = None -> cell (d_dx d) -> (0 < d_nx d)%Z ->
  step rec fuel t (CAdvanced (L := L) v d a) st = (Ok (VArray l), st') ->
  let seed := fst (genrand_uint32 rec (gen (ensure_init rec t st))) in no_two_halves U (init_gen_rand seed) ->
  exists z noise end_, let n := Z.to_nat z in
    sizes1 (L := L) v (d_nx d) (d_dx d) (opt (a_padx a) (-1)%Z) = Ok z /\ draws U fuel n (init_gen_rand seed) = Ok (noise, end_) /\
    near_field (fuzz eps dl noise) (Ok l) (@field1d L' w (Z.to_nat (d_nx d)) n (B2R (d_dx d)) 1 (vals noise)).
Proof.
  intros Hd Ha Hc Hx H seed HN. destruct (noise_1d (L := L) rec fuel t v d a st l st' Hd H) as (_ & n & noise & en & (z & Hz & En) & Hdr & Hl & Hf).
  pose proof (small1 t d a st l st' z Hd H Hz) as B31. exists z, noise, en. cbv zeta. rewrite <- En. split; [exact Hz|]. split; [exact Hdr|].
  assert (Nz : (Z.of_nat n < 2 ^ 31)%Z) by lia.
  pose proof (draws_size m U HLog fuel n _ noise en (fresh_ok seed HN) Hdr) as Sz. destruct (len_sized noise) as [FN LN]; [change (length noise) with (@length (num L) noise); rewrite Hl; lia|exact Sz|].
  rewrite Ha in Hf. pose proof (field1d_room v _ _ _ _ _ _ Hf) as Hr. apply near_ok with (2 := Hf). apply made1; auto using cell_spacing; lia.
Qed.
Lemma api2 t (d : dims L) (a : adv L) st l st' : dim_asked d = 2%nat -> a_sx a = None -> a_sy a = None -> cell (d_dx d) -> cell (opt (d_dy d) (lit L (-1) 0)) -> (0 < d_nx d)%Z -> (0 < opt (d_ny d) 1)%Z ->
  step rec fuel t (CAdvanced (L := L) v d a) st = (Ok (VArray l), st') ->
  let seed := fst (genrand_uint32 rec (gen (ensure_init rec t st))) in no_two_halves U (init_gen_rand seed) ->
  exists zx zy xs noise end_, let nx := Z.to_nat zx in let ny := Z.to_nat zy in
    sizes2 (L := L) v (d_nx d) (d_dx d) (opt (d_ny d) 1%Z) (opt (d_dy d) (lit L (-1) 0)) (opt (a_padx a) (-1)%Z) (opt (a_pady a) (-1)%Z) = Ok (zx, zy) /\
    draws U fuel (nx * ny) (init_gen_rand seed) = Ok (xs, end_) /\
    (forall i j c, (i < nx)%nat -> (j < ny)%nat -> nth (i + j * nx) noise c = nth (i * ny + j) xs c) /\
    ((d_nx d <= zx)%Z -> (opt (d_ny d) 1 <= zy)%Z -> (zx * zy < 2 ^ 53)%Z ->
     near_field (fuzz eps dl noise) (Ok l)
       (@field2d L' w (Z.to_nat (d_nx d)) (Z.to_nat (opt (d_ny d) 1%Z)) nx ny (B2R (d_dx d)) (B2R (opt (d_dy d) (lit L (-1) 0))) 1 1 (vals noise))).
Proof.
  intros Hd Ha Ha2 Hc Hc2 Hx Hy H seed HN.
  destruct (noise_2d (L := L) rec fuel t v d a st l st' Hd H) as (_ & nx & ny & xs & noise & en & (zx & zy & Hz & Ex & Ey) & Hdr & Hl & Hl2 & Hp & Hi & Hf).
  destruct (small2 t d a st l st' zx zy Hd H Hz) as [B1 B2]. exists zx, zy, xs, noise, en. cbv zeta. rewrite <- Ex, <- Ey. split; [exact Hz|]. split; [exact Hdr|]. split; [exact Hi|].
  intros Lx Ly LN53. assert (Nx : (Z.of_nat nx < 2 ^ 31)%Z) by lia. assert (Ny : (Z.of_nat ny < 2 ^ 31)%Z) by lia. assert (NN : (Z.of_nat (nx * ny) < 2 ^ 53)%Z) by (rewrite Nat2Z.inj_mul, Ex, Ey, !Z2Nat.id by lia; exact LN53).
  pose proof (draws_size m U HLog fuel _ _ xs en (fresh_ok seed HN) Hdr) as Sz.
  assert (Sn : forall x, In x noise -> sized x) by (intros x Hin; apply Sz; exact (Permutation_in x Hp Hin)).
  destruct (len_sized noise) as [FN LN]; [change (length noise) with (@length (num L) noise); rewrite Hl2; exact NN|exact Sn|].
  rewrite Ha, Ha2 in Hf. apply near_ok with (2 := Hf). apply made2; auto using cell_spacing; lia.
Qed.
Lemma api3 t (d : dims L) (a : adv L) st l st' : dim_asked d = 3%nat -> a_sx a = None -> a_sy a = None -> a_sz a = None ->
  cell (d_dx d) -> cell (opt (d_dy d) (lit L (-1) 0)) -> cell (opt (d_dz d) (lit L (-1) 0)) -> (0 < d_nx d)%Z -> (0 < opt (d_ny d) 1)%Z -> (0 < opt (d_nz d) 1)%Z ->
  step rec fuel t (CAdvanced (L := L) v d a) st = (Ok (VArray l), st') ->
  let g := gen (ensure_init rec t st) in reachable rec g -> no_two_halves U g ->
  exists zx zy zz xs noise, let nx := Z.to_nat zx in let ny := Z.to_nat zy in let nz := Z.to_nat zz in
    sizes3 (L := L) v (d_nx d) (d_dx d) (opt (d_ny d) 1%Z) (opt (d_dy d) (lit L (-1) 0)) (opt (d_nz d) 1%Z) (opt (d_dz d) (lit L (-1) 0))
      (opt (a_padx a) (-1)%Z) (opt (a_pady a) (-1)%Z) (opt (a_padz a) (-1)%Z) = Ok (zx, zy, zz) /\
    draws U fuel (nx * ny * nz) g = Ok (xs, gen st') /\
    (forall i j k c, (i < nx)%nat -> (j < ny)%nat -> (k < nz)%nat -> nth (i + j * nx + k * nx * ny) noise c = nth ((i * ny + j) * nz + k) xs c) /\
    ((d_nx d <= zx)%Z -> (opt (d_ny d) 1 <= zy)%Z -> (opt (d_nz d) 1 <= zz)%Z -> (zx * zy * zz < 2 ^ 53)%Z ->
     near_field (fuzz eps dl noise) (Ok l)
       (@field3d L' w (Z.to_nat (d_nx d)) (Z.to_nat (opt (d_ny d) 1%Z)) (Z.to_nat (opt (d_nz d) 1%Z)) nx ny nz
          (B2R (d_dx d)) (B2R (opt (d_dy d) (lit L (-1) 0))) (B2R (opt (d_dz d) (lit L (-1) 0))) 1 1 1 (vals noise))).
Proof.
  intros Hd Ha Ha2 Ha3 Hc Hc2 Hc3 Hx Hy Hz0 H g Hg HN.
  destruct (noise_3d (L := L) rec fuel t v d a st l st' Hd H) as (nx & ny & nz & xs & noise & (zx & zy & zz & Hz & Ex & Ey & Ez) & Hdr & Hl & Hl2 & Hp & Hi & Hf).
  destruct (small3 t d a st l st' zx zy zz Hd H Hz) as (B1 & B2 & B3). exists zx, zy, zz, xs, noise. cbv zeta. rewrite <- Ex, <- Ey, <- Ez. split; [exact Hz|]. split; [exact Hdr|]. split; [exact Hi|].
  intros Lx Ly Lz LN53. assert (Nx : (Z.of_nat nx < 2 ^ 31)%Z) by lia. assert (Ny : (Z.of_nat ny < 2 ^ 31)%Z) by lia. assert (Nz : (Z.of_nat nz < 2 ^ 31)%Z) by lia.
  assert (NN : (Z.of_nat (nx * ny * nz) < 2 ^ 53)%Z) by (rewrite !Nat2Z.inj_mul, Ex, Ey, Ez, !Z2Nat.id by lia; exact LN53).
  assert (OKG : ok U g) by (split; [apply gen_uniform; auto|exact HN]).
  pose proof (draws_size m U HLog fuel _ _ xs (gen st') OKG Hdr) as Sz.
  assert (Sn : forall x, In x noise -> sized x) by (intros x Hin; apply Sz; exact (Permutation_in x Hp Hin)).
  destruct (len_sized noise) as [FN LN]; [change (length noise) with (@length (num L) noise); rewrite Hl2; exact NN|exact Sn|].
  rewrite Ha, Ha2, Ha3 in Hf. apply near_ok with (2 := Hf). apply made3; auto using cell_spacing; lia.
Qed.
End F.
