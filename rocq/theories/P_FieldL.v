(** The grid is large enough: results of simulate in 2D and 3D, given what simulation_size says. *)
From Coq Require Import ZArith Bool Lia Reals Lra List.
From Flocq Require Import Core IEEE754.BinarySingleNaN.
From Verif Require Import Base Arith RealArith FloatArith M_Variogram M_Grid M_CovGrid M_Fft M_FftSize M_Dsfmt M_Random M_Field M_Api S_CovGrid S_Vario S_Random S_Normal S_Api S_Sizes S_CorrF S_Accur S_FieldF S_FieldH P_Base P_Sim2 P_FieldJ.
Import ListNotations.
Open Scope R_scope.

Lemma used_room (L : Lib) (d : dims L) (a : adv L) ns i B z : good_lib L B -> (B <= 2 ^ 52)%Z -> has_room d a ns B -> (i < dim_asked d)%nat ->
  (2 <= requested d a ns 0)%Z -> grid_used d a ns i = Ok z -> (cells d i <= z < 2 * B)%Z.
Proof.
  intros HG HB HR Hi H2 Hz. destruct (HR i Hi) as [C1 C2].
  destruct (grid_best d a ns i B HG HB C2) as (n & Hn & [(_ & Hb & _) _] & Hlt).
  { intros He. destruct i; [exact H2|discriminate He]. }
  rewrite Hz in Hn. injection Hn as <-. lia.
Qed.
Lemma room_asks (L : Lib) (d : dims L) (a : adv L) ns B : (B <= 2 ^ 52)%Z -> has_room d a ns B -> asks d a ns.
Proof. intros HB HR i Hi. destruct (HR i Hi) as [_ C]. assert (2 ^ 52 < 2 ^ 64)%Z by reflexivity. lia. Qed.

Section F.
Variables (m : libm) (f : fftlib) (o : Z -> outcome Z) (cl : Z -> Z -> Z) (o' : Z -> outcome Z) (cl' : Z -> Z -> Z) (eps dl : R).
Notation L := (Flib m f o cl).
Notation L' := (Rlib o' cl').
Hypotheses (HM : rounds_well m) (HA : accurate eps f) (HS : fft_sizes L) (He : bpow radix2 (-53) <= eps) (Hd : eps + dl <= 1 / 1000000).
Variables (v : variogram (Farith m)) (w : variogram Rarith).
Hypothesis HV : same_call m dl v w.
Variables (rec : recursion) (fuel : nat).
Hypothesis HB : is_build rec.
Hypothesis HLog : log_sane m.
Notation U := (Unif01 (A := Farith m) rec).

Lemma roomy2 t (d : dims L) (a : adv L) st ns l st' : dim_asked d = 2%nat -> a_sx a = None -> a_sy a = None -> cell (d_dx d) -> cell (opt (d_dy d) (lit L (-1) 0)) -> (0 < d_nx d)%Z -> (0 < opt (d_ny d) 1)%Z ->
  good_lib L (2 ^ 25) -> fst (step rec fuel t (CSize (L := L) v d) st) = Ok (VSizes ns) -> length ns = 2%nat -> has_room d a ns (2 ^ 25) -> (2 <= requested d a ns 0)%Z ->
  step rec fuel t (CAdvanced (L := L) v d a) st = (Ok (VArray l), st') ->
  let seed := fst (genrand_uint32 rec (gen (ensure_init rec t st))) in no_two_halves U (init_gen_rand seed) ->
  exists zx zy xs noise end_, let nx := Z.to_nat zx in let ny := Z.to_nat zy in
    grid_used d a ns 0 = Ok zx /\ grid_used d a ns 1 = Ok zy /\
    draws U fuel (nx * ny) (init_gen_rand seed) = Ok (xs, end_) /\
    (forall i j c, (i < nx)%nat -> (j < ny)%nat -> nth (i + j * nx) noise c = nth (i * ny + j) xs c) /\
    near_field (fuzz eps dl noise) (Ok l)
      (@field2d L' w (Z.to_nat (d_nx d)) (Z.to_nat (opt (d_ny d) 1%Z)) nx ny (B2R (d_dx d)) (B2R (opt (d_dy d) (lit L (-1) 0))) 1 1 (vals noise)).
Proof.
  intros D A1 A2 C1 C2 N1 N2 HG Hs Hl HR R2 H seed HN.
  destruct (api2 m f o cl o' cl' eps dl HM HA HS He Hd v w HV rec fuel HB HLog t d a st l st' D A1 A2 C1 C2 N1 N2 H HN) as (zx & zy & xs & noise & en & Hz & Hdr & Hp & HF).
  assert (HB52 : (2 ^ 25 <= 2 ^ 52)%Z) by discriminate.
  destruct (sizes_used (L := L) rec fuel t v d a ns st Hs ltac:(congruence) (room_asks _ d a ns _ HB52 HR)) as (_ & E & _).
  rewrite (E D) in Hz. apply bind_Ok in Hz as (x & Gx & Hz). apply bind_Ok in Hz as (y & Gy & Hz). injection Hz as <- <-.
  pose proof (used_room _ d a ns 0 _ x HG HB52 HR ltac:(lia) R2 Gx) as [X1 X2]. pose proof (used_room _ d a ns 1 _ y HG HB52 HR ltac:(lia) R2 Gy) as [Y1 Y2].
  cbn [cells nth] in X1, Y1. unfold cells in X1, Y1. cbn [nth] in X1, Y1.
  exists x, y, xs, noise, en. cbv zeta. split; [exact Gx|]. split; [exact Gy|]. split; [exact Hdr|]. split; [exact Hp|]. apply HF; [exact X1|exact Y1|].
  change (2 * 2 ^ 25)%Z with (2 ^ 26)%Z in X2, Y2. apply Z.lt_le_trans with (2 ^ 26 * 2 ^ 26)%Z; [|discriminate]. apply Z.mul_lt_mono_nonneg; lia.
Qed.
Lemma roomy3 t (d : dims L) (a : adv L) st ns l st' : dim_asked d = 3%nat -> a_sx a = None -> a_sy a = None -> a_sz a = None ->
  cell (d_dx d) -> cell (opt (d_dy d) (lit L (-1) 0)) -> cell (opt (d_dz d) (lit L (-1) 0)) -> (0 < d_nx d)%Z -> (0 < opt (d_ny d) 1)%Z -> (0 < opt (d_nz d) 1)%Z ->
  good_lib L (2 ^ 16) -> fst (step rec fuel t (CSize (L := L) v d) st) = Ok (VSizes ns) -> length ns = 3%nat -> has_room d a ns (2 ^ 16) -> (2 <= requested d a ns 0)%Z ->
  step rec fuel t (CAdvanced (L := L) v d a) st = (Ok (VArray l), st') ->
  let g := gen (ensure_init rec t st) in reachable rec g -> no_two_halves U g ->
  exists zx zy zz xs noise, let nx := Z.to_nat zx in let ny := Z.to_nat zy in let nz := Z.to_nat zz in
    grid_used d a ns 0 = Ok zx /\ grid_used d a ns 1 = Ok zy /\ grid_used d a ns 2 = Ok zz /\
    draws U fuel (nx * ny * nz) g = Ok (xs, gen st') /\
    (forall i j k c, (i < nx)%nat -> (j < ny)%nat -> (k < nz)%nat -> nth (i + j * nx + k * nx * ny) noise c = nth ((i * ny + j) * nz + k) xs c) /\
    near_field (fuzz eps dl noise) (Ok l)
      (@field3d L' w (Z.to_nat (d_nx d)) (Z.to_nat (opt (d_ny d) 1%Z)) (Z.to_nat (opt (d_nz d) 1%Z)) nx ny nz
         (B2R (d_dx d)) (B2R (opt (d_dy d) (lit L (-1) 0))) (B2R (opt (d_dz d) (lit L (-1) 0))) 1 1 1 (vals noise)).
Proof.
  intros D A1 A2 A3 C1 C2 C3 N1 N2 N3 HG Hs Hl HR R2 H g Hg HN.
  destruct (api3 m f o cl o' cl' eps dl HM HA HS He Hd v w HV rec fuel HB HLog t d a st l st' D A1 A2 A3 C1 C2 C3 N1 N2 N3 H Hg HN) as (zx & zy & zz & xs & noise & Hz & Hdr & Hp & HF).
  assert (HB52 : (2 ^ 16 <= 2 ^ 52)%Z) by discriminate.
  destruct (sizes_used (L := L) rec fuel t v d a ns st Hs ltac:(congruence) (room_asks _ d a ns _ HB52 HR)) as (_ & _ & E).
  rewrite (E D) in Hz. apply bind_Ok in Hz as (x & Gx & Hz). apply bind_Ok in Hz as (y & Gy & Hz). apply bind_Ok in Hz as (z & Gz & Hz). injection Hz as <- <- <-.
  pose proof (used_room _ d a ns 0 _ x HG HB52 HR ltac:(lia) R2 Gx) as [X1 X2]. pose proof (used_room _ d a ns 1 _ y HG HB52 HR ltac:(lia) R2 Gy) as [Y1 Y2].
  pose proof (used_room _ d a ns 2 _ z HG HB52 HR ltac:(lia) R2 Gz) as [Z1 Z2]. unfold cells in X1, Y1, Z1. cbn [nth] in X1, Y1, Z1.
  exists x, y, z, xs, noise. cbv zeta. split; [exact Gx|]. split; [exact Gy|]. split; [exact Gz|]. split; [exact Hdr|]. split; [exact Hp|]. apply HF; [exact X1|exact Y1|exact Z1|].
  change (2 * 2 ^ 16)%Z with (2 ^ 17)%Z in X2, Y2, Z2. apply Z.lt_le_trans with (2 ^ 17 * 2 ^ 17 * 2 ^ 17)%Z; [|discriminate].
  assert (Q : (x * y < 2 ^ 17 * 2 ^ 17)%Z) by (apply Z.mul_lt_mono_nonneg; lia). assert (0 <= x * y)%Z by (apply Z.mul_nonneg_nonneg; lia). apply Z.mul_lt_mono_nonneg; lia.
Qed.
End F.
