(** The padded grid a simulation uses, in terms of the answer of simulation_size. *)
From Coq Require Import ZArith List Bool Lia Permutation.
From Verif Require Import Base Arith M_Variogram M_Padding M_FftSize M_Grid M_CovGrid M_Fft M_Dsfmt M_Random M_Field M_Api
  S_Api S_CovGrid S_Sizes P_Base P_Grid P_Api P_Field P_Field3 P_Bounds P_FftSize P_Sim.
Import ListNotations.
Open Scope Z_scope.

Section P.
Context {L : Lib}.
Variable rec : recursion.
Variable fuel : nat.

Lemma even_1 (d : dims L) i : dim_asked d = 1%nat -> must_even d i = false.
Proof. unfold must_even. intros ->. rewrite andb_false_r. reflexivity. Qed.
Lemma even_0 (d : dims L) : (1 < dim_asked d)%nat -> must_even d 0 = true.
Proof. unfold must_even. intros. apply Nat.ltb_lt in H. rewrite H. reflexivity. Qed.
Lemma even_S (d : dims L) i : must_even d (S i) = false.
Proof. reflexivity. Qed.

Lemma sizes_used t (v : variogram L) (d : dims L) (a : adv L) ns st :
  fst (step rec fuel t (CSize v d) st) = Ok (VSizes ns) -> length ns = dim_asked d -> asks d a ns ->
  (dim_asked d = 1%nat -> sizes1 v (d_nx d) (d_dx d) (opt (a_padx a) (-1)) = grid_used d a ns 0) /\
  (dim_asked d = 2%nat -> sizes2 v (d_nx d) (d_dx d) (opt (d_ny d) 1) (opt (d_dy d) (lit L (-1) 0)) (opt (a_padx a) (-1)) (opt (a_pady a) (-1)) =
     let* x := grid_used d a ns 0 in let* y := grid_used d a ns 1 in Ok (x, y)) /\
  (dim_asked d = 3%nat -> sizes3 v (d_nx d) (d_dx d) (opt (d_ny d) 1) (opt (d_dy d) (lit L (-1) 0)) (opt (d_nz d) 1) (opt (d_dz d) (lit L (-1) 0))
       (opt (a_padx a) (-1)) (opt (a_pady a) (-1)) (opt (a_padz a) (-1)) =
     let* x := grid_used d a ns 0 in let* y := grid_used d a ns 1 in let* z := grid_used d a ns 2 in Ok (x, y, z)).
Proof.
  intros Hs Hdim Hr. cbn [step fst] in Hs.
  apply bind_Ok in Hs as ([[[[[nx dx] ny] dy] nz] dz] & A & Hs).
  pose proof A as A'. apply args_inv in A' as [E _]. injection E as -> -> -> -> -> ->.
  unfold omap in Hs. apply bind_Ok in Hs as (ns' & Hs & E). injection E as ->.
  unfold FindGridSizeAfterPadding in Hs. apply bind_Ok in Hs as (ps & Hps & E).
  unfold asks in Hr.
  pose proof (Hr 0%nat) as R0. pose proof (Hr 1%nat) as R1. pose proof (Hr 2%nat) as R2. clear Hr.
  pose proof (fun ps => desired_requested d a ps ns 0) as Q0. pose proof (fun ps => desired_requested d a ps ns 1) as Q1.
  pose proof (fun ps => desired_requested d a ps ns 2) as Q2.
  change (cells d 0) with (d_nx d) in *. change (cells d 1) with (opt (d_ny d) 1) in *. change (cells d 2) with (opt (d_nz d) 1) in *.
  change (nth 0 [a_padx a; a_pady a; a_padz a] None) with (a_padx a) in *.
  change (nth 1 [a_padx a; a_pady a; a_padz a] None) with (a_pady a) in *.
  change (nth 2 [a_padx a; a_pady a; a_padz a] None) with (a_padz a) in *.
  set (r0 := requested d a ns 0) in *. set (r1 := requested d a ns 1) in *. set (r2 := requested d a ns 2) in *.
  assert (Hlen : length ns = length ps).
  { injection E as <-. destruct ps as [|? [|? [|? [|]]]]; reflexivity. }
  rewrite Hlen in Hdim.
  split; [|split]; intros Hd; rewrite Hd in *.
  - unfold FindNDimPadding in Hps. unfold dim_asked in Hd. 
    destruct (opt (d_ny d) 1 <=? 1) eqn:Ey.
    2:{ exfalso. destruct (opt (d_nz d) 1 <=? 1); repeat (apply bind_Ok in Hps as (? & _ & Hps)); injection Hps as <-; discriminate. }
    apply bind_Ok in Hps as (p0 & Hp0 & Ep). injection Ep as <-. injection E as <-.
    destruct (Q0 [p0] p0 eq_refl eq_refl ltac:(lia)) as (p & Hp & Eu).
    unfold sizes1, FindNDimPadding, grid_used. change (1 <=? 1) with true. cbv iota. rewrite Hp0. cbn [bind]. rewrite Hp. cbn [bind].
    rewrite Eu, even_1 by auto. reflexivity.
  - unfold FindNDimPadding in Hps.
    destruct (opt (d_ny d) 1 <=? 1) eqn:Ey.
    { exfalso. repeat (apply bind_Ok in Hps as (? & _ & Hps)); injection Hps as <-; discriminate. }
    destruct (opt (d_nz d) 1 <=? 1) eqn:Ez.
    2:{ exfalso. repeat (apply bind_Ok in Hps as (? & _ & Hps)); injection Hps as <-; discriminate. }
    apply bind_Ok in Hps as (p0 & Hp0 & Hps). apply bind_Ok in Hps as (p1 & Hp1 & Ep). injection Ep as <-. injection E as <-.
    specialize (R0 ltac:(lia)). specialize (R1 ltac:(lia)).
    destruct (Q0 [p0; p1] p0 eq_refl eq_refl ltac:(lia)) as (p & Hp & Eu).
    destruct (Q1 [p0; p1] p1 eq_refl eq_refl ltac:(lia)) as (p' & Hp' & Eu').
    unfold sizes2, FindNDimPadding, grid_used. rewrite Ey. change (1 <=? 1) with true. cbv iota. rewrite Hp0, Hp1. cbn [bind]. rewrite Hp, Hp'. cbn [bind].
    rewrite Eu, Eu', even_0, even_S by lia. reflexivity.
  - unfold FindNDimPadding in Hps.
    destruct (opt (d_ny d) 1 <=? 1) eqn:Ey.
    { exfalso. repeat (apply bind_Ok in Hps as (? & _ & Hps)); injection Hps as <-; discriminate. }
    destruct (opt (d_nz d) 1 <=? 1) eqn:Ez.
    { exfalso. repeat (apply bind_Ok in Hps as (? & _ & Hps)); injection Hps as <-; discriminate. }
    apply bind_Ok in Hps as (p0 & Hp0 & Hps). apply bind_Ok in Hps as (p1 & Hp1 & Hps). apply bind_Ok in Hps as (p2 & Hp2 & Ep).
    injection Ep as <-. injection E as <-.
    specialize (R0 ltac:(lia)). specialize (R1 ltac:(lia)). specialize (R2 ltac:(lia)).
    destruct (Q0 [p0; p1; p2] p0 eq_refl eq_refl ltac:(lia)) as (p & Hp & Eu).
    destruct (Q1 [p0; p1; p2] p1 eq_refl eq_refl ltac:(lia)) as (p' & Hp' & Eu').
    destruct (Q2 [p0; p1; p2] p2 eq_refl eq_refl ltac:(lia)) as (p'' & Hp'' & Eu'').
    unfold sizes3, FindNDimPadding, grid_used. rewrite Ey, Ez. rewrite Hp0, Hp1, Hp2. cbn [bind]. rewrite Hp, Hp', Hp''. cbn [bind].
    rewrite Eu, Eu', Eu'', even_0, !even_S by lia. reflexivity.
Qed.

(** C14 *)
Lemma c14_3d t (v : variogram L) (d : dims L) (a : adv L) ns st l st' : dim_asked d = 3%nat ->
  fst (step rec fuel t (CSize v d) st) = Ok (VSizes ns) -> length ns = dim_asked d -> asks d a ns ->
  step rec fuel t (CAdvanced v d a) st = (Ok (VArray l), st') ->
  exists zx zy zz, grid_used d a ns 0 = Ok zx /\ grid_used d a ns 1 = Ok zy /\ grid_used d a ns 2 = Ok zz /\
  let nx := Z.to_nat zx in let ny := Z.to_nat zy in let nz := Z.to_nat zz in
  exists xs noise,
    draws (Unif01 rec) fuel (nx * ny * nz) (gen (ensure_init rec t st)) = Ok (xs, gen st') /\
    length xs = (nx * ny * nz)%nat /\ length noise = (nx * ny * nz)%nat /\ Permutation noise xs /\
    (forall i j k z, (i < nx)%nat -> (j < ny)%nat -> (k < nz)%nat ->
       nth (i + j * nx + k * nx * ny)%nat noise z = nth ((i * ny + j) * nz + k)%nat xs z) /\
    field3d v (Z.to_nat (d_nx d)) (Z.to_nat (opt (d_ny d) 1)) (Z.to_nat (opt (d_nz d) 1)) nx ny nz
      (d_dx d) (opt (d_dy d) (lit L (-1) 0)) (opt (d_dz d) (lit L (-1) 0))
      (opt (a_sx a) (lit L 1 0)) (opt (a_sy a) (lit L 1 0)) (opt (a_sz a) (lit L 1 0)) noise = Ok l.
Proof.
  intros Hd Hs Hl Ha H. apply noise_3d in H as (nx & ny & nz & xs & noise & (zx & zy & zz & Hz & -> & -> & ->) & H); auto.
  pose proof (sizes_used _ _ _ _ _ _ Hs Hl Ha) as (_ & _ & E). rewrite (E Hd) in Hz.
  apply bind_Ok in Hz as (x & Hx & Hz). apply bind_Ok in Hz as (y & Hy & Hz). apply bind_Ok in Hz as (z & Hzz & Hz).
  injection Hz as <- <- <-. exists x, y, z. do 3 (split; auto). exists xs, noise. exact H.
Qed.

Lemma c14_2d t (v : variogram L) (d : dims L) (a : adv L) ns st l st' : dim_asked d = 2%nat ->
  fst (step rec fuel t (CSize v d) st) = Ok (VSizes ns) -> length ns = dim_asked d -> asks d a ns ->
  step rec fuel t (CAdvanced v d a) st = (Ok (VArray l), st') ->
  let g := gen (ensure_init rec t st) in
  gen st' = snd (genrand_uint32 rec g) /\
  exists zx zy, grid_used d a ns 0 = Ok zx /\ grid_used d a ns 1 = Ok zy /\
  let nx := Z.to_nat zx in let ny := Z.to_nat zy in
  exists xs noise end_,
    draws (Unif01 rec) fuel (nx * ny) (init_gen_rand (fst (genrand_uint32 rec g))) = Ok (xs, end_) /\
    length xs = (nx * ny)%nat /\ length noise = (nx * ny)%nat /\ Permutation noise xs /\
    (forall i j z, (i < nx)%nat -> (j < ny)%nat -> nth (i + j * nx)%nat noise z = nth (i * ny + j)%nat xs z) /\
    field2d v (Z.to_nat (d_nx d)) (Z.to_nat (opt (d_ny d) 1)) nx ny
      (d_dx d) (opt (d_dy d) (lit L (-1) 0)) (opt (a_sx a) (lit L 1 0)) (opt (a_sy a) (lit L 1 0)) noise = Ok l.
Proof.
  intros Hd Hs Hl Ha H. cbv zeta. apply noise_2d in H as (Hg & nx & ny & xs & noise & e & (zx & zy & Hz & -> & ->) & H); auto.
  split; auto.
  pose proof (sizes_used _ _ _ _ _ _ Hs Hl Ha) as (_ & E & _). rewrite (E Hd) in Hz.
  apply bind_Ok in Hz as (x & Hx & Hz). apply bind_Ok in Hz as (y & Hy & Hz).
  injection Hz as <- <-. exists x, y. do 2 (split; auto). exists xs, noise, e. exact H.
Qed.

Lemma c14_1d t (v : variogram L) (d : dims L) (a : adv L) ns st l st' : dim_asked d = 1%nat ->
  fst (step rec fuel t (CSize v d) st) = Ok (VSizes ns) -> length ns = dim_asked d -> asks d a ns ->
  step rec fuel t (CAdvanced v d a) st = (Ok (VArray l), st') ->
  let g := gen (ensure_init rec t st) in
  gen st' = snd (genrand_uint32 rec g) /\
  exists zx, grid_used d a ns 0 = Ok zx /\
  let nx := Z.to_nat zx in
  exists noise end_,
    draws (Unif01 rec) fuel nx (init_gen_rand (fst (genrand_uint32 rec g))) = Ok (noise, end_) /\
    length noise = nx /\
    field1d v (Z.to_nat (d_nx d)) nx (d_dx d) (opt (a_sx a) (lit L 1 0)) noise = Ok l.
Proof.
  intros Hd Hs Hl Ha H. cbv zeta. apply noise_1d in H as (Hg & nx & noise & e & (zx & Hz & ->) & H); auto.
  split; auto.
  pose proof (sizes_used _ _ _ _ _ _ Hs Hl Ha) as (E & _ & _). rewrite (E Hd) in Hz.
  exists zx. split; auto. exists noise, e. exact H.
Qed.

(** consecutive draws: drawing n and then m is drawing n + m *)
Lemma draws_split n m s xs s' : draws (Unif01 (A := L) rec) fuel (n + m) s = Ok (xs, s') ->
  exists ys s1 zs, draws (Unif01 rec) fuel n s = Ok (ys, s1) /\ draws (Unif01 rec) fuel m s1 = Ok (zs, s') /\ xs = ys ++ zs.
Proof.
  intros H. rewrite draws_app in H. apply bind_Ok in H as ([ys s1] & H1 & H). apply bind_Ok in H as ([zs s2] & H2 & H).
  injection H as <- <-. eauto 7.
Qed.

Lemma grid_best (d : dims L) (a : adv L) ns i B : good_lib L B -> B <= 2 ^ 52 -> 1 <= requested d a ns i <= B ->
  (must_even d i = true -> 2 <= requested d a ns i) ->
  exists n, grid_used d a ns i = Ok n /\ best_size (must_even d i) (requested d a ns i) n /\ n < 2 * requested d a ns i.
Proof. intros [Ho Hg] HB Hr He. apply size_best; auto. lia. Qed.
End P.

(** ** Out-of-range conversions in the size search *)
Lemma search_oor o1 o2 m es : Forall (fun e => prod4 e < 2 ^ 64) es -> forall c, search o1 m es c = search o2 m es c.
Proof.
  induction 1 as [|[[[i j] k] l] es H _ IH]; intros c; [reflexivity|]. cbn [search]. unfold factor. unfold prod4 in H.
  apply Z.ltb_lt in H. rewrite H. cbn [bind]. apply IH.
Qed.

(** [m] is small enough for the exponents to be bounded *)
Lemma small_no_oor clogf m even o1 o2 : 1 <= m ->
  (0 <= clogf 2 m /\ 0 <= clogf 3 m /\ 0 <= clogf 5 m /\ 0 <= clogf 7 m) ->
  2 ^ clogf 2 m * 3 ^ clogf 3 m * 5 ^ clogf 5 m * 7 ^ clogf 7 m < 2 ^ 64 ->
  FindNewSizeWithPadding clogf o1 m even = FindNewSizeWithPadding clogf o2 m even.
Proof.
  intros Hm (A & B & C & D) H. unfold FindNewSizeWithPadding, maxant. destruct (Z.eqb_spec m 0) as [|_]; [lia|]. cbn [bind].
  set (a := clogf 2 m) in *. set (b := clogf 3 m) in *. set (c := clogf 5 m) in *. set (d := clogf 7 m) in *.
  assert (X : forall i j k l, 0 <= i <= a -> 0 <= j <= b -> 0 <= k <= c -> 0 <= l <= d -> 2 ^ i * 3 ^ j * 5 ^ k * 7 ^ l < 2 ^ 64).
  { intros. eapply Z.le_lt_trans; [|exact H]. apply prod_mono; apply pow_mono; lia. }
  unfold factor. pose proof (X a 0 0 0 ltac:(lia) ltac:(lia) ltac:(lia) ltac:(lia)) as X0. apply Z.ltb_lt in X0. rewrite X0. cbn [bind].
  apply search_oor. apply Forall_forall. intros [[[i j] k] l] Hin. apply In_exponents in Hin; [|destruct even; lia].
  unfold prod4. apply X; destruct even; lia.
Qed.

Lemma clog_pow p m a b : 2 <= p -> 0 <= a -> 0 <= b -> m <= p ^ b -> (forall c, 0 <= c < a -> p ^ c < m) -> a <= b.
Proof.
  intros Hp Ha Hb Hm Hl. destruct (Z.le_gt_cases a b); auto. specialize (Hl b ltac:(lia)). lia.
Qed.

Lemma good_logs_no_oor clogf m even o1 o2 : good_logs clogf m -> 1 <= m <= 8192 ->
  FindNewSizeWithPadding clogf o1 m even = FindNewSizeWithPadding clogf o2 m even.
Proof.
  intros Hg Hm.
  destruct (Hg 2) as (a & Ha & _ & Hla & Hca); [simpl; auto|].
  destruct (Hg 3) as (b & Hb & _ & Hlb & Hcb); [simpl; auto|].
  destruct (Hg 5) as (c & Hc & _ & Hlc & Hcc); [simpl; auto|].
  destruct (Hg 7) as (d & Hd & _ & Hld & Hcd); [simpl; auto|].
  assert (a <= 13) by (eapply (clog_pow 2 m); eauto; lia).
  assert (b <= 9) by (eapply (clog_pow 3 m); eauto; lia).
  assert (c <= 6) by (eapply (clog_pow 5 m); eauto; lia).
  assert (d <= 5) by (eapply (clog_pow 7 m); eauto; lia).
  apply small_no_oor; [lia|lia|].
  eapply Z.le_lt_trans with (2 ^ 14 * 3 ^ 10 * 5 ^ 7 * 7 ^ 6); [|reflexivity].
  apply prod_mono; apply pow_mono; lia.
Qed.

Lemma exact_logs_no_oor m even o1 o2 : 1 <= m <= 32768 ->
  FindNewSizeWithPadding clog o1 m even = FindNewSizeWithPadding clog o2 m even.
Proof.
  intros Hm.
  destruct (clog_spec 2 m) as (Ha & _ & Hla); [lia|lia|].
  destruct (clog_spec 3 m) as (Hb & _ & Hlb); [lia|lia|].
  destruct (clog_spec 5 m) as (Hc & _ & Hlc); [lia|lia|].
  destruct (clog_spec 7 m) as (Hd & _ & Hld); [lia|lia|].
  pose proof (clog_pow 2 m (clog 2 m) 15 ltac:(lia) Ha ltac:(lia) ltac:(lia) Hla).
  pose proof (clog_pow 3 m (clog 3 m) 10 ltac:(lia) Hb ltac:(lia) ltac:(lia) Hlb).
  pose proof (clog_pow 5 m (clog 5 m) 7 ltac:(lia) Hc ltac:(lia) ltac:(lia) Hlc).
  pose proof (clog_pow 7 m (clog 7 m) 6 ltac:(lia) Hd ltac:(lia) ltac:(lia) Hld).
  apply small_no_oor; [lia|lia|].
  eapply Z.le_lt_trans with (2 ^ 15 * 3 ^ 10 * 5 ^ 7 * 7 ^ 6); [|reflexivity].
  apply prod_mono; apply pow_mono; lia.
Qed.

Lemma size_defined clogf oor m even : good_logs clogf m -> 1 <= m <= 8192 -> (even = true -> 2 <= m) ->
  exists n, FindNewSizeWithPadding clogf oor m even = Ok n /\ best_size even m n /\ n < 2 * m.
Proof.
  intros Hg Hm He. rewrite (good_logs_no_oor clogf m even oor (fun _ => Ok 0)) by auto.
  apply size_best; auto; [|lia]. intros x _. auto.
Qed.
Lemma size_defined_exact oor m even : 1 <= m <= 32768 -> (even = true -> 2 <= m) ->
  exists n, FindNewSizeWithPadding clog oor m even = Ok n /\ best_size even m n /\ n < 2 * m.
Proof.
  intros Hm He. rewrite (exact_logs_no_oor m even oor (fun _ => Ok 0)) by auto.
  apply size_best; auto; [|apply exact_logs_good|]; try lia. intros x _. auto.
Qed.
