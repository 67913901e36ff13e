(** Covariance, variance and linearity of the fields. *)
From Coq Require Import ZArith Bool String Lia Reals Lra Psatz List.
From Verif Require Import Base Arith RealArith M_Variogram M_Padding M_FftSize M_Grid M_CovGrid M_Fft M_Dsfmt M_Random M_Field M_Api S_Api S_Sizes S_CovGrid S_Vario S_Spectrum
  P_Base P_Grid P_Bounds P_Overrun P_Sim2 P_Cov P_Vario P_VarioMore P_VarioKernel P_Dft P_DftList P_DftField P_DftCov.
Import ListNotations.
Open Scope R_scope.

Definition got (x : outcome (list R)) : list R := match x with Ok l => l | _ => [] end.

Section R.
Variables (o : Z -> outcome Z) (cl : Z -> Z -> Z).
Notation L := (Rlib o cl).
Section V.
Variable v : variogram L.

Lemma c24 nx n dx sx : (0 < n)%nat -> (nx <= n)%nat ->
  forall (W : Type) (E : (W -> R) -> R) (noise : W -> list R), expectation E -> white E n noise ->
  exists field : W -> list R, (forall w, @field1d L v nx n dx sx (noise w) = Ok (field w) /\ length (field w) = nx) /\
    forall i i', (i < nx)%nat -> (i' < nx)%nat ->
      E (fun w => nth i (field w) 0 * nth i' (field w) 0) = clipped1 n (@cov1_spec Rarith v n dx sx) (INR i - INR i').
Proof.
  intros Hn Hx W E noise HE HW. exists (fun w => got (@field1d L v nx n dx sx (noise w))).
  assert (X : forall w, exists out : list R, @field1d L v nx n dx sx (noise w) = Ok out /\ length out = nx /\
    forall i, (i < nx)%nat -> nth i out 0 = rsum n (fun l => ker1 n (@cov1_spec Rarith v n dx sx) i l * nth l (noise w) 0)).
  { intros w. apply field1d_lin; auto. apply HW. }
  split.
  - intros w. destruct (X w) as (out & -> & H & _). auto.
  - intros i i' Hi Hi'. rewrite <- ker1_clip by lia. rewrite <- (E_white E HE n _ _ noise HW).
    apply HE. intros w. destruct (X w) as (out & -> & _ & H). cbn [got]. rewrite !H by auto. reflexivity.
Qed.
Lemma c25 nx ny nxt nyt dx dy sx sy : (nx <= nxt)%nat -> (ny <= nyt)%nat ->
  forall (W : Type) (E : (W -> R) -> R) (noise : W -> list R), expectation E -> white E (nxt * nyt) noise ->
  exists field : W -> list R, (forall w, @field2d L v nx ny nxt nyt dx dy sx sy (noise w) = Ok (field w) /\ length (field w) = (nx * ny)%nat) /\
    forall i j i' j', (i < nx)%nat -> (j < ny)%nat -> (i' < nx)%nat -> (j' < ny)%nat ->
      E (fun w => nth (i + j * nx) (field w) 0 * nth (i' + j' * nx) (field w) 0)
      = clipped2 nxt nyt (@cov2_spec Rarith v nxt dx nyt dy sx sy) (INR i - INR i') (INR j - INR j').
Proof.
  intros Hx Hy W E noise HE HW. exists (fun w => got (@field2d L v nx ny nxt nyt dx dy sx sy (noise w))).
  pose proof (fun w => field2d_lin o cl v nx ny nxt nyt dx dy sx sy (noise w) Hx Hy (proj1 HW w)) as X.
  split.
  - intros w. destruct (X w) as (out & -> & H & _). auto.
  - intros i j i' j' Hi Hj Hi' Hj'. rewrite <- ker2_clip by lia. rewrite <- (E_white E HE _ _ _ noise HW).
    apply HE. intros w. destruct (X w) as (out & -> & _ & H). cbn [got]. rewrite !H by auto. reflexivity.
Qed.
Lemma c26 nx ny nz nxt nyt nzt dx dy dz sx sy sz : (nx <= nxt)%nat -> (ny <= nyt)%nat -> (nz <= nzt)%nat ->
  forall (W : Type) (E : (W -> R) -> R) (noise : W -> list R), expectation E -> white E (nxt * nyt * nzt) noise ->
  exists field : W -> list R, (forall w, @field3d L v nx ny nz nxt nyt nzt dx dy dz sx sy sz (noise w) = Ok (field w) /\ length (field w) = (nx * ny * nz)%nat) /\
    forall i j k i' j' k', (i < nx)%nat -> (j < ny)%nat -> (k < nz)%nat -> (i' < nx)%nat -> (j' < ny)%nat -> (k' < nz)%nat ->
      E (fun w => nth (i + j * nx + k * nx * ny) (field w) 0 * nth (i' + j' * nx + k' * nx * ny) (field w) 0)
      = clipped3 nxt nyt nzt (@cov3_spec Rarith v nxt dx nyt dy nzt dz sx sy sz) (INR i - INR i') (INR j - INR j') (INR k - INR k').
Proof.
  intros Hx Hy Hz W E noise HE HW. exists (fun w => got (@field3d L v nx ny nz nxt nyt nzt dx dy dz sx sy sz (noise w))).
  pose proof (fun w => field3d_lin o cl v nx ny nz nxt nyt nzt dx dy dz sx sy sz (noise w) Hx Hy Hz (proj1 HW w)) as X.
  split.
  - intros w. destruct (X w) as (out & -> & H & _). auto.
  - intros i j k i' j' k' Hi Hj Hk Hi' Hj' Hk'. rewrite <- ker3_clip by lia. rewrite <- (E_white E HE _ _ _ noise HW).
    apply HE. intros w. destruct (X w) as (out & -> & _ & H). cbn [got]. rewrite !H by auto. reflexivity.
Qed.

(** linearity *)
Lemma nth_comb a b x y i : length x = length y -> nth i (comb a b x y) 0 = a * nth i x 0 + b * nth i y 0.
Proof.
  intros H. unfold comb. replace 0 with (a * fst (0, 0) + b * snd (0, 0)) at 1 by (cbn; ring).
  rewrite (map_nth (fun p => a * fst p + b * snd p)), combine_nth by auto. reflexivity.
Qed.
Lemma comb_length a b x y : length x = length y -> length (comb a b x y) = length x.
Proof. intros H. unfold comb. rewrite map_length, combine_length. lia. Qed.
Lemma lin_comb n (h : nat -> R) a b x y : length x = n -> length y = n ->
  rsum n (fun l => h l * nth l (comb a b x y) 0) = a * rsum n (fun l => h l * nth l x 0) + b * rsum n (fun l => h l * nth l y 0).
Proof.
  intros Hx Hy. rewrite <- !rsum_scal, <- rsum_plus. apply rsum_ext. intros. rewrite nth_comb by lia. ring.
Qed.
Lemma eq_nth (x y : list R) : length x = length y -> (forall i, (i < length x)%nat -> nth i x 0 = nth i y 0) -> x = y.
Proof. intros. apply (nth_ext _ _ 0 0); auto. Qed.

Lemma c30_1 nx n dx sx (x y : list R) a b : (0 < n)%nat -> (nx <= n)%nat -> length x = n -> length y = n ->
  exists fx fy : list R, @field1d L v nx n dx sx x = Ok fx /\ @field1d L v nx n dx sx y = Ok fy /\
    @field1d L v nx n dx sx (comb a b x y) = Ok (comb a b fx fy).
Proof.
  intros Hn Hx Lx Ly. destruct (field1d_lin o cl v nx n dx sx x Hn Hx Lx) as (fx & Ex & Lfx & Hfx).
  destruct (field1d_lin o cl v nx n dx sx y Hn Hx Ly) as (fy & Ey & Lfy & Hfy).
  destruct (field1d_lin o cl v nx n dx sx (comb a b x y) Hn Hx) as (fz & Ez & Lfz & Hfz); [rewrite comb_length; lia|].
  exists fx, fy. rewrite Ez. split; [auto|split; [auto|]]. f_equal. apply eq_nth; [rewrite comb_length; lia|].
  intros i Hi. rewrite nth_comb by lia. rewrite Hfx, Hfy, Hfz by lia. apply lin_comb; auto.
Qed.
Lemma c30_2 nx ny nxt nyt dx dy sx sy (x y : list R) a b : (nx <= nxt)%nat -> (ny <= nyt)%nat -> length x = (nxt * nyt)%nat -> length y = (nxt * nyt)%nat ->
  exists fx fy : list R, @field2d L v nx ny nxt nyt dx dy sx sy x = Ok fx /\ @field2d L v nx ny nxt nyt dx dy sx sy y = Ok fy /\
    @field2d L v nx ny nxt nyt dx dy sx sy (comb a b x y) = Ok (comb a b fx fy).
Proof.
  intros Hx Hy Lx Ly. destruct (field2d_lin o cl v nx ny nxt nyt dx dy sx sy x Hx Hy Lx) as (fx & Ex & Lfx & Hfx).
  destruct (field2d_lin o cl v nx ny nxt nyt dx dy sx sy y Hx Hy Ly) as (fy & Ey & Lfy & Hfy).
  destruct (field2d_lin o cl v nx ny nxt nyt dx dy sx sy (comb a b x y) Hx Hy) as (fz & Ez & Lfz & Hfz); [rewrite comb_length; lia|].
  exists fx, fy. rewrite Ez. split; [auto|split; [auto|]]. f_equal. apply eq_nth; [rewrite comb_length; lia|].
  intros q Hq. rewrite nth_comb by lia. pose proof (GetIndex_GetIJ nx ny q ltac:(lia)) as H. destruct (GetIJ nx ny q) as [i j]. destruct H as (Hi & Hj & <-).
  unfold GetIndex2. rewrite Hfx, Hfy, Hfz by lia. apply lin_comb; auto.
Qed.
Lemma c30_3 nx ny nz nxt nyt nzt dx dy dz sx sy sz (x y : list R) a b : (nx <= nxt)%nat -> (ny <= nyt)%nat -> (nz <= nzt)%nat ->
  length x = (nxt * nyt * nzt)%nat -> length y = (nxt * nyt * nzt)%nat ->
  exists fx fy : list R, @field3d L v nx ny nz nxt nyt nzt dx dy dz sx sy sz x = Ok fx /\ @field3d L v nx ny nz nxt nyt nzt dx dy dz sx sy sz y = Ok fy /\
    @field3d L v nx ny nz nxt nyt nzt dx dy dz sx sy sz (comb a b x y) = Ok (comb a b fx fy).
Proof.
  intros Hx Hy Hz Lx Ly. destruct (field3d_lin o cl v nx ny nz nxt nyt nzt dx dy dz sx sy sz x Hx Hy Hz Lx) as (fx & Ex & Lfx & Hfx).
  destruct (field3d_lin o cl v nx ny nz nxt nyt nzt dx dy dz sx sy sz y Hx Hy Hz Ly) as (fy & Ey & Lfy & Hfy).
  destruct (field3d_lin o cl v nx ny nz nxt nyt nzt dx dy dz sx sy sz (comb a b x y) Hx Hy Hz) as (fz & Ez & Lfz & Hfz); [rewrite comb_length; lia|].
  exists fx, fy. rewrite Ez. split; [auto|split; [auto|]]. f_equal. apply eq_nth; [rewrite comb_length; lia|].
  intros q Hq. rewrite nth_comb by lia. pose proof (GetIndex_GetIJK nx ny nz q ltac:(lia)) as H. destruct (GetIJK nx ny q) as [[i j] k]. destruct H as (Hi & Hj & Hk & <-).
  unfold GetIndex3. rewrite Hfx, Hfy, Hfz by lia. apply lin_comb; auto.
Qed.
Lemma zero_noise n : @comb 0 0 (repeat 0 n) (repeat 0 n) = repeat 0 n.
Proof. unfold comb. induction n; [reflexivity|]. cbn. rewrite IHn. f_equal. ring. Qed.
Lemma comb_00 (x y : list R) : length x = length y -> comb 0 0 x y = repeat 0 (length x).
Proof. intros H. apply eq_nth; [rewrite comb_length, repeat_length; auto|]. intros i Hi. rewrite nth_comb by auto. rewrite nth_repeat. ring. Qed.

(** means *)
Lemma c30_mean1 nx n dx sx : (0 < n)%nat -> (nx <= n)%nat ->
  forall (W : Type) (E : (W -> R) -> R) (noise : W -> list R) (field : W -> list R), expectation E -> (forall w, length (noise w) = n) -> centred E n noise ->
  (forall w, @field1d L v nx n dx sx (noise w) = Ok (field w)) -> centred E nx field.
Proof.
  intros Hn Hx W E noise field HE HL HC HF i Hi.
  refine (eq_trans _ (E_centred E HE n (fun l => ker1 n (@cov1_spec Rarith v n dx sx) i l) noise HC)). apply HE. intros w.
  destruct (field1d_lin o cl v nx n dx sx (noise w) Hn Hx (HL w)) as (out & E1 & _ & H). rewrite HF in E1. injection E1 as <-. apply H. auto.
Qed.
Lemma c30_mean2 nx ny nxt nyt dx dy sx sy : (nx <= nxt)%nat -> (ny <= nyt)%nat ->
  forall (W : Type) (E : (W -> R) -> R) (noise : W -> list R) (field : W -> list R), expectation E -> (forall w, length (noise w) = (nxt * nyt)%nat) -> centred E (nxt * nyt) noise ->
  (forall w, @field2d L v nx ny nxt nyt dx dy sx sy (noise w) = Ok (field w)) -> centred E (nx * ny) field.
Proof.
  intros Hx Hy W E noise field HE HL HC HF q Hq.
  pose proof (GetIndex_GetIJ nx ny q ltac:(lia)) as H. destruct (GetIJ nx ny q) as [i j]. destruct H as (Hi & Hj & <-).
  refine (eq_trans _ (E_centred E HE _ (fun l => ker2 nxt nyt (@cov2_spec Rarith v nxt dx nyt dy sx sy) i j l) noise HC)). apply HE. intros w.
  destruct (field2d_lin o cl v nx ny nxt nyt dx dy sx sy (noise w) Hx Hy (HL w)) as (out & E1 & _ & H). rewrite HF in E1. injection E1 as <-. apply H; auto.
Qed.
Lemma c30_mean3 nx ny nz nxt nyt nzt dx dy dz sx sy sz : (nx <= nxt)%nat -> (ny <= nyt)%nat -> (nz <= nzt)%nat ->
  forall (W : Type) (E : (W -> R) -> R) (noise : W -> list R) (field : W -> list R), expectation E -> (forall w, length (noise w) = (nxt * nyt * nzt)%nat) -> centred E (nxt * nyt * nzt) noise ->
  (forall w, @field3d L v nx ny nz nxt nyt nzt dx dy dz sx sy sz (noise w) = Ok (field w)) -> centred E (nx * ny * nz) field.
Proof.
  intros Hx Hy Hz W E noise field HE HL HC HF q Hq.
  pose proof (GetIndex_GetIJK nx ny nz q ltac:(lia)) as H. destruct (GetIJK nx ny q) as [[i j] k]. destruct H as (Hi & Hj & Hk & <-).
  refine (eq_trans _ (E_centred E HE _ (fun l => ker3 nxt nyt nzt (@cov3_spec Rarith v nxt dx nyt dy nzt dz sx sy sz) i j k l) noise HC)). apply HE. intros w.
  destruct (field3d_lin o cl v nx ny nz nxt nyt nzt dx dy dz sx sy sz (noise w) Hx Hy Hz (HL w)) as (out & E1 & _ & H). rewrite HF in E1. injection E1 as <-. apply H; auto.
Qed.
End V.

(** through the API *)
Lemma opt_1 (x : option R) : opt x (lit L 1 0) = opt x 1.
Proof. destruct x; cbn; [reflexivity|lra]. Qed.
Lemma api1 (v : variogram L) (d : dims L) (a : adv L) zx : dim_asked d = 1%nat -> (0 < zx)%Z -> (d_nx d <= zx)%Z ->
  let nx := Z.to_nat (d_nx d) in let n := Z.to_nat zx in
  exists h : nat -> nat -> R,
    (forall i i', (i < nx)%nat -> (i' < nx)%nat ->
       rsum n (fun l => h i l * h i' l) = clipped1 n (@cov1_spec Rarith v n (d_dx d) (opt (a_sx a) 1)) (INR i - INR i')) /\
    forall rec fuel t ns st (l : list R) st',
      fst (step rec fuel t (CSize v d) st) = Ok (VSizes ns) -> length ns = 1%nat -> asks d a ns -> grid_used d a ns 0 = Ok zx ->
      step rec fuel t (CAdvanced v d a) st = (Ok (@VArray L l), st') ->
      exists (noise : list R) end_,
        draws (Unif01 (A := L) rec) fuel n (init_gen_rand (fst (genrand_uint32 rec (gen (ensure_init rec t st))))) = Ok (noise, end_) /\
        forall i, (i < nx)%nat -> nth i l 0 = rsum n (fun q => h i q * nth q noise 0).
Proof.
  intros Hd Hz Hx nx n. exists (ker1 n (@cov1_spec Rarith v n (d_dx d) (opt (a_sx a) 1))). split; [intros; apply ker1_clip; lia|].
  intros rec fuel t ns st l st' Hs Hl Ha Hg H. 
  destruct (c14_1d rec fuel t v d a ns st l st' Hd Hs ltac:(congruence) Ha H) as (_ & zx' & Hg' & noise & e & Hdr & Hln & Hf).
  rewrite Hg in Hg'. injection Hg' as <-. fold n in Hdr, Hln, Hf. fold nx in Hf. exists noise, e. split; auto. intros i Hi.
  destruct (field1d_lin o cl v nx n (d_dx d) (opt (a_sx a) (lit L 1 0)) noise ltac:(lia) ltac:(lia) Hln) as (out & E & _ & HH).
  rewrite E in Hf. injection Hf as ->. rewrite HH by auto. rewrite opt_1. reflexivity.
Qed.
(** where the draws go in 2D and 3D: cell (i,j) gets draw i*ny+j, cell (i,j,k) draw (i*ny+j)*nz+k *)
Lemma api2 (v : variogram L) (d : dims L) (a : adv L) zx zy : dim_asked d = 2%nat -> (0 < zx)%Z -> (0 < zy)%Z -> (d_nx d <= zx)%Z -> (opt (d_ny d) 1 <= zy)%Z ->
  let nx := Z.to_nat (d_nx d) in let ny := Z.to_nat (opt (d_ny d) 1%Z) in let nxt := Z.to_nat zx in let nyt := Z.to_nat zy in
  exists h : nat -> nat -> nat -> R,
    (forall i j i' j', (i < nx)%nat -> (j < ny)%nat -> (i' < nx)%nat -> (j' < ny)%nat ->
       rsum (nxt * nyt) (fun l => h i j l * h i' j' l)
       = clipped2 nxt nyt (@cov2_spec Rarith v nxt (d_dx d) nyt (opt (d_dy d) (-1)) (opt (a_sx a) 1) (opt (a_sy a) 1)) (INR i - INR i') (INR j - INR j')) /\
    forall rec fuel t ns st (l : list R) st',
      fst (step rec fuel t (CSize v d) st) = Ok (VSizes ns) -> length ns = 2%nat -> asks d a ns -> grid_used d a ns 0 = Ok zx -> grid_used d a ns 1 = Ok zy ->
      step rec fuel t (CAdvanced v d a) st = (Ok (@VArray L l), st') ->
      exists (xs noise : list R) end_,
        draws (Unif01 (A := L) rec) fuel (nxt * nyt) (init_gen_rand (fst (genrand_uint32 rec (gen (ensure_init rec t st))))) = Ok (xs, end_) /\
        Permutation.Permutation noise xs /\
        forall i j, (i < nx)%nat -> (j < ny)%nat -> nth (i + j * nx) l 0 = rsum (nxt * nyt) (fun q => h i j q * nth q noise 0).
Proof.
  intros Hd Hz Hz' Hx Hy nx ny nxt nyt. exists (ker2 nxt nyt (@cov2_spec Rarith v nxt (d_dx d) nyt (opt (d_dy d) (-1)) (opt (a_sx a) 1) (opt (a_sy a) 1))). split; [intros; apply ker2_clip; lia|].
  intros rec fuel t ns st l st' Hs Hl Ha Hg Hg2 H. 
  destruct (c14_2d rec fuel t v d a ns st l st' Hd Hs ltac:(congruence) Ha H) as (_ & zx' & zy' & Hg' & Hg2' & xs & noise & e & Hdr & _ & Hln & Hperm & _ & Hf).
  rewrite Hg in Hg'. injection Hg' as <-. rewrite Hg2 in Hg2'. injection Hg2' as <-.
  fold nxt nyt in Hdr, Hln, Hf. fold nx ny in Hf. exists xs, noise, e. split; auto. split; auto. intros i j Hi Hj.
  destruct (field2d_lin o cl v nx ny nxt nyt (d_dx d) (opt (d_dy d) (lit L (-1) 0)) (opt (a_sx a) (lit L 1 0)) (opt (a_sy a) (lit L 1 0)) noise ltac:(lia) ltac:(lia) Hln) as (out & E & _ & HH).
  rewrite E in Hf. injection Hf as ->. rewrite HH by auto. rewrite !opt_1.
  assert (E1 : opt (d_dy d) (lit L (-1) 0) = opt (d_dy d) (-1)) by (destruct (d_dy d); cbn; [reflexivity|lra]). rewrite E1. reflexivity.
Qed.
Lemma api3 (v : variogram L) (d : dims L) (a : adv L) zx zy zz : dim_asked d = 3%nat -> (0 < zx)%Z -> (0 < zy)%Z -> (0 < zz)%Z ->
  (d_nx d <= zx)%Z -> (opt (d_ny d) 1 <= zy)%Z -> (opt (d_nz d) 1 <= zz)%Z ->
  let nx := Z.to_nat (d_nx d) in let ny := Z.to_nat (opt (d_ny d) 1%Z) in let nz := Z.to_nat (opt (d_nz d) 1%Z) in
  let nxt := Z.to_nat zx in let nyt := Z.to_nat zy in let nzt := Z.to_nat zz in
  exists h : nat -> nat -> nat -> nat -> R,
    (forall i j k i' j' k', (i < nx)%nat -> (j < ny)%nat -> (k < nz)%nat -> (i' < nx)%nat -> (j' < ny)%nat -> (k' < nz)%nat ->
       rsum (nxt * nyt * nzt) (fun l => h i j k l * h i' j' k' l)
       = clipped3 nxt nyt nzt (@cov3_spec Rarith v nxt (d_dx d) nyt (opt (d_dy d) (-1)) nzt (opt (d_dz d) (-1)) (opt (a_sx a) 1) (opt (a_sy a) 1) (opt (a_sz a) 1))
           (INR i - INR i') (INR j - INR j') (INR k - INR k')) /\
    forall rec fuel t ns st (l : list R) st',
      fst (step rec fuel t (CSize v d) st) = Ok (VSizes ns) -> length ns = 3%nat -> asks d a ns ->
      grid_used d a ns 0 = Ok zx -> grid_used d a ns 1 = Ok zy -> grid_used d a ns 2 = Ok zz ->
      step rec fuel t (CAdvanced v d a) st = (Ok (@VArray L l), st') ->
      exists (xs noise : list R),
        draws (Unif01 (A := L) rec) fuel (nxt * nyt * nzt) (gen (ensure_init rec t st)) = Ok (xs, gen st') /\
        Permutation.Permutation noise xs /\
        forall i j k, (i < nx)%nat -> (j < ny)%nat -> (k < nz)%nat ->
          nth (i + j * nx + k * nx * ny) l 0 = rsum (nxt * nyt * nzt) (fun q => h i j k q * nth q noise 0).
Proof.
  intros Hd Hz Hz' Hz'' Hx Hy Hzz nx ny nz nxt nyt nzt.
  exists (ker3 nxt nyt nzt (@cov3_spec Rarith v nxt (d_dx d) nyt (opt (d_dy d) (-1)) nzt (opt (d_dz d) (-1)) (opt (a_sx a) 1) (opt (a_sy a) 1) (opt (a_sz a) 1))).
  split; [intros; apply ker3_clip; lia|].
  intros rec fuel t ns st l st' Hs Hl Ha Hg Hg2 Hg3 H. 
  destruct (c14_3d rec fuel t v d a ns st l st' Hd Hs ltac:(congruence) Ha H) as (zx' & zy' & zz' & Hg' & Hg2' & Hg3' & xs & noise & Hdr & _ & Hln & Hperm & _ & Hf).
  rewrite Hg in Hg'. injection Hg' as <-. rewrite Hg2 in Hg2'. injection Hg2' as <-. rewrite Hg3 in Hg3'. injection Hg3' as <-.
  fold nxt nyt nzt in Hdr, Hln, Hf. fold nx ny nz in Hf. exists xs, noise. split; auto. split; auto. intros i j k Hi Hj Hk.
  destruct (field3d_lin o cl v nx ny nz nxt nyt nzt (d_dx d) (opt (d_dy d) (lit L (-1) 0)) (opt (d_dz d) (lit L (-1) 0)) (opt (a_sx a) (lit L 1 0)) (opt (a_sy a) (lit L 1 0)) (opt (a_sz a) (lit L 1 0)) noise
     ltac:(lia) ltac:(lia) ltac:(lia) Hln) as (out & E & _ & HH).
  rewrite E in Hf. injection Hf as ->. rewrite HH by auto. rewrite !opt_1.
  assert (E1 : forall x : option R, opt x (lit L (-1) 0) = opt x (-1)) by (intros [x|]; cbn; [reflexivity|lra]). rewrite !E1. reflexivity.
Qed.
End R.

(** ** variances *)
Section Var.
Variables (s : string) (main perp depth azi dp pw : R) (v : variogram Rarith).
Hypothesis HC : @CreateVariogram Rarith s main perp depth azi dp pw = Ok v.
Hypotheses (Hm : 0 < main) (Hp : perp <> 0) (Hd : depth <> 0) (Hw : 0 < pw).

Lemma var_1 : var v = 1.
Proof. destruct (created_new _ _ _ _ _ _ _ _ HC) as (t & pw' & -> & _). cbn. ring. Qed.
Lemma cov1_at0 n dx sx : (0 < n)%nat -> @cov1_spec Rarith v n dx sx 0 = 1.
Proof.
  intros Hn. unfold cov1_spec. destruct (FindSmoothingFactors _ _ _ _) as [[? ?] ?]. rewrite lag1_0, kernel_0, var_1 by auto.
  rewrite corr1_2, corr2_3. destruct (c36_3d _ _ _ _ _ _ _ _ HC Hm Hp Hd Hw) as [E _]. rewrite E. cbn. ring.
Qed.
Lemma cov2_at0 nx dx ny dy sx sy : (0 < nx)%nat -> (0 < ny)%nat -> @cov2_spec Rarith v nx dx ny dy sx sy 0 0 = 1.
Proof.
  intros Hx Hy. unfold cov2_spec. destruct (FindSmoothingFactors _ _ _ _) as [[? ?] ?]. rewrite !lag_0, !kernel_0, var_1 by auto.
  rewrite corr2_3. destruct (c36_3d _ _ _ _ _ _ _ _ HC Hm Hp Hd Hw) as [E _]. rewrite E. cbn. ring.
Qed.
Lemma cov3_at0 nx dx ny dy nz dz sx sy sz : (0 < nx)%nat -> (0 < ny)%nat -> (0 < nz)%nat -> @cov3_spec Rarith v nx dx ny dy nz dz sx sy sz 0 0 0 = 1.
Proof.
  intros Hx Hy Hz. unfold cov3_spec. destruct (FindSmoothingFactors _ _ _ _) as [[? ?] ?]. rewrite !lag_0, !kernel_0, var_1 by auto.
  destruct (c36_3d _ _ _ _ _ _ _ _ HC Hm Hp Hd Hw) as [E _]. rewrite E. cbn. ring.
Qed.
End Var.

Lemma sbm_same n i : (i < n)%nat -> sbm n i i = 0%nat.
Proof. intros. unfold sbm. replace (i + (n - i))%nat with n by lia. apply Nat.mod_same. lia. Qed.
Lemma mirror_0 n : (0 < n)%nat -> mirror n 0 = 0%nat.
Proof. intros. unfold mirror. rewrite Nat.sub_0_r. apply Nat.mod_same. lia. Qed.

(** the variance, and how far a covariance can be from what was asked for *)
Lemma c29_1 n c : (0 < n)%nat -> clipped1 n c 0 = c 0%nat + mass1 n c / INR n /\ 0 <= mass1 n c /\ (mass1 n c = 0 <-> nonneg1 n c) /\
  forall i i', (i < n)%nat -> (i' < n)%nat ->
    Rabs (clipped1 n c (INR i - INR i') - (c (sbm n i i') + c (mirror n (sbm n i i'))) / 2) <= mass1 n c / INR n.
Proof.
  intros Hn. pose proof (sys1_good n Hn) as G. rewrite !mass1_g. split; [|split; [|split]].
  - replace 0 with (INR 0 - INR 0) at 1 by (cbn; ring). rewrite clipped1_g, (clip_same _ G), req1 by (rewrite ?dN1; auto).
    rewrite dN1, sbm_same, mirror_0 by auto. field. pose proof (lt_0_INR n Hn). lra.
  - apply mass_nonneg.
  - rewrite nonneg1_g. apply mass_0.
  - intros i i' Hi Hi'. rewrite clipped1_g, <- req1 by auto. pose proof (clip_diff _ G c i i') as H. rewrite dN1 in H. apply H; auto.
Qed.
Lemma c29_2 nx ny c : (0 < nx)%nat -> (0 < ny)%nat -> clipped2 nx ny c 0 0 = c 0%nat 0%nat + mass2 nx ny c / (INR nx * INR ny) /\ 0 <= mass2 nx ny c /\
  (mass2 nx ny c = 0 <-> nonneg2 nx ny c) /\
  forall i j i' j', (i < nx)%nat -> (j < ny)%nat -> (i' < nx)%nat -> (j' < ny)%nat ->
    Rabs (clipped2 nx ny c (INR i - INR i') (INR j - INR j')
          - (c (sbm nx i i') (sbm ny j j') + c (mirror nx (sbm nx i i')) (mirror ny (sbm ny j j'))) / 2) <= mass2 nx ny c / (INR nx * INR ny).
Proof.
  intros Hx Hy. pose proof (sys2_good ny nx Hy Hx) as G. pose proof (lt_0_INR nx Hx). pose proof (lt_0_INR ny Hy).
  assert (EN : INR (dN (sys2 ny nx)) = INR nx * INR ny) by (rewrite dN2, mult_INR; ring).
  rewrite !mass2_g. split; [|split; [|split]].
  - replace (clipped2 nx ny c 0 0) with (clipped2 nx ny c (INR 0 - INR 0) (INR 0 - INR 0)) by (f_equal; cbn; ring).
    rewrite clipped2_g, (clip_same _ G), req2 by (auto; apply flat_lt; auto).
    rewrite EN, !sbm_same, !mirror_0 by auto. field. lra.
  - apply mass_nonneg.
  - rewrite nonneg2_g. apply mass_0.
  - intros i j i' j' Hi Hj Hi' Hj'. rewrite clipped2_g, <- req2 by auto. rewrite <- EN. apply (clip_diff _ G); apply flat_lt; auto.
Qed.
Lemma c29_3 nx ny nz c : (0 < nx)%nat -> (0 < ny)%nat -> (0 < nz)%nat ->
  clipped3 nx ny nz c 0 0 0 = c 0%nat 0%nat 0%nat + mass3 nx ny nz c / (INR nx * INR ny * INR nz) /\ 0 <= mass3 nx ny nz c /\
  (mass3 nx ny nz c = 0 <-> nonneg3 nx ny nz c) /\
  forall i j k i' j' k', (i < nx)%nat -> (j < ny)%nat -> (k < nz)%nat -> (i' < nx)%nat -> (j' < ny)%nat -> (k' < nz)%nat ->
    Rabs (clipped3 nx ny nz c (INR i - INR i') (INR j - INR j') (INR k - INR k')
          - (c (sbm nx i i') (sbm ny j j') (sbm nz k k') + c (mirror nx (sbm nx i i')) (mirror ny (sbm ny j j')) (mirror nz (sbm nz k k'))) / 2)
    <= mass3 nx ny nz c / (INR nx * INR ny * INR nz).
Proof.
  intros Hx Hy Hz. pose proof (sys3_good nz ny nx Hz Hy Hx) as G. pose proof (lt_0_INR nx Hx). pose proof (lt_0_INR ny Hy). pose proof (lt_0_INR nz Hz).
  assert (EN : INR (dN (sys3 nz ny nx)) = INR nx * INR ny * INR nz) by (rewrite dN3, !mult_INR; ring).
  assert (FL : forall i j k, (i < nx)%nat -> (j < ny)%nat -> (k < nz)%nat -> ((k * ny + j) * nx + i < dN (sys3 nz ny nx))%nat).
  { intros. rewrite dN3. apply flat_lt; auto. apply flat_lt; auto. }
  rewrite !mass3_g. split; [|split; [|split]].
  - replace (clipped3 nx ny nz c 0 0 0) with (clipped3 nx ny nz c (INR 0 - INR 0) (INR 0 - INR 0) (INR 0 - INR 0)) by (f_equal; cbn; ring).
    rewrite clipped3_g, (clip_same _ G), req3 by auto.
    rewrite EN, !sbm_same, !mirror_0 by auto. field. lra.
  - apply mass_nonneg.
  - rewrite nonneg3_g. apply mass_0.
  - intros i j k i' j' k' Hi Hj Hk Hi' Hj' Hk'. rewrite clipped3_g, <- req3 by auto. rewrite <- EN. apply (clip_diff _ G); auto.
Qed.
