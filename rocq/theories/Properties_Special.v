(** Changes of units and variograms with a known answer, in exact arithmetic ([Rlib], see Properties_Dft.v). Vocabulary: S_Special.v. *)
From Coq Require Import ZArith Bool Lia Reals Lra String List.
From Verif Require Import Base Arith RealArith M_Variogram M_Padding M_FftSize M_Dsfmt M_Random M_Field M_Api
  S_Api S_CovGrid S_Sizes S_Room S_Vario S_Special P_Base P_Padding P_Refute P_Sim2 P_FftSize P_Special2 P_SpecialEx P_Units P_Room.
Import ListNotations.
Open Scope R_scope.

(** ** C17 *)
(** one size per direction, each n + max(floor(range/step), trunc(ratio*range/step - n)) + 1, greater than n + range/step and than
    ratio*range/step *)
Theorem C17_size_rule : forall (o : Z -> outcome Z) (cl : Z -> Z -> Z) s n t main perp depth azi dp pw (v : variogram (Rlib o cl)),
  @CreateVariogram Rarith s main perp depth azi dp pw = Ok v -> In (n, t) documented -> lower s = n ->
  0 < main -> 0 < or_main main perp -> 0 < or_main main depth ->
  forall rec fuel now (d : dims (Rlib o cl)) st ns,
  (forall i, (i < List.length ns)%nat -> 0 < step_of d i /\ (cells d i < 2 ^ 63)%Z) ->
  fst (step rec fuel now (CSize v d) st) = Ok (VSizes ns) ->
  List.length ns = (if (opt (d_ny d) 1 <=? 1)%Z then 1 else if (opt (d_nz d) 1 <=? 1)%Z then 2 else 3)%nat /\
  forall i, (i < List.length ns)%nat ->
    size_rule (grid_ratio t pw) (room_range main (or_main main perp) (or_main main depth) azi (List.length ns) i) (step_of d i) (cells d i) (nth i ns 0%Z).
Proof. exact size_named. Qed.
Print Assumptions C17_size_rule.

(** ** C48 *)
(** The same question in another unit of length: the ranges, spacings and separations times k. *)
Theorem C48_units : forall (o : Z -> outcome Z) (cl : Z -> Z -> Z) (k : R), 0 < k ->
  forall s main perp depth azi dp pw (v v' : variogram (Rlib o cl)) rec fuel t0 st0,
  main <> 0 -> perp <> Some 0 -> depth <> Some 0 ->
  let c := @CVariogram (Rlib o cl) s main perp depth azi dp pw in
  fst (step rec fuel t0 c st0) = Ok (@VVariogram (Rlib o cl) v) ->
  fst (step rec fuel t0 (scale_call k c) st0) = Ok (@VVariogram (Rlib o cl) v') ->
  forall t (d : dims (Rlib o cl)) (a : adv (Rlib o cl)) st,
    step rec fuel t (CAdvanced v' (scale_dims k d) a) st = step rec fuel t (CAdvanced v d a) st /\
    step rec fuel t (CSimulate v' (scale_dims k d)) st = step rec fuel t (CSimulate v d) st /\
    (spaced d -> step rec fuel t (CSize v' (scale_dims k d)) st = step rec fuel t (CSize v d) st) /\
    forall x y z : R, step rec fuel t (@CCorr3 (Rlib o cl) v' (k * x) (k * y) (k * z)) st = step rec fuel t (@CCorr3 (Rlib o cl) v x y z) st.
Proof.
  intros o cl k Hk s main perp depth azi dp pw v v' rec fuel t0 st0 _ _ _ c H1 H2 t d a st.
  pose proof (vario_stretched o cl k s main perp depth azi dp pw v v' rec fuel t0 st0 Hk H1 H2) as S.
  split; [apply advanced_scale; auto|split; [apply simulate_scale; auto|split; [apply size_scale; auto|]]].
  intros x y z. cbn [step]. pose proof (corr3_scale k Hk v v' S x y z) as E. 
  change (@GetCorr3 (Rlib o cl) v' (k * x) (k * y) (k * z)) with (@GetCorr3 Rarith v' (k * x) (k * y) (k * z)). rewrite E. reflexivity.
Qed.
Print Assumptions C48_units.

(** ** C49 *)
(** a constant variogram and no smoothing: every cell is the sum of the draws over the root of their number *)
Theorem C49_constant : forall (o : Z -> outcome Z) (cl : Z -> Z -> Z) s main perp depth azi dp pw (v : variogram (Rlib o cl)),
  @CreateVariogram Rarith s main perp depth azi dp pw = Ok v -> lower s = "constant"%string ->
  forall rec fuel t (d : dims (Rlib o cl)) (a : adv (Rlib o cl)) ns st (l : list R) st',
  fst (step rec fuel t (CSize v d) st) = Ok (VSizes ns) -> List.length ns = dim_asked d -> asks d a ns -> grid_fits d a ns -> unsmoothed a ->
  step rec fuel t (CAdvanced v d a) st = (Ok (@VArray (Rlib o cl) l), st') ->
  exists xs e, draws (Unif01 (A := Rlib o cl) rec) fuel (padded_cells d a ns) (source rec d (gen (ensure_init rec t st))) = Ok (xs, e) /\
    l = repeat (total xs / sqrt (INR (padded_cells d a ns))) (List.length l).
Proof.
  intros o cl s main perp depth azi dp pw v HC Hs rec fuel t d a ns st l st' HS HL HA HF HU HR.
  exact (api_const o cl s main perp depth azi dp pw v HC rec fuel t d a ns st l st' HS HL HA HF HR Hs HU).
Qed.
Print Assumptions C49_constant.

(** ** C50 *)
(** a spherical variogram with no range longer than any spacing: the field is the raw draws (in the order drawn: z fastest, then y, then x) *)
Theorem C50_raw_noise : forall (o : Z -> outcome Z) (cl : Z -> Z -> Z) s main perp depth azi dp pw (v : variogram (Rlib o cl)),
  @CreateVariogram Rarith s main perp depth azi dp pw = Ok v -> lower s = "spherical"%string ->
  0 < main -> 0 < or_main main perp -> 0 < or_main main depth ->
  forall rec fuel t (d : dims (Rlib o cl)) (a : adv (Rlib o cl)) ns st (l : list R) st',
  (forall i, (i < dim_asked d)%nat -> main <= step_of d i /\ or_main main perp <= step_of d i /\ or_main main depth <= step_of d i) ->
  fst (step rec fuel t (CSize v d) st) = Ok (VSizes ns) -> List.length ns = dim_asked d -> asks d a ns -> grid_fits d a ns ->
  step rec fuel t (CAdvanced v d a) st = (Ok (@VArray (Rlib o cl) l), st') ->
  exists xs e, draws (Unif01 (A := Rlib o cl) rec) fuel (padded_cells d a ns) (source rec d (gen (ensure_init rec t st))) = Ok (xs, e) /\
    let nx := Z.to_nat (cells d 0) in let ny := Z.to_nat (cells d 1) in let nz := Z.to_nat (cells d 2) in
    forall i j k, (i < nx)%nat -> (j < if (1 <? dim_asked d)%nat then ny else 1)%nat -> (k < if (2 <? dim_asked d)%nat then nz else 1)%nat ->
      nth (i + j * nx + k * nx * ny) l 0 = nth ((i * padded d a ns 1 + j) * padded d a ns 2 + k) xs 0.
Proof.
  intros o cl s main perp depth azi dp pw v HC Hs H1 H2 H3 rec fuel t d a ns st l st' H4 HS HL HA HF HR.
  exact (api_raw o cl s main perp depth azi dp pw v HC rec fuel t d a ns st l st' HS HL HA HF HR Hs H1 H2 H3 H4).
Qed.
Print Assumptions C50_raw_noise.

(** ** The hypotheses are met: 4 cells, spacing 1, no padding, the generator of P_SpecialEx.v *)
Definition XL : Lib := Rlib (fun _ => Ok 0%Z) clog.
Definition x_dims : dims XL := @mkDims XL 4 1 None None None None.
Definition x_pad : adv XL := @mkAdv XL (Some 0%Z) None None None None None.
Definition x_vario (t : vtype) : variogram XL :=
  @new_variogram Rarith t (lit Rarith 0 0) 1 1 1 (mul Rarith 0 (@Degree Rarith)) (mul Rarith 0 (@Degree Rarith)) (lit Rarith 1 0).
Lemma or_main_neg x y : y < 0 -> (if flt Rarith y (lit Rarith 0 0) then x else y) = x.
Proof. intros H. cbn. unfold Rltb. destruct Rlt_dec; [reflexivity|lra]. Qed.
Lemma x_created s t : In (s, t) [("constant"%string, CONSTANT); ("spherical"%string, SPHERICAL)] ->
  @CreateVariogram Rarith s 1 (-1) (-1) 0 0 (3 / 2) = Ok (x_vario t).
Proof.
  intros H. unfold CreateVariogram. rewrite !or_main_neg by lra.
  destruct H as [E|[E|[]]]; injection E as <- <-.
  - assert (U : Uppercase "constant" = Ok "CONSTANT"%string) by reflexivity. rewrite U. reflexivity.
  - assert (U : Uppercase "spherical" = Ok "SPHERICAL"%string) by reflexivity. rewrite U. reflexivity.
Qed.
Lemma x_size t rec fuel now st : In t [CONSTANT; SPHERICAL] -> exists N, fst (step rec fuel now (CSize (x_vario t) x_dims) st) = Ok (@VSizes XL [N]).
Proof.
  intros Ht. cbn [step fst].
  assert (A : args x_dims = Ok (4%Z, 1, 1%Z, lit XL (-1) 0, 1%Z, lit XL (-1) 0)) by reflexivity.
  rewrite A. cbn [bind]. unfold FindGridSizeAfterPadding, FindNDimPadding. change (1 <=? 1)%Z with true. cbv iota.
  destruct (FGP_total (x_vario t) 4 1 1) as [p Hp]; try lia; try lra; try (destruct Ht as [<-|[<-|[]]]; cbn; lra).
  change (range_x (x_vario t)) with 1.
  match goal with |- context [FindGaussianFieldPadding ?a ?b ?c ?d] => change (FindGaussianFieldPadding a b c d) with (FindGaussianFieldPadding (A:=Rarith) (x_vario t) 4 1 1) end.
  rewrite Hp. cbn [bind omap]. eauto.
Qed.
Lemma x_accepted (v : variogram XL) : accepted (CAdvanced v x_dims x_pad).
Proof.
  unfold accepted, dims_ok, given, size_ok, int_ok. cbn [x_dims x_pad d_nx d_ny d_nz d_dx d_dy d_dz a_padx a_pady a_padz opt nth].
  repeat match goal with |- _ /\ _ => split end; try lia; try (intros; discriminate).
  all: intros; repeat match goal with H : Some _ = Some _ |- _ => injection H as <- end; lia.
Qed.
Example C49_C50_case : forall s t, In (s, t) [("constant"%string, CONSTANT); ("spherical"%string, SPHERICAL)] ->
  @CreateVariogram Rarith s 1 (-1) (-1) 0 0 (3 / 2) = Ok (x_vario t) /\ lower s = s /\
  0 < 1 /\ or_main 1 (-1) = 1 /\ unsmoothed x_pad /\ (forall i, (i < dim_asked x_dims)%nat -> 1 <= step_of x_dims i) /\
  forall fuel now st, exists N, fst (step rec1 fuel now (CSize (x_vario t) x_dims) st) = Ok (@VSizes XL [N]) /\
    dim_asked x_dims = 1%nat /\ asks x_dims x_pad [N] /\ grid_fits x_dims x_pad [N] /\
    exists l st', step rec1 fuel now (CAdvanced (x_vario t) x_dims x_pad) st = (Ok (@VArray XL l), st').
Proof.
  intros s t H. split; [apply x_created; auto|]. split; [destruct H as [E|[E|[]]]; injection E as <- _; reflexivity|].
  split; [lra|]. split; [unfold or_main; destruct Rlt_dec; lra|].
  split; [intros x [E|[E|[E|[]]]]; discriminate|].
  split; [intros [|i] Hi; [cbn; lra|change (dim_asked x_dims) with 1%nat in Hi; lia]|].
  intros fuel now st. destruct (x_size t rec1 fuel now st) as [N HN]; [destruct H as [E|[E|[]]]; injection E as _ <-; cbn; auto|].
  exists N. split; [exact HN|split; [reflexivity|]].
  assert (R : forall i, (i < dim_asked x_dims)%nat -> i = 0%nat) by (intros [|i] Hi; [reflexivity|change (dim_asked x_dims) with 1%nat in Hi; lia]).
  assert (G : grid_used x_dims x_pad [N] 0 = Ok 4%Z) by (vm_compute; reflexivity).
  assert (A : asks x_dims x_pad [N]) by (intros i Hi; rewrite (R i Hi); vm_compute; split; [discriminate|reflexivity]).
  split; [exact A|split].
  - intros i Hi. rewrite (R i Hi). exists 4%Z. split; [exact G|split; [reflexivity|vm_compute; discriminate]].
  - apply (ones_1d (fun _ => Ok 0%Z) clog fuel now (x_vario t) x_dims x_pad [N] 4%Z st); auto; try (cbn; lia).
    apply x_accepted.
Qed.
(** in C48: the variogram of C49_C50_case and its image in a unit half as long *)
Example C48_case : spaced x_dims /\ exists v v' : variogram XL, v <> v' /\
  forall rec fuel t st, let c := @CVariogram XL "spherical" 1 None None (Some 30) None None in
  fst (step rec fuel t c st) = Ok (@VVariogram XL v) /\ fst (step rec fuel t (scale_call 2 c) st) = Ok (@VVariogram XL v').
Proof.
  split; [split; left; cbn; lia|].
  assert (U : Uppercase "spherical" = Ok "SPHERICAL"%string) by reflexivity.
  do 2 eexists. split.
  2:{ intros rec fuel t st. cbv zeta. cbn [step scale_call fst option_map opt]. unfold CreateVariogram. rewrite U. split; reflexivity. }
  intros E. apply (f_equal (@range_x XL)) in E. cbn in E. apply (Rlt_irrefl 1). rewrite E at 2. lra.
Qed.
