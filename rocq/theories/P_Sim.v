(** When a simulation runs through (C20). *)
From Coq Require Import ZArith List Bool Lia.
From Verif Require Import Base Arith M_Variogram M_Padding M_FftSize M_Grid M_CovGrid M_Fft M_Dsfmt M_Random M_Field M_Api
  S_Api S_CovGrid S_Sizes P_Base P_Grid P_Api P_Field P_Field2 P_Field3 P_Bounds P_FftSize.
Import ListNotations.
Open Scope Z_scope.

Local Opaque new_generator genrand_uint32 init_gen_rand.

Lemma size_ge clogf oor m even :
  x86_or_arm oor -> good_logs clogf m -> 1 <= m <= 2 ^ 52 ->
  exists n, FindNewSizeWithPadding clogf oor m even = Ok n /\ m <= n <= 4 * m.
Proof.
  intros Ho Hg Hm. unfold FindNewSizeWithPadding, maxant.
  destruct (Z.eqb_spec m 0) as [|_]; [lia|]. cbn [bind].
  destruct (Hg 2) as (a & Ha & Hp & Hl & Hc); [simpl; auto|].
  assert (Hup : 2 ^ a <= 2 * m).
  { destruct (Z.eq_dec a 0) as [->|]; [rewrite Z.pow_0_r; lia|].
    specialize (Hl (a - 1)). replace a with (Z.succ (a - 1)) by lia. rewrite Z.pow_succ_r by lia. lia. }
  set (M := clogf 2 m) in *.
  assert (HM : m <= 2 ^ M <= 4 * m).
  { destruct Hc as [->| ->]; [lia|]. rewrite Z.pow_add_r, Z.pow_1_r by lia. lia. }
  unfold factor at 1. replace (2 ^ M * 3 ^ 0 * 5 ^ 0 * 7 ^ 0) with (2 ^ M) by (rewrite !Z.pow_0_r; lia).
  destruct (Z.ltb_spec (2 ^ M) (2 ^ 64)) as [_|Hbad]; [|exfalso; lia]. cbn [bind].
  match goal with |- exists n, search _ _ ?es _ = _ /\ _ =>
    destruct (search_spec oor m es Ho ltac:(lia) (2 ^ M)) as (r & Hr & Hr1 & _); [lia|] end.
  exists r. split; [exact Hr|lia].
Qed.

Lemma u64_small z : 0 <= z < 2 ^ 64 -> u64 z = z.
Proof. intros. apply Z.mod_small. auto. Qed.

Section P.
Context {L : Lib}.
Notation num := (num L).
Variable rec : recursion.
Variable fuel : nat.
Hypothesis HL : fft_sizes L.

Definition ok_or_nofuel {T} (o : outcome T) : Prop := (exists x, o = Ok x) \/ o = NoFuel.

Lemma onf_bind {T U} (m : outcome T) (k : T -> outcome U) :
  ok_or_nofuel m -> (forall x, m = Ok x -> ok_or_nofuel (k x)) -> ok_or_nofuel (bind m k).
Proof. intros [[x ->]| ->] H; simpl; [apply H; auto|right; auto]. Qed.
Lemma onf_Ok {T} (x : T) : ok_or_nofuel (Ok x).
Proof. left; eauto. Qed.

Lemma draws_onf {S} (u : S -> num * S) f n : forall s, ok_or_nofuel (draws u f n s).
Proof.
  assert (W : forall f s, ok_or_nofuel (wedge u f s)).
  { intros f0. induction f0 as [|f0 IH]; intros s; simpl; [right; auto|].
    destruct (u s) as [u1 s1]. destruct (u s1) as [u2 s2]. destruct fgt; [apply IH|apply onf_Ok]. }
  assert (D : forall f s, ok_or_nofuel (disc u f s)).
  { intros f0. induction f0 as [|f0 IH]; intros s; simpl; [right; auto|].
    destruct (u s) as [u1 s1]. destruct (u s1) as [u2 s2]. destruct fge; [apply IH|apply onf_Ok]. }
  assert (T : forall f s, ok_or_nofuel (tail u f s)).
  { intros f0. induction f0 as [|f0 IH]; intros s; cbn [tail]; [right; auto|].
    apply onf_bind; [apply D|]. intros [[[v1 v2] w] s1] _. destruct (_ && _); [apply IH|apply onf_Ok]. }
  assert (N : forall s, ok_or_nofuel (Norm01 u f s)).
  { intros s. unfold Norm01. destruct (u s) as [a s1]. destruct flt.
    { destruct (u s1) as [u1 s2]. destruct (u s2) as [u2 s3]. destruct (u s3) as [u3 s4]. apply onf_Ok. }
    destruct flt. { destruct (u s1) as [u1 s2]. destruct (u s2) as [u2 s3]. apply onf_Ok. }
    destruct flt; auto. }
  induction n as [|n IH]; intros s; cbn [draws]; [apply onf_Ok|].
  apply onf_bind; [apply N|]. intros [x s1] _. apply onf_bind; [apply IH|]. intros [xs s2] _. apply onf_Ok.
Qed.

Lemma narrow_ok z : z < 2 ^ 31 -> narrow z = Ok (Z.to_nat z).
Proof. intros. unfold narrow. destruct (Z.ltb_spec z (2 ^ 31)); auto; lia. Qed.

Lemma sim1_onf (v : variogram L) nx dx px sx st m : sizes1 v nx dx px = Ok m -> nx <= m < 2 ^ 31 -> 1 <= m ->
  ok_or_nofuel (Simulate1D rec fuel v nx dx px sx st).
Proof.
  intros Hs Hm H1. unfold Simulate1D. rewrite Hs. cbn [bind]. rewrite narrow_ok by lia. cbn [bind].
  rewrite new_generator_eq. apply onf_bind; [apply draws_onf|]. intros [noise s] Hd. apply draws_length in Hd.
  apply onf_bind; [|intros; apply onf_Ok].
  rewrite field1d_ok by (auto; lia). apply onf_Ok.
Qed.
Lemma sim2_onf (v : variogram L) nx dx ny dy px py sx sy st m1 m2 : sizes2 v nx dx ny dy px py = Ok (m1, m2) ->
  nx <= m1 < 2 ^ 31 -> ny <= m2 < 2 ^ 31 ->
  ok_or_nofuel (Simulate2D rec fuel v nx dx ny dy px py sx sy st).
Proof.
  intros Hs H1 H2. unfold Simulate2D. rewrite Hs. cbn [bind]. rewrite !narrow_ok by lia. cbn [bind].
  rewrite new_generator_eq. apply onf_bind; [apply draws_onf|]. intros [xs s] Hd. apply draws_length in Hd.
  destruct (noise2_spec (Z.to_nat m1) (Z.to_nat m2) xs Hd) as (g & Eg & Hl & _). rewrite Eg. cbn [bind].
  apply onf_bind; [|intros; apply onf_Ok].
  rewrite field2d_ok by (auto; lia). apply onf_Ok.
Qed.
Lemma sim3_onf (v : variogram L) nx dx ny dy nz dz px py pz sx sy sz st m1 m2 m3 :
  sizes3 v nx dx ny dy nz dz px py pz = Ok (m1, m2, m3) ->
  nx <= m1 < 2 ^ 31 -> ny <= m2 < 2 ^ 31 -> nz <= m3 < 2 ^ 31 ->
  ok_or_nofuel (Simulate3D rec fuel v nx dx ny dy nz dz px py pz sx sy sz st).
Proof.
  intros Hs H1 H2 H3. unfold Simulate3D. rewrite Hs. cbn [bind]. rewrite !narrow_ok by lia. cbn [bind].
  apply onf_bind; [apply draws_onf|]. intros [xs s] Hd. apply draws_length in Hd.
  destruct (noise3_spec (Z.to_nat m1) (Z.to_nat m2) (Z.to_nat m3) xs Hd) as (g & Eg & Hl & _). cbv zeta. rewrite Eg. cbn [bind].
  apply onf_bind; [|intros; apply onf_Ok].
  rewrite field3d_ok by (auto; lia). apply onf_Ok.
Qed.

(** the padding used, in direction [i] *)
Lemma desired_requested (d : dims L) (a : adv L) (ps ns : list Z) i p0 :
  nth_error ps i = Some p0 -> nth i ns 0 = u64 (p0 + cells d i) ->
  1 <= requested d a ns i < 2 ^ 64 ->
  exists p, desired (opt (nth i [a_padx a; a_pady a; a_padz a] None) (-1)) ps i = Ok p /\ u64 (cells d i + p) = requested d a ns i.
Proof.
  intros Hp Hn Hr. unfold requested, pad_given, desired in *.
  destruct (nth i [a_padx a; a_pady a; a_padz a] None) as [q|]; simpl opt.
  - destruct (q <? 0).
    + exists p0. split; [unfold rd; rewrite Hp; auto|]. rewrite Hn. f_equal. lia.
    + exists q. split; auto. apply u64_small. lia.
  - exists p0. split; [unfold rd; rewrite Hp; auto|]. rewrite Hn. f_equal. lia.
Qed.

Theorem sim_runs t (v : variogram L) (d : dims L) (a : adv L) ns B st :
  good_lib L B -> B < 2 ^ 29 ->
  fst (step rec fuel t (CSize v d) st) = Ok (VSizes ns) -> length ns = dim_asked d -> accepted (CAdvanced v d a) -> has_room d a ns B ->
  ok_or_nofuel (fst (step rec fuel t (CAdvanced v d a) st)).
Proof.
  intros [Ho Hg] HB Hs Hdim Ha Hr.
  assert (Hsz : forall m even, 1 <= m <= B -> exists n, FindNewSizeWithPadding (clogf L) (oor L) m even = Ok n /\ m <= n < 2 ^ 31).
  { intros m even Hm. destruct (size_ge (clogf L) (oor L) m even Ho (Hg m Hm)) as (n & Hn & Hb); [lia|].
    exists n. split; auto. lia. }
  cbn [step fst] in Hs.
  apply bind_Ok in Hs as ([[[[[nx dx] ny] dy] nz] dz] & A & Hs).
  pose proof A as A'. apply args_inv in A' as [E _]. injection E as -> -> -> -> -> ->.
  destruct (adv_args_cases a) as [[y Hy]|Hy].
  2:{ exfalso. assert (X := proj1 (sim_args_ok (CAdvanced v d a) eq_refl) Ha). destruct X as [x Hx].
      unfold sim_args in Hx. rewrite A, Hy in Hx. discriminate. }
  rewrite (step_adv _ _ _ _ _ _ _ _ _ A Hy). pose proof A as D. apply dim_args in D.
  apply adv_args_inv in Hy as [-> _].
  set (st0 := ensure_init rec t st).
  assert (X : ok_or_nofuel (run_core rec fuel (v, (d_nx d, d_dx d, opt (d_ny d) 1, opt (d_dy d) (lit L (-1) 0), opt (d_nz d) 1, opt (d_dz d) (lit L (-1) 0)),
       (opt (a_padx a) (-1), opt (a_pady a) (-1), opt (a_padz a) (-1), opt (a_sx a) (lit L 1 0), opt (a_sy a) (lit L 1 0), opt (a_sz a) (lit L 1 0))) (gen st0))).
  2:{ destruct X as [[[[l dd] k] ->]| ->]; cbn [after_core fst]; [left; eauto|right; auto]. }
  unfold omap in Hs. apply bind_Ok in Hs as (ns' & Hs & E). injection E as ->.
  unfold FindGridSizeAfterPadding in Hs. apply bind_Ok in Hs as (ps & Hps & E).
  unfold has_room in Hr.
  cbn [run_core]. unfold sim_core. apply onf_bind; [|intros [? ?] _; apply onf_Ok].
  unfold SimulateAny. rewrite <- D in *. clear D A Ha.
  unfold dimension in *.
  pose proof (Hr 0%nat) as R0. pose proof (Hr 1%nat) as R1. pose proof (Hr 2%nat) as R2. clear Hr.
  pose proof (fun ps => desired_requested d a ps ns 0) as Q0. pose proof (fun ps => desired_requested d a ps ns 1) as Q1.
  pose proof (fun ps => desired_requested d a ps ns 2) as Q2.
  change (cells d 0) with (d_nx d) in *. change (cells d 1) with (opt (d_ny d) 1) in *. change (cells d 2) with (opt (d_nz d) 1) in *.
  change (nth 0 [a_padx a; a_pady a; a_padz a] None) with (a_padx a) in *.
  change (nth 1 [a_padx a; a_pady a; a_padz a] None) with (a_pady a) in *.
  change (nth 2 [a_padx a; a_pady a; a_padz a] None) with (a_padz a) in *.
  set (r0 := requested d a ns 0) in *. set (r1 := requested d a ns 1) in *. set (r2 := requested d a ns 2) in *.
  set (nx := d_nx d) in *. set (ny := opt (d_ny d) 1) in *. set (nz := opt (d_nz d) 1) in *.
  assert (Hlen : length ns = length ps).
  { injection E as <-. destruct ps as [|? [|? [|? [|]]]]; reflexivity. }
  rewrite Hlen in Hdim.
  destruct ((ny <=? 1) || flt L (opt (d_dy d) (lit L (-1) 0)) (lit L 0 0))%bool eqn:E1.
  - (* 1D *)
    unfold FindNDimPadding in Hps. destruct (ny <=? 1) eqn:Ey.
    2:{ exfalso. destruct (nz <=? 1); repeat (apply bind_Ok in Hps as (? & _ & Hps)); injection Hps as <-; discriminate. }
    apply bind_Ok in Hps as (p0 & Hp0 & Ep). injection Ep as <-. injection E as <-.
    specialize (R0 ltac:(lia)).
    destruct (Q0 [p0] p0 eq_refl eq_refl ltac:(lia)) as (p & Hp & Eu).
    destruct (Hsz r0 false ltac:(lia)) as (n & Hn & Hnb).
    apply sim1_onf with (m := n); try lia.
    unfold sizes1, FindNDimPadding. change (1 <=? 1) with true. cbv iota. rewrite Hp0. cbn [bind]. rewrite Hp. cbn [bind].
    rewrite Eu. exact Hn.
  - apply orb_false_iff in E1 as [Ey E1].
    destruct ((nz <=? 1) || flt L (opt (d_dz d) (lit L (-1) 0)) (lit L 0 0))%bool eqn:E2.
    + unfold FindNDimPadding in Hps. rewrite Ey in Hps. destruct (nz <=? 1) eqn:Ez.
      2:{ exfalso. repeat (apply bind_Ok in Hps as (? & _ & Hps)); injection Hps as <-; discriminate. }
      apply bind_Ok in Hps as (p0 & Hp0 & Hps). apply bind_Ok in Hps as (p1 & Hp1 & Ep). injection Ep as <-. injection E as <-.
      specialize (R0 ltac:(lia)). specialize (R1 ltac:(lia)).
      destruct (Q0 [p0; p1] p0 eq_refl eq_refl ltac:(lia)) as (p & Hp & Eu).
      destruct (Q1 [p0; p1] p1 eq_refl eq_refl ltac:(lia)) as (p' & Hp' & Eu').
      destruct (Hsz r0 true ltac:(lia)) as (n & Hn & Hnb).
      destruct (Hsz r1 false ltac:(lia)) as (n' & Hn' & Hnb').
      apply sim2_onf with (m1 := n) (m2 := n'); try lia.
      unfold sizes2, FindNDimPadding. rewrite Ey. change (1 <=? 1) with true. cbv iota. rewrite Hp0, Hp1. cbn [bind]. rewrite Hp, Hp'. cbn [bind].
      rewrite Eu, Eu', Hn, Hn'. reflexivity.
    + apply orb_false_iff in E2 as [Ez E2].
      unfold FindNDimPadding in Hps. rewrite Ey, Ez in Hps.
      apply bind_Ok in Hps as (p0 & Hp0 & Hps). apply bind_Ok in Hps as (p1 & Hp1 & Hps). apply bind_Ok in Hps as (p2 & Hp2 & Ep).
      injection Ep as <-. injection E as <-.
      specialize (R0 ltac:(lia)). specialize (R1 ltac:(lia)). specialize (R2 ltac:(lia)).
      destruct (Q0 [p0; p1; p2] p0 eq_refl eq_refl ltac:(lia)) as (p & Hp & Eu).
      destruct (Q1 [p0; p1; p2] p1 eq_refl eq_refl ltac:(lia)) as (p' & Hp' & Eu').
      destruct (Q2 [p0; p1; p2] p2 eq_refl eq_refl ltac:(lia)) as (p'' & Hp'' & Eu'').
      destruct (Hsz r0 true ltac:(lia)) as (n & Hn & Hnb).
      destruct (Hsz r1 false ltac:(lia)) as (n' & Hn' & Hnb').
      destruct (Hsz r2 false ltac:(lia)) as (n'' & Hn'' & Hnb'').
      apply sim3_onf with (m1 := n) (m2 := n') (m3 := n''); try lia.
      unfold sizes3, FindNDimPadding. rewrite Ey, Ez. rewrite Hp0, Hp1, Hp2. cbn [bind]. rewrite Hp, Hp', Hp''. cbn [bind].
      rewrite Eu, Eu', Eu'', Hn, Hn', Hn''. reflexivity.
Qed.
End P.
