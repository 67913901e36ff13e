(** The caller's own generator, the short 2D overload and the length of the 1D result (C56-C58). *)
From Coq Require Import ZArith List Bool Lia.
From Verif Require Import Base Arith M_Variogram M_Padding M_FftSize M_Grid M_CovGrid M_Fft M_Dsfmt M_Random M_Field M_Multi
  S_CovGrid S_Multi P_Base P_Grid P_Field P_Field3 P_Bounds P_Sim P_Multi.
Import ListNotations.
Open Scope nat_scope.

Local Opaque new_generator genrand_uint32 init_gen_rand.

Section P.
Context {L : Lib}.
Notation num := (num L).
Variable rec : recursion.
Variable fuel : nat.

Lemma own2 (v : variogram L) nx dx ny dy n g padx pady sx sy st st0 :
  Fields2D rec fuel v nx dx ny dy n (Some g) padx pady sx sy st =
  let* (fs, (g', _)) := Fields2D rec fuel v nx dx ny dy n (Some g) padx pady sx sy st0 in Ok (fs, (g', st)).
Proof.
  unfold Fields2D. rewrite ?bind_bind. apply bind_ext. intros [a b] _. rewrite ?bind_bind. apply bind_ext. intros a' _.
  rewrite ?bind_bind. apply bind_ext. intros b' _. rewrite ?bind_bind. apply bind_ext. intros f _. cbn [generator].
  rewrite ?bind_bind. apply bind_ext. intros [fs g'] _. reflexivity.
Qed.
Lemma own1 (v : variogram L) nx dx cells g padx sx st st0 :
  Field1D rec fuel v nx dx cells (Some g) padx sx st =
  let* (f, (g', _)) := Field1D rec fuel v nx dx cells (Some g) padx sx st0 in Ok (f, (g', st)).
Proof.
  unfold Field1D. rewrite ?bind_bind. apply bind_ext. intros a _. rewrite ?bind_bind. apply bind_ext. intros a' _.
  cbn [generator]. rewrite ?bind_bind. apply bind_ext. intros [xs g'] _. rewrite ?bind_bind. apply bind_ext. intros out _. reflexivity.
Qed.

Lemma own2_ok (v : variogram L) nx dx ny dy n g padx pady sx sy st st0 fs g' s' :
  Fields2D rec fuel v nx dx ny dy n (Some g) padx pady sx sy st0 = Ok (fs, (g', s')) ->
  s' = st0 /\ Fields2D rec fuel v nx dx ny dy n (Some g) padx pady sx sy st = Ok (fs, (g', st)).
Proof.
  intros H. pose proof (own2 v nx dx ny dy n g padx pady sx sy st0 st0) as E. rewrite H in E. cbn [bind] in E.
  rewrite (own2 v nx dx ny dy n g padx pady sx sy st st0), H. cbn [bind]. split; [|reflexivity].
  assert (X : Ok (fs, (g', s')) = Ok (fs, (g', st0)) -> s' = st0) by (intros X; now inversion X). exact (X E).
Qed.
Lemma own1_ok (v : variogram L) nx dx cells g padx sx st st0 f g' s' :
  Field1D rec fuel v nx dx cells (Some g) padx sx st0 = Ok (f, (g', s')) ->
  s' = st0 /\ Field1D rec fuel v nx dx cells (Some g) padx sx st = Ok (f, (g', st)).
Proof.
  intros H. pose proof (own1 v nx dx cells g padx sx st0 st0) as E. rewrite H in E. cbn [bind] in E.
  rewrite (own1 v nx dx cells g padx sx st st0), H. cbn [bind]. split; [|reflexivity].
  assert (X : Ok (f, (g', s')) = Ok (f, (g', st0)) -> s' = st0) by (intros X; now inversion X). exact (X E).
Qed.

(** the number of fields *)
Lemma repeatedly_length {S X} n (c : S -> outcome (X * S)) : forall s xs s', repeatedly n c s = Ok (xs, s') -> length xs = n.
Proof.
  induction n as [|n IH]; intros s xs s' H; cbn [repeatedly] in H.
  - assert (X0 : Ok (@nil X, s) = Ok (xs, s') -> xs = []) by (intros E; now inversion E). now rewrite (X0 H).
  - apply bind_Ok in H as ([x s1] & _ & H). apply bind_Ok in H as ([xs1 s2] & H1 & H2). apply IH in H1.
    assert (X0 : Ok (x :: xs1, s2) = Ok (xs, s') -> xs = x :: xs1) by (intros E; now inversion E).
    rewrite (X0 H2). simpl. now rewrite H1.
Qed.

(** the short overload *)
Definition plus_leak (st : rstate) : rstate := mkRstate (is_init st) (start_seed st) (gen st) (S (leaked st)).

Lemma short_eq (v : variogram L) nx dx ny dy st st0 : is_init st = true ->
  ShortField2D rec fuel v nx dx ny dy st =
  let* (grids, _) := Fields2D rec fuel v nx dx ny dy 1 (Some (init_gen_rand (start_seed st))) (-1) (-1) (lit L 1 0) (lit L 1 0) st0 in
  let* grid := rd grids 0 in Ok (grid, plus_leak st).
Proof.
  intros Hi. unfold ShortField2D, GetStartSeed. rewrite Hi.
  change (mkRstate true (start_seed st) (gen st) (S (leaked st))) with (mkRstate true (start_seed st) (gen st) (S (leaked st))).
  rewrite (own2 v nx dx ny dy 1 (init_gen_rand (start_seed st)) (-1) (-1) (lit L 1 0) (lit L 1 0) _ st0).
  rewrite ?bind_bind. apply bind_ext. intros [fs [g' s']] _. cbn [bind]. unfold plus_leak. rewrite Hi. reflexivity.
Qed.

Lemma short_same (v : variogram L) nx dx ny dy st st2 f st' : is_init st = true -> is_init st2 = true -> start_seed st2 = start_seed st ->
  ShortField2D rec fuel v nx dx ny dy st = Ok (f, st') ->
  st' = plus_leak st /\ ShortField2D rec fuel v nx dx ny dy st2 = Ok (f, plus_leak st2).
Proof.
  intros H1 H2 Hs H. rewrite (short_eq v nx dx ny dy st st) in H by auto.
  rewrite (short_eq v nx dx ny dy st2 st), Hs by auto.
  apply bind_Ok in H as ([fs s] & E & H). rewrite E. cbn [bind]. apply bind_Ok in H as (grid & Eg & H). rewrite Eg. cbn [bind].
  assert (X : Ok (grid, plus_leak st) = Ok (f, st') -> grid = f /\ plus_leak st = st') by (intros X; now inversion X).
  destruct (X H) as [-> <-]. auto.
Qed.

Lemma short_repeat (v : variogram L) nx dx ny dy f : forall n st st', is_init st = true ->
  ShortField2D rec fuel v nx dx ny dy st = Ok (f, st') ->
  exists st2, repeatedly n (ShortField2D rec fuel v nx dx ny dy) st = Ok (repeat f n, st2) /\
    start_seed st2 = start_seed st /\ gen st2 = gen st /\ is_init st2 = true /\ leaked st2 = n + leaked st.
Proof.
  induction n as [|n IH]; intros st st' Hi H; cbn [repeatedly repeat].
  - exists st. auto.
  - destruct (short_same v nx dx ny dy st (plus_leak st) f st' Hi Hi eq_refl H) as [-> H2].
    rewrite H. cbn [bind]. destruct (IH (plus_leak st) _ Hi H2) as (st2 & E & E1 & E2 & E3 & E4).
    exists st2. rewrite E. cbn [bind]. split; [reflexivity|]. split; [exact E1|]. split; [exact E2|]. split; [exact E3|].
    rewrite E4. unfold plus_leak. cbn [leaked]. lia.
Qed.

Lemma short_unseeded (v : variogram L) nx dx ny dy st : fft_sizes L -> is_init st = false ->
  ShortField2D rec fuel v nx dx ny dy st = Simulate2D rec fuel v nx dx ny dy (-1) (-1) (lit L 1 0) (lit L 1 0) st.
Proof.
  intros HL Hi. unfold ShortField2D, GetStartSeed. rewrite Hi. rewrite (simulate2_fields rec fuel HL).
  apply bind_ext. intros [fs [g' s']] _. reflexivity.
Qed.

(** the 1D overload copies as many values as the vector has *)
Lemma mapM_rd_firstn {T} (l : list T) n : n <= length l -> mapM (fun i => rd l i) (seq 0 n) = Ok (firstn n l).
Proof.
  intros H. destruct l as [|d l0]; [simpl in H; replace n with 0 by lia; reflexivity|]. set (l := d :: l0) in *.
  rewrite (mapM_Ok _ (fun i => nth i l d)).
  2:{ intros i Hi. apply in_seq in Hi. apply rd_Ok. lia. }
  f_equal. apply (nth_ext' _ _ d); [rewrite map_length, seq_length, firstn_length; lia|].
  intros i Hi. rewrite map_length, seq_length in Hi. rewrite nth_map_seq by auto.
  rewrite <- (firstn_skipn n l) at 1. rewrite app_nth1; auto. rewrite firstn_length. lia.
Qed.
Lemma mapM_rd_over {T} (l : list T) n : length l < n -> mapM (fun i => rd l i) (seq 0 n) = UB OutOfBounds.
Proof.
  intros H. replace n with (length l + S (n - length l - 1)) by lia. rewrite seq_app.
  assert (A : forall {S U} (f : S -> outcome U) l1 l2 u, mapM f l1 = Ok u -> mapM f (l1 ++ l2) = let* w := mapM f l2 in Ok (u ++ w)).
  { intros S U f. induction l1 as [|x l1 IH]; intros l2 u E; cbn [mapM app] in *.
    - injection E as <-. destruct (mapM f l2); reflexivity.
    - apply bind_Ok in E as (y & Ey & E). rewrite Ey. cbn [bind]. apply bind_Ok in E as (ys & Eys & E). injection E as <-.
      rewrite (IH l2 ys Eys). rewrite bind_bind. apply bind_ext. intros w _. reflexivity. }
  rewrite (A _ _ _ _ _ _ (mapM_rd_firstn l (length l) (le_n _))). cbn [Nat.add seq mapM].
  unfold rd at 1. rewrite (proj2 (nth_error_None l (length l))) by lia. reflexivity.
Qed.

Definition tmp1 (v : variogram L) nxp dx sx (noise : list num) : outcome (list num) :=
  let* cov := FFTCovGrid1D v nxp dx sx in
  let* cov_fft := ComputeFFT1D cov false 0 in
  let* noise_fft := ComputeFFT1D noise true 0 in
  let cov_fft := map clip_sqrt cov_fft in
  let* convolve := mapM (fun i => let* c := rd cov_fft i in let* n := rd noise_fft i in Ok (cmul c n))
                        (seq 0 (length cov_fft)) in
  ComputeFFTInv1D convolve (repeat (lit L 0 0) nxp) true.
Lemma field1_split (v : variogram L) nx nxp dx sx noise :
  field1d v nx nxp dx sx noise = let* tmp := tmp1 v nxp dx sx noise in mapM (fun i => rd tmp i) (seq 0 nx).
Proof.
  unfold field1d, tmp1. rewrite ?bind_bind. apply bind_ext. intros c _. rewrite ?bind_bind. apply bind_ext. intros f _.
  rewrite ?bind_bind. apply bind_ext. intros f2 _. cbv zeta. rewrite ?bind_bind. apply bind_ext. intros p _. reflexivity.
Qed.
Lemma tmp1_length (v : variogram L) nxp dx sx noise t : tmp1 v nxp dx sx noise = Ok t -> length t = nxp.
Proof.
  unfold tmp1. intros H. apply bind_Ok in H as (c & _ & H). apply bind_Ok in H as (f & _ & H). apply bind_Ok in H as (f2 & _ & H).
  cbv zeta in H. apply bind_Ok in H as (p & _ & H). unfold ComputeFFTInv1D in H.
  destruct p; [injection H as <-; apply repeat_length|]. apply bind_Ok in H as (r & _ & H). apply mapM_length in H. rewrite H, seq_length. apply repeat_length.
Qed.

Lemma cells1 (v : variogram L) nx dx c1 c2 rg padx sx st f s : c1 <= c2 ->
  Field1D rec fuel v nx dx c2 rg padx sx st = Ok (f, s) ->
  length f = c2 /\ Field1D rec fuel v nx dx c1 rg padx sx st = Ok (firstn c1 f, s).
Proof.
  unfold Field1D. intros Hc H. apply bind_Ok in H as (a & Ea & H). rewrite Ea. cbn [bind].
  apply bind_Ok in H as (m & Em & H). rewrite Em. cbn [bind]. destruct (generator rec rg st) as [g st1].
  apply bind_Ok in H as ([xs g'] & Ed & H). rewrite Ed. cbn [bind]. apply bind_Ok in H as (out & Eo & H).
  assert (X : Ok (out, (g', st1)) = Ok (f, s) -> out = f /\ s = (g', st1)) by (intros X; now inversion X).
  destruct (X H) as [-> ->]. clear H X. rewrite field1_split in Eo |- *.
  apply bind_Ok in Eo as (t & Et & Eo). rewrite Et. cbn [bind].
  destruct (Nat.le_gt_cases c2 (length t)) as [Hl|Hl]; [|rewrite mapM_rd_over in Eo by auto; discriminate].
  rewrite mapM_rd_firstn in Eo by auto. injection Eo as <-. rewrite firstn_length. split; [lia|].
  rewrite mapM_rd_firstn by lia. cbn [bind]. rewrite firstn_firstn, Nat.min_l by auto. reflexivity.
Qed.

Lemma over1 (v : variogram L) nx dx cells rg padx sx st m : fft_sizes L -> sizes1 v nx dx padx = Ok m -> (1 <= m < 2 ^ 31)%Z ->
  (m < Z.of_nat cells)%Z -> let o := Field1D rec fuel v nx dx cells rg padx sx st in o = UB OutOfBounds \/ o = NoFuel.
Proof.
  intros HL Es Hm Hc. cbv zeta. unfold Field1D. rewrite Es. cbn [bind]. rewrite narrow_ok by lia. cbn [bind].
  destruct (generator rec rg st) as [g st1].
  destruct (draws_onf (Unif01 (A := L) rec) fuel (Z.to_nat m) g) as [[[xs g'] Ed]|Ed]; rewrite Ed; cbn [bind]; [|now right].
  apply draws_length in Ed. left. rewrite field1_split.
  pose proof (field1d_ok HL v 0 (Z.to_nat m) dx sx xs ltac:(lia) ltac:(lia) Ed) as E. rewrite field1_split in E.
  destruct (tmp1 v (Z.to_nat m) dx sx xs) as [t| | |] eqn:Et; cbn [bind] in E; try discriminate.
  apply tmp1_length in Et. cbn [bind]. rewrite mapM_rd_over by lia. reflexivity.
Qed.

End P.
