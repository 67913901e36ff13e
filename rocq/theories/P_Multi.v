(** Several fields in one call (C55-C57). *)
From Coq Require Import ZArith List Bool Lia.
From Verif Require Import Base Arith M_Variogram M_Padding M_FftSize M_Grid M_CovGrid M_Fft M_Dsfmt M_Random M_Field M_Multi
  S_CovGrid S_Multi P_Base P_Grid P_Field P_Field3 P_Bounds.
Import ListNotations.
Open Scope nat_scope.

Local Opaque new_generator genrand_uint32 init_gen_rand.

(** writing over every index: what was there before does not matter *)
Lemma writes_cover {T} ws (l l' : list T) : length l = length l' -> (forall i, i < length l -> In i (map fst ws)) ->
  writes ws l = writes ws l'.
Proof.
  intros Hl Hc.
  assert (X : forall ws (l l' : list T), length l = length l' ->
    (forall i, i < length l -> In i (map fst ws) \/ nth_error l i = nth_error l' i) -> writes ws l = writes ws l').
  { clear. induction ws as [|[j a] ws IH]; intros l l' Hl Hc.
    - simpl. f_equal. revert l' Hl Hc. induction l as [|x l IH]; intros [|x' l'] Hl Hc; try discriminate; [reflexivity|].
      f_equal.
      + destruct (Hc 0) as [[]|E]; [simpl; lia|]. now injection E.
      + apply IH; [now injection Hl|]. intros i Hi. right. destruct (Hc (S i)) as [[]|E]; [simpl; lia|]. exact E.
    - cbn [writes]. unfold wr. cbn [fst snd]. rewrite Hl. destruct (j <? length l') eqn:E; [|reflexivity].
      cbn [bind]. apply IH; [now rewrite !upd_length|]. rewrite upd_length. intros i Hi.
      apply Nat.ltb_lt in E.
      destruct (Nat.eq_dec j i) as [->|Hne].
      + right. rewrite !(nth_error_nth' _ a) by (rewrite upd_length; lia). rewrite !nth_upd_eq by lia. reflexivity.
      + destruct (Hc i Hi) as [[H|H]|H]; [now destruct (Hne H)|now left|]. right.
        rewrite !(nth_error_nth' _ a) by (rewrite upd_length; lia). rewrite !nth_upd_ne by auto.
        rewrite (nth_error_nth' l a), (nth_error_nth' l' a) in H by lia. congruence. }
  apply X; auto.
Qed.

Lemma map_fst_combine {S T} (l : list S) (l' : list T) : length l = length l' -> map fst (combine l l') = l.
Proof.
  revert l'. induction l as [|x l IH]; intros [|y l'] H; try discriminate; [reflexivity|]. simpl. f_equal. apply IH.
  now injection H.
Qed.

Lemma bind_bind {S T U} (m : outcome S) (f : S -> outcome T) (g : T -> outcome U) :
  bind (bind m f) g = bind m (fun x => bind (f x) g).
Proof. now destruct m. Qed.
Lemma bind_ext {S T} (m : outcome S) (f g : S -> outcome T) : (forall x, m = Ok x -> f x = g x) -> bind m f = bind m g.
Proof. destruct m; simpl; auto. Qed.

Section P.
Context {L : Lib}.
Notation num := (num L).
Notation cplx := (cplx L).
Notation zero := (lit L 0 0).
Variable rec : recursion.
Variable fuel : nat.
Hypothesis HL : fft_sizes L.

Definition rest2 nx ny nxt nyt (filter : list cplx) (noise : list num) : outcome (list num) :=
  let* real := Initialize2 nxt nyt noise in
  let* complex_data := DoFFT2 nxt nyt true real in
  let* prod := mapM (fun i => let* c := rd complex_data i in let* f := rd filter i in Ok (cmul c f))
                    (seq 0 ((nxt / 2 + 1) * nyt)) in
  let* real := DoInverseFFT2 nxt nyt true prod in
  GetRealGrid2 nx ny nxt real.
Definition rest3 nx ny nz nxt nyt nzt (filter : list cplx) (noise : list num) : outcome (list num) :=
  let* real := Initialize3 nxt nyt nzt noise in
  let* complex_data := DoFFT3 nxt nyt nzt true real in
  let* prod := mapM (fun i => let* c := rd complex_data i in let* f := rd filter i in Ok (cmul c f))
                    (seq 0 ((nxt / 2 + 1) * nyt * nzt)) in
  let* real := DoInverseFFT3 nxt nyt nzt true prod in
  GetRealGrid3 nx ny nz nxt nyt real.

Lemma field2_split (v : variogram L) nx ny nxt nyt dx dy sx sy noise :
  field2d v nx ny nxt nyt dx dy sx sy noise =
  let* filter := filter2 v nxt nyt dx dy sx sy in rest2 nx ny nxt nyt filter noise.
Proof. unfold field2d, filter2. rewrite ?bind_bind. apply bind_ext. intros c _. rewrite ?bind_bind. apply bind_ext. intros r _.
  rewrite ?bind_bind. apply bind_ext. intros f _. reflexivity. Qed.
Lemma field3_split (v : variogram L) nx ny nz nxt nyt nzt dx dy dz sx sy sz noise :
  field3d v nx ny nz nxt nyt nzt dx dy dz sx sy sz noise =
  let* filter := filter3 v nxt nyt nzt dx dy dz sx sy sz in rest3 nx ny nz nxt nyt nzt filter noise.
Proof. unfold field3d, filter3. rewrite ?bind_bind. apply bind_ext. intros c _. rewrite ?bind_bind. apply bind_ext. intros r _.
  rewrite ?bind_bind. apply bind_ext. intros f _. reflexivity. Qed.

Lemma filter2_ok (v : variogram L) nxt nyt dx dy sx sy : exists f, filter2 v nxt nyt dx dy sx sy = Ok f.
Proof.
  unfold filter2. rewrite cov2_ok. cbn [bind].
  rewrite init2_ok by (now rewrite map_length, seq_length). cbn [bind].
  unfold DoFFT2, fftw. rewrite (proj2 (Nat.leb_le _ _)); [cbn [bind]; eauto|]. rewrite map_length, seq_length. lia.
Qed.
Lemma filter3_ok (v : variogram L) nxt nyt nzt dx dy dz sx sy sz : exists f, filter3 v nxt nyt nzt dx dy dz sx sy sz = Ok f.
Proof.
  unfold filter3. rewrite cov3_ok. cbn [bind].
  rewrite init3_ok by (now rewrite map_length, seq_length). cbn [bind].
  unfold DoFFT3, fftw. rewrite (proj2 (Nat.leb_le _ _)); [cbn [bind]; eauto|]. rewrite map_length, seq_length. nia.
Qed.

(** the buffers *)
Lemma refill2_any ni nj (values real : list num) : length real = ni * nj -> refill2 ni nj values real = Initialize2 ni nj values.
Proof.
  intros H. unfold refill2, Initialize2. apply bind_ext. intros vs Hv. apply mapM_length in Hv.
  rewrite length_list_prod, !seq_length in Hv.
  apply writes_cover; [now rewrite repeat_length|]. intros i Hi.
  rewrite map_fst_combine by (rewrite seq_length; lia). apply in_seq. lia.
Qed.
Lemma refill3_any ni nj nk (values real : list num) : length real = ni * nj * nk ->
  refill3 ni nj nk values real = Initialize3 ni nj nk values.
Proof.
  intros H. unfold refill3, Initialize3. apply bind_ext. intros vs Hv. apply mapM_length in Hv.
  rewrite !length_list_prod, !seq_length in Hv.
  apply writes_cover; [now rewrite repeat_length|]. intros i Hi.
  rewrite map_fst_combine by (rewrite seq_length; nia). apply in_seq. lia.
Qed.
Lemma noise2_any ni nj (xs noise : list num) : length noise = ni * nj -> length xs = ni * nj ->
  new_noise2 ni nj xs noise = noise_grid2 ni nj xs.
Proof.
  intros H Hx. unfold new_noise2, noise_grid2. apply writes_cover; [now rewrite repeat_length|]. intros x Hi.
  rewrite map_fst_combine by (rewrite map_length, length_list_prod, !seq_length; lia).
  rewrite H in Hi. apply in_map_iff. exists (x mod ni, x / ni).
  assert (ni <> 0) by (intros ->; lia).
  split.
  - unfold GetIndex2. pose proof (Nat.div_mod x ni ltac:(lia)). lia.
  - apply in_prod_iff. rewrite !in_seq. split; [pose proof (Nat.mod_upper_bound x ni ltac:(lia)); lia|].
    split; [lia|]. apply Nat.div_lt_upper_bound; lia.
Qed.
Lemma noise3_any ni nj nk (xs noise : list num) : length noise = ni * nj * nk -> length xs = ni * nj * nk ->
  new_noise3 ni nj nk xs noise = noise_grid3 ni nj nk xs.
Proof.
  intros H Hx. unfold new_noise3, noise_grid3. apply writes_cover; [now rewrite repeat_length|]. intros x Hi.
  rewrite map_fst_combine by (rewrite map_length, !length_list_prod, !seq_length; nia).
  rewrite H in Hi. apply in_map_iff. exists (x mod ni, ((x / ni) mod nj, x / ni / nj)).
  assert (ni <> 0) by (intros ->; lia). assert (nj <> 0) by (intros ->; lia).
  pose proof (Nat.div_mod x ni ltac:(lia)). pose proof (Nat.div_mod (x / ni) nj ltac:(lia)).
  split.
  - unfold GetIndex3. set (q := x / ni) in *. set (r := q / nj) in *. set (t := q mod nj) in *. set (u := x mod ni) in *.
    rewrite H3 in H2. nia.
  - apply in_prod_iff. rewrite in_prod_iff, !in_seq. split; [pose proof (Nat.mod_upper_bound x ni ltac:(lia)); lia|].
    split; [pose proof (Nat.mod_upper_bound (x / ni) nj ltac:(lia)); lia|].
    split; [lia|]. rewrite Nat.div_div by lia. apply Nat.div_lt_upper_bound; nia.
Qed.

Definition one2 nx ny nxt nyt filter rg : outcome (list num * dsfmt) :=
  let* (xs, rg) := draws (Unif01 (A := L) rec) fuel (nxt * nyt) rg in
  let* noise := noise_grid2 nxt nyt xs in
  let* out := rest2 nx ny nxt nyt filter noise in
  Ok (out, rg).
Definition one3 nx ny nz nxt nyt nzt filter rg : outcome (list num * dsfmt) :=
  let* (xs, rg) := draws (Unif01 (A := L) rec) fuel (nxt * nyt * nzt) rg in
  let* noise := noise_grid3 nxt nyt nzt xs in
  let* out := rest3 nx ny nz nxt nyt nzt filter noise in
  Ok (out, rg).

Lemma loop2_eq nx ny nxt nyt filter n : forall noise real rg, length noise = nxt * nyt -> length real = nxt * nyt ->
  loop2 rec fuel n nx ny nxt nyt filter noise real rg = repeatedly n (one2 nx ny nxt nyt filter) rg.
Proof.
  induction n as [|n IH]; intros noise real rg Hn Hr; [reflexivity|].
  cbn [loop2 repeatedly]. unfold one2 at 1. rewrite ?bind_bind. apply bind_ext. intros [xs g] Hd. apply draws_length in Hd.
  rewrite noise2_any by auto. rewrite ?bind_bind. apply bind_ext. intros nz Hz.
  assert (Hnz : length nz = nxt * nyt) by (apply writes_length in Hz; now rewrite repeat_length in Hz).
  rewrite refill2_any by auto. unfold rest2. rewrite ?bind_bind. apply bind_ext. intros r _.
  rewrite ?bind_bind. apply bind_ext. intros c _. rewrite ?bind_bind. apply bind_ext. intros p _.
  rewrite ?bind_bind. apply bind_ext. intros r2 Hr2. rewrite ?bind_bind. apply bind_ext. intros out _. cbn [bind].
  rewrite IH; auto.
  unfold DoInverseFFT2, fftw in Hr2. destruct (_ <=? _); [|discriminate]. cbn [bind] in Hr2. injection Hr2 as <-.
  rewrite map_length. destruct HL as (_ & _ & _ & H4 & _). rewrite H4. lia.
Qed.
Lemma loop3_eq nx ny nz nxt nyt nzt filter n : forall noise real rg, length noise = nxt * nyt * nzt -> length real = nxt * nyt * nzt ->
  loop3 rec fuel n nx ny nz nxt nyt nzt filter noise real rg = repeatedly n (one3 nx ny nz nxt nyt nzt filter) rg.
Proof.
  induction n as [|n IH]; intros noise real rg Hn Hr; [reflexivity|].
  cbn [loop3 repeatedly]. unfold one3 at 1. rewrite ?bind_bind. apply bind_ext. intros [xs g] Hd. apply draws_length in Hd.
  rewrite noise3_any by auto. rewrite ?bind_bind. apply bind_ext. intros nz' Hz.
  assert (Hnz : length nz' = nxt * nyt * nzt) by (apply writes_length in Hz; now rewrite repeat_length in Hz).
  rewrite refill3_any by auto. unfold rest3. rewrite ?bind_bind. apply bind_ext. intros r _.
  rewrite ?bind_bind. apply bind_ext. intros c _. rewrite ?bind_bind. apply bind_ext. intros p _.
  rewrite ?bind_bind. apply bind_ext. intros r2 Hr2. rewrite ?bind_bind. apply bind_ext. intros out _. cbn [bind].
  rewrite IH; auto.
  unfold DoInverseFFT3, fftw in Hr2. destruct (_ <=? _); [|discriminate]. cbn [bind] in Hr2. injection Hr2 as <-.
  rewrite map_length. destruct HL as (_ & _ & _ & _ & _ & H6). rewrite H6. nia.
Qed.

(** running through a change of state *)
Lemma repeatedly_map {S T X} (f : S -> T) (g : T -> S -> S) (c : S -> outcome (X * S)) (c' : T -> outcome (X * T)) :
  (forall s, c s = let* (x, t) := c' (f s) in Ok (x, g t s)) -> (forall t s, f (g t s) = t) ->
  (forall t t' s, g t' (g t s) = g t' s) -> (forall s, g (f s) s = s) ->
  forall n s, repeatedly n c s = let* (xs, t) := repeatedly n c' (f s) in Ok (xs, g t s).
Proof.
  intros Hc Hf Hg Hi. induction n as [|n IH]; intros s; cbn [repeatedly bind].
  - now rewrite Hi.
  - rewrite Hc. rewrite ?bind_bind. apply bind_ext. intros [x t] _. cbn [bind]. rewrite IH, Hf, !bind_bind.
    apply bind_ext. intros [xs t'] _. cbn [bind]. now rewrite Hg.
Qed.

(** 3D *)
Lemma fields3 (v : variogram L) nx dx ny dy nz dz n padx pady padz sx sy sz st : (0 < n)%Z ->
  Fields3D rec fuel v nx dx ny dy nz dz n padx pady padz sx sy sz st =
  repeatedly (Z.to_nat n) (Simulate3D rec fuel v nx dx ny dy nz dz padx pady padz sx sy sz) st.
Proof.
  intros Hn. unfold Fields3D.
  destruct (Z.to_nat n) as [|m] eqn:En; [lia|]. clear Hn En n.
  destruct (sizes3 v nx dx ny dy nz dz padx pady padz) as [[[a b] c]| | |] eqn:Es;
    [|cbn [bind repeatedly]; unfold Simulate3D; rewrite Es; reflexivity..].
  cbn [bind].
  destruct (narrow a) as [a'| | |] eqn:Ea; [|cbn [bind repeatedly]; unfold Simulate3D; rewrite Es; cbn [bind]; rewrite Ea; reflexivity..].
  cbn [bind].
  destruct (narrow b) as [b'| | |] eqn:Eb;
    [|cbn [bind repeatedly]; unfold Simulate3D; rewrite Es; cbn [bind]; rewrite Ea; cbn [bind]; rewrite Eb; reflexivity..].
  cbn [bind].
  destruct (narrow c) as [c'| | |] eqn:Ec;
    [|cbn [bind repeatedly]; unfold Simulate3D; rewrite Es; cbn [bind]; rewrite Ea; cbn [bind]; rewrite Eb; cbn [bind]; rewrite Ec; reflexivity..].
  cbn [bind].
  destruct (filter3_ok v a' b' c' dx dy dz sx sy sz) as [f Hf]. rewrite Hf. cbn [bind].
  rewrite loop3_eq by apply repeat_length.
  symmetry.
  apply (repeatedly_map gen (fun d s => mkRstate (is_init s) (start_seed s) d (leaked s))); try reflexivity; [|intros []; reflexivity].
  intros s. unfold Simulate3D, one3. rewrite Es; cbn [bind]; rewrite Ea; cbn [bind]; rewrite Eb; cbn [bind]; rewrite Ec; cbn [bind].
  rewrite bind_bind. apply bind_ext. intros [xs g] _. cbv zeta. rewrite bind_bind. apply bind_ext. intros noise _.
  rewrite field3_split, Hf. cbn [bind]. rewrite bind_bind. apply bind_ext. intros out _. reflexivity.
Qed.

(** 2D *)
Lemma fields2 (v : variogram L) nx dx ny dy n g padx pady sx sy st : (0 < n)%Z ->
  Fields2D rec fuel v nx dx ny dy n (Some g) padx pady sx sy st =
  let* (fs, s) := repeatedly (Z.to_nat n) (fun '(g, st) => let* (fs, s) := Fields2D rec fuel v nx dx ny dy 1 (Some g) padx pady sx sy st in
                                             let* f := rd fs 0 in Ok (f, s)) (g, st) in Ok (fs, s).
Proof.
  intros Hn. unfold Fields2D at 1.
  destruct (Z.to_nat n) as [|m] eqn:En; [lia|]. clear Hn En n.
  destruct (sizes2 v nx dx ny dy padx pady) as [[a b]| | |] eqn:Es;
    [|cbn [bind repeatedly]; unfold Fields2D; rewrite Es; reflexivity..].
  cbn [bind].
  destruct (narrow a) as [a'| | |] eqn:Ea; [|cbn [bind repeatedly]; unfold Fields2D; rewrite Es; cbn [bind]; rewrite Ea; reflexivity..].
  cbn [bind].
  destruct (narrow b) as [b'| | |] eqn:Eb;
    [|cbn [bind repeatedly]; unfold Fields2D; rewrite Es; cbn [bind]; rewrite Ea; cbn [bind]; rewrite Eb; reflexivity..].
  cbn [bind].
  destruct (filter2_ok v a' b' dx dy sx sy) as [f Hf]. rewrite Hf. cbn [bind generator].
  rewrite loop2_eq by apply repeat_length.
  rewrite (repeatedly_map fst (fun d (s : dsfmt * rstate) => (d, snd s)) _ (one2 (Z.to_nat nx) (Z.to_nat ny) a' b' f)); try reflexivity;
    [|intros [g0 s0]|intros []; reflexivity].
  - cbn [fst snd]. rewrite bind_bind. apply bind_ext. intros [xs g'] _. reflexivity.
  - unfold Fields2D. rewrite Es; cbn [bind]; rewrite Ea; cbn [bind]; rewrite Eb; cbn [bind]. rewrite Hf. cbn [bind generator].
    rewrite loop2_eq by apply repeat_length. change (Z.to_nat 1) with 1. cbn [repeatedly]. cbn [fst snd].
    rewrite ?bind_bind. apply bind_ext. intros [x g1] _. reflexivity.
Qed.

Lemma fields2_null (v : variogram L) nx dx ny dy n padx pady sx sy st :
  Fields2D rec fuel v nx dx ny dy n None padx pady sx sy st =
  Fields2D rec fuel v nx dx ny dy n (Some (fst (new_generator rec st))) padx pady sx sy (snd (new_generator rec st)).
Proof.
  unfold Fields2D. apply bind_ext. intros [a b] _. apply bind_ext. intros a' _. apply bind_ext. intros b' _.
  apply bind_ext. intros f _. cbn [generator]. destruct (new_generator rec st). reflexivity.
Qed.

Lemma simulate2_fields (v : variogram L) nx dx ny dy padx pady sx sy st :
  Simulate2D rec fuel v nx dx ny dy padx pady sx sy st =
  let* (fs, (_, st')) := Fields2D rec fuel v nx dx ny dy 1 None padx pady sx sy st in
  let* f := rd fs 0 in Ok (f, st').
Proof.
  unfold Simulate2D, Fields2D. rewrite bind_bind. apply bind_ext. intros [a b] _. rewrite bind_bind. apply bind_ext. intros a' _.
  rewrite bind_bind. apply bind_ext. intros b' _.
  destruct (filter2_ok v a' b' dx dy sx sy) as [f Hf]. rewrite Hf. cbn [bind generator].
  destruct (new_generator rec st) as [g s]. rewrite loop2_eq by apply repeat_length. change (Z.to_nat 1) with 1. cbn [repeatedly].
  unfold one2. rewrite ?bind_bind. apply bind_ext. intros [xs g'] _. rewrite ?bind_bind. apply bind_ext. intros noise _.
  rewrite field2_split, Hf. cbn [bind]. rewrite ?bind_bind. apply bind_ext. intros out _. reflexivity.
Qed.

Lemma simulate1_field (v : variogram L) nx dx padx sx st :
  Simulate1D rec fuel v nx dx padx sx st =
  let* (f, (_, st')) := Field1D rec fuel v nx dx (Z.to_nat nx) None padx sx st in Ok (f, st').
Proof.
  unfold Simulate1D, Field1D. rewrite bind_bind. apply bind_ext. intros a _. rewrite bind_bind. apply bind_ext. intros a' _.
  cbn [generator]. destruct (new_generator rec st) as [g s]. rewrite bind_bind. apply bind_ext. intros [xs g'] _.
  rewrite bind_bind. apply bind_ext. intros out _. reflexivity.
Qed.

End P.
