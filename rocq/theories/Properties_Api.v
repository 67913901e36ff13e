(** Properties of programs that use the Python module: seeding, replay, threads, result layout, indexing.
    All hold for every arithmetic and FFT library [L] and every implementation [rec] of the generator step. *)
From Coq Require Import ZArith Bool Lia String List.
From Verif Require Import Base Arith M_Variogram M_Grid M_Dsfmt M_Random M_Field M_Api S_Api P_Api P_ApiMain P_Grid P_Field P_Field2 ExampleLib.
Import ListNotations.
Open Scope Z_scope.

(** C01. Two processes with different histories [h1], [h2] that call seed(s) and then make the same calls [cs], at whatever
    clock times, get the same results and end in the same generator state. *)
Theorem C01_seed_reproducible : forall (L : Lib) (rec : recursion) (fuel : nat) (h1 h2 : list (Z * call L)) t1 t2 s (cs : list (call L)) ts1 ts2,
  size_ok s -> length ts1 = length cs -> length ts2 = length cs ->
  let p1 := (t1, CSeed s) :: at_times ts1 cs in
  let p2 := (t2, CSeed s) :: at_times ts2 cs in
  fst (run rec fuel p1 (after rec fuel h1)) = fst (run rec fuel p2 (after rec fuel h2)) /\
  gen (snd (run rec fuel p1 (after rec fuel h1))) = gen (snd (run rec fuel p2 (after rec fuel h2))).
Proof. exact @c01. Qed.
Print Assumptions C01_seed_reproducible.

(** Histories with and without simulations; both runs return three fields. *)
Example C01_case :
  let p t := (t, CSeed 7) :: at_times [t; t; t] [ex_sim1; ex_sim2; ex_sim3] in
  let r1 := fst (run do_recursion 100 (p 5) (after do_recursion 100 [(1, ex_sim1); (2, CSeed 3); (3, ex_sim2)])) in
  let r2 := fst (run do_recursion 100 (p 9) (@after ELib do_recursion 100 [])) in
  size_ok 7 /\ r1 = r2 /\
  map (fun o => match o with Ok (VArray l) => length l | _ => 99%nat end) (tl r1) = [2; 4; 8]%nat.
Proof.
  split; [unfold size_ok; lia|]. split.
  - apply C01_seed_reproducible; [unfold size_ok; lia|reflexivity|reflexivity].
  - vm_compute. reflexivity.
Qed.

(** C02. There is a function giving the automatic seed for each clock time, in [0,2^32), such that after any program all of
    whose calls came back, seed() answers with the seed in force and changes nothing. *)
Theorem C02_seed_reported : forall (L : Lib) (rec : recursion) (fuel : nat),
  exists auto, (forall t, 0 <= auto t < 2 ^ 32) /\
  forall (h : list (Z * call L)) t, all_back rec fuel h ->
  step rec fuel t (@CGetSeed L) (after rec fuel h) = (seed_answer (seed_in_force auto None h), after rec fuel h).
Proof. exact @c02. Qed.
Print Assumptions C02_seed_reported.

(** C02, first sentence: seed() raises exactly when every accepted call so far was a query. *)
Theorem C02_seed_raises : forall (L : Lib) (rec : recursion) (fuel : nat) (h : list (Z * call L)) t, all_back rec fuel h ->
  (fst (step rec fuel t (@CGetSeed L) (after rec fuel h)) = Throw NotInitialized <->
   (forall t c, In (t, c) h -> accepted c -> is_query c = true)).
Proof. exact @c02b. Qed.
Print Assumptions C02_seed_raises.

Example C02_case :
  let h := [(5, CVariogram "spherical"%string (lit ELib 2 0) None None None None None); (5, CSeed (2 ^ 64)); (6, CSeed 12); (7, ex_sim2)] in
  all_back do_recursion 100 h /\ fst (step do_recursion 100 8 (@CGetSeed ELib) (after do_recursion 100 h)) = Ok (VInt 12) /\
  all_back do_recursion 100 (firstn 2 h) /\
  fst (step do_recursion 100 8 (@CGetSeed ELib) (after do_recursion 100 (firstn 2 h))) = Throw NotInitialized.
Proof.
  split; [|split; [|split]].
  - apply came_back_all. vm_compute. reflexivity.
  - apply the_int_Ok. vm_compute. reflexivity.
  - apply came_back_all. vm_compute. reflexivity.
  - apply not_initialized_one. vm_compute. reflexivity.
Qed.

(** C03. A process that has made only queries so far and then runs simulate calls (no seed given) chose a number S, which
    seed() reports; seed(S) and the same calls in any other process reproduce all results and the generator state. *)
Theorem C03_replay : forall (L : Lib) (rec : recursion) (fuel : nat) (h : list (Z * call L)) t (c : call L) ts cs,
  all_back rec fuel h -> (forall t c, In (t, c) h -> accepted c -> is_query c = true) ->
  is_simulate c = true -> accepted c -> length ts = length cs -> (forall z, ~ In (CSeed z) cs) ->
  let r1 := run rec fuel ((t, c) :: at_times ts cs) (after rec fuel h) in
  Forall came_back (fst r1) ->
  exists S, 0 <= S < 2 ^ 32 /\
    (forall t', fst (step rec fuel t' (@CGetSeed L) (snd r1)) = Ok (VInt S)) /\
    forall (h' : list (Z * call L)) t0 t0' ts', length ts' = length cs ->
    let r2 := run rec fuel ((t0, CSeed S) :: (t0', c) :: at_times ts' cs) (after rec fuel h') in
    fst r2 = Ok VNone :: fst r1 /\ gen (snd r2) = gen (snd r1).
Proof. exact @c03. Qed.
Print Assumptions C03_replay.

Example C03_case : is_simulate ex_sim1 = true /\ accepted_b ex_sim1 = true /\
  Forall came_back (fst (run do_recursion 100 ((1000, ex_sim1) :: at_times [1001; 1002] [ex_sim2; ex_sim1])
                             (@after ELib do_recursion 100 [(999, CGetSeed)]))).
Proof.
  split; [reflexivity|split; [vm_compute; reflexivity|]]. apply came_back_all. vm_compute. reflexivity.
Qed.

(** C04. Seeds equal modulo 2^32 give the same results of all calls other than seed(). *)
Theorem C04_seed_low_32_bits : forall (L : Lib) (rec : recursion) (fuel : nat) (h1 h2 : list (Z * call L)) s1 s2 t1 t2 (cs : list (call L)) ts1 ts2,
  size_ok s1 -> size_ok s2 -> s1 mod 2 ^ 32 = s2 mod 2 ^ 32 ->
  length ts1 = length cs -> length ts2 = length cs ->
  (forall c, In c cs -> c <> CGetSeed) ->
  fst (run rec fuel ((t1, CSeed s1) :: at_times ts1 cs) (after rec fuel h1)) =
  fst (run rec fuel ((t2, CSeed s2) :: at_times ts2 cs) (after rec fuel h2)).
Proof. exact @c04. Qed.
Print Assumptions C04_seed_low_32_bits.

Example C04_case : size_ok 7 /\ size_ok (7 + 2 ^ 40) /\ 7 mod 2 ^ 32 = (7 + 2 ^ 40) mod 2 ^ 32 /\
  (forall c, In c [ex_sim1; ex_sim3] -> c <> CGetSeed) /\
  is_array (nth 1 (fst (run do_recursion 100 ((0, CSeed (7 + 2 ^ 40)) :: at_times [0; 0] [ex_sim1; ex_sim3])
     (@after ELib do_recursion 100 []))) NoFuel).
Proof.
  repeat split; try (unfold size_ok; lia); try reflexivity.
  - intros c [<-|[<-|[]]]; discriminate.
  - apply is_array_one. vm_compute. reflexivity.
Qed.

(** C09. After seed(s) and as many 1D/2D simulations (that returned fields), any next call gives the same result and leaves the
    same generator, whatever the earlier 1D/2D calls were. *)
Theorem C09_low_dim_independent : forall (L : Lib) (rec : recursion) (fuel : nat) s t (p1 p2 : list (Z * call L)) t1 t2 (c : call L),
  size_ok s -> length p1 = length p2 ->
  (forall t c, In (t, c) p1 \/ In (t, c) p2 -> low_dim c = true) ->
  forall h1 h2 : list (Z * call L),
  let r1 := run rec fuel ((t, CSeed s) :: p1) (after rec fuel h1) in
  let r2 := run rec fuel ((t, CSeed s) :: p2) (after rec fuel h2) in
  Forall is_array (tl (fst r1)) -> Forall is_array (tl (fst r2)) ->
  fst (step rec fuel t1 c (snd r1)) = fst (step rec fuel t2 c (snd r2)) /\
  gen (snd (step rec fuel t1 c (snd r1))) = gen (snd (step rec fuel t2 c (snd r2))).
Proof. exact @c09. Qed.
Print Assumptions C09_low_dim_independent.

Example C09_case :
  let p1 := [(1, ex_sim1); (2, ex_sim2)] in let p2 := [(1, ex_sim2); (2, ex_sim2)] in
  let r p := run do_recursion 100 ((0, CSeed 7) :: p) (@after ELib do_recursion 100 []) in
  (forall t c, In (t, c) p1 \/ In (t, c) p2 -> low_dim c = true) /\
  Forall is_array (tl (fst (r p1))) /\ Forall is_array (tl (fst (r p2))).
Proof.
  cbv zeta. split; [|split].
  - intros t c [[[= <- <-]|[[= <- <-]|[]]]|[[= <- <-]|[[= <- <-]|[]]]]; vm_compute; reflexivity.
  - apply is_array_all. vm_compute. reflexivity.
  - apply is_array_all. vm_compute. reflexivity.
Qed.

(** C10. Deleting all queries from a program leaves the results of the other calls and the final state unchanged; hence
    so does inserting or deleting some of them. *)
Theorem C10_queries_harmless : forall (L : Lib) (rec : recursion) (fuel : nat) (h p : list (Z * call L)),
  all_back rec fuel h -> Forall came_back (fst (run rec fuel p (after rec fuel h))) ->
  run rec fuel (filter (fun x => negb (is_query (snd x))) p) (after rec fuel h) =
  (map snd (filter (fun x => negb (is_query (snd (fst x)))) (combine p (fst (run rec fuel p (after rec fuel h))))),
   snd (run rec fuel p (after rec fuel h))).
Proof. exact @c10. Qed.
Print Assumptions C10_queries_harmless.

Example C10_case :
  let p := [(1, CGetSeed); (2, CCorr1 ex_vario (lit ELib 1 0)); (3, ex_sim2); (4, CSize ex_vario ex_dims2); (5, ex_sim3)] in
  Forall came_back (fst (run do_recursion 100 p (after do_recursion 100 [(0, @CSeed ELib 4)]))).
Proof.
  apply came_back_all. vm_compute. reflexivity.
Qed.

(** C11, first sentence, for threads that make the same call. *)
Theorem C11_threads_same_fields : forall (L : Lib) (rec : recursion) (fuel : nat) sched now (c : call L) (threads : list (list (call L)))
  (h : list (Z * call L)), all_back rec fuel h ->
  is_simulate c = true -> (exists t c', In (t, c') h /\ accepted c' /\ is_query c' = false) ->
  (forall tid c', In c' (nth tid threads []) -> c' = c) ->
  let st := after rec fuel h in
  let n := length (thread_run rec fuel sched threads now st) in
  map snd (thread_run rec fuel sched threads now st) =
  map snd (thread_run rec fuel (repeat 0%nat n) [repeat c n] now st).
Proof. exact @c11_order. Qed.
Print Assumptions C11_threads_same_fields.

(** C11, for threads that make different 1D/2D calls: the result of the k-th call executed depends on k and the call only,
    not on the schedule or the other calls. *)
Theorem C11_threads_mixed : forall (L : Lib) (rec : recursion) (fuel : nat) now (h : list (Z * call L)),
  all_back rec fuel h -> (exists t c', In (t, c') h /\ accepted c' /\ is_query c' = false) ->
  exists field : nat -> call L -> outcome (value L), forall sched (threads : list (list (call L))),
  (forall c, In c (thread_calls sched threads) -> low_dim c = true) ->
  Forall is_array (map snd (thread_run rec fuel sched threads now (after rec fuel h))) ->
  map snd (thread_run rec fuel sched threads now (after rec fuel h)) =
  map (fun '(k, c) => field k c) (number 0 (thread_calls sched threads)).
Proof. exact @c11_mixed. Qed.
Print Assumptions C11_threads_mixed.

Example C11_case :
  let h := [(0, @CSeed ELib 4)] in
  let threads := [[ex_sim1; ex_sim1]; [ex_sim2; ex_sim1]] in
  let sched := [1; 0; 0; 1]%nat in
  all_back do_recursion 100 h /\ (exists t c', In (t, c') h /\ accepted c' /\ is_query c' = false) /\
  (forall c, In c (thread_calls sched threads) -> low_dim c = true) /\
  Forall is_array (map snd (thread_run do_recursion 100 sched threads 0 (after do_recursion 100 h))).
Proof.
  cbv zeta. split; [|split; [|split]].
  - apply came_back_all. vm_compute. reflexivity.
  - exists 0, (CSeed 4). simpl. unfold size_ok. repeat split; auto; lia.
  - intros c [<-|[<-|[<-|[<-|[]]]]]; vm_compute; reflexivity.
  - apply is_array_all. vm_compute. reflexivity.
Qed.

(** C15. *)
Theorem C15_result_length : forall (L : Lib) (rec : recursion) (fuel : nat) t (c : call L) st l s d, sim_dims c = Some d ->
  step rec fuel t c st = (Ok (VArray l), s) -> Z.of_nat (length l) = field_length d.
Proof. exact @result_length. Qed.
Print Assumptions C15_result_length.

(** C15, C22: arguments of directions that are not simulated have no influence, neither on the field nor on the state. *)
Theorem C15_C22_unused_arguments_1d : forall (L : Lib) (rec : recursion) (fuel : nat) t (v : variogram L) (d1 d2 : dims L) (a1 a2 : adv L) st,
  accepted (CAdvanced v d1 a1) -> accepted (CAdvanced v d2 a2) -> dim_asked d1 = 1%nat -> dim_asked d2 = 1%nat ->
  d_nx d1 = d_nx d2 -> d_dx d1 = d_dx d2 -> a_padx a1 = a_padx a2 -> a_sx a1 = a_sx a2 ->
  step rec fuel t (CAdvanced v d1 a1) st = step rec fuel t (CAdvanced v d2 a2) st.
Proof. exact @unused1. Qed.
Print Assumptions C15_C22_unused_arguments_1d.
Theorem C15_C22_unused_arguments_2d : forall (L : Lib) (rec : recursion) (fuel : nat) t (v : variogram L) (d1 d2 : dims L) (a1 a2 : adv L) st,
  accepted (CAdvanced v d1 a1) -> accepted (CAdvanced v d2 a2) -> dim_asked d1 = 2%nat -> dim_asked d2 = 2%nat ->
  d_nx d1 = d_nx d2 -> d_dx d1 = d_dx d2 -> d_ny d1 = d_ny d2 -> d_dy d1 = d_dy d2 ->
  a_padx a1 = a_padx a2 -> a_sx a1 = a_sx a2 -> a_pady a1 = a_pady a2 -> a_sy a1 = a_sy a2 ->
  step rec fuel t (CAdvanced v d1 a1) st = step rec fuel t (CAdvanced v d2 a2) st.
Proof. exact @unused2. Qed.
Print Assumptions C15_C22_unused_arguments_2d.

Example C15_case :
  sim_dims ex_sim3 = Some ex_dims3 /\ field_length ex_dims3 = 8 /\ dim_asked ex_dims1 = 1%nat /\ dim_asked ex_dims2 = 2%nat /\
  is_array (fst (step do_recursion 100 0 ex_sim3 rstate0)) /\
  (* ny given but dy negative: still one dimension *)
  dim_asked (@mkDims ELib 2 (lit ELib 1 0) (Some 5) (Some (lit ELib (-1) 0)) None None) = 1%nat.
Proof.
  split; [reflexivity|split; [vm_compute; reflexivity|split; [vm_compute; reflexivity|split; [vm_compute; reflexivity|split]]]].
  - apply is_array_one. vm_compute. reflexivity.
  - vm_compute. reflexivity.
Qed.

(** C22: default arguments, and smoothing parameters that are not below 0.99999. *)
Theorem C22_defaults : forall (L : Lib) (rec : recursion) (fuel : nat) t (v : variogram L) (d : dims L) st,
  step rec fuel t (CAdvanced v d (mkAdv None None None None None None)) st = step rec fuel t (CSimulate v d) st.
Proof. exact @adv_default. Qed.
Print Assumptions C22_defaults.
Theorem C22_large_smoothing : forall (L : Lib) (rec : recursion) (fuel : nat) t (v : variogram L) (d : dims L) (a : adv L) sx sy sz st,
  flt L (lit L 1 0) (lit L 99999 5) = false ->
  no_smoothing sx -> no_smoothing sy -> no_smoothing sz ->
  step rec fuel t (CAdvanced v d (with_smoothing a sx sy sz)) st =
  step rec fuel t (CAdvanced v d (with_smoothing a None None None)) st.
Proof. exact @no_smoothing_effect. Qed.
Print Assumptions C22_large_smoothing.
Example C22_case : flt ELib (lit ELib 1 0) (lit ELib 99999 5) = false /\ no_smoothing (L := ELib) (Some (lit ELib 12 1)) /\
  no_smoothing (L := ELib) (Some (lit ELib 99999 5)) /\ ~ no_smoothing (L := ELib) (Some (lit ELib 9 1)).
Proof. vm_compute. repeat split; discriminate. Qed.

(** C16. The field on the padded grid does not depend on which part of it is asked for: two calls with the same
    padded extents (n + pad equal) return the same value at every common cell (i,j,k), at the Fortran positions of their own
    grids. In particular (pads 0) either is compared with the whole periodic field. *)
Theorem C16_fortran_order_3d : forall (L : Lib) (rec : recursion) (fuel : nat) t st (v : variogram L)
  nx1 nx2 dx ny1 ny2 dy nz1 nz2 dz px1 px2 py1 py2 pz1 pz2 sx sy sz l1 l2 s1 s2,
  flt L dy (lit L 0 0) = false -> flt L dz (lit L 0 0) = false ->
  1 < ny1 -> 1 < ny2 -> 1 < nz1 -> 1 < nz2 ->
  0 <= px1 -> 0 <= px2 -> 0 <= py1 -> 0 <= py2 -> 0 <= pz1 -> 0 <= pz2 ->
  nx1 + px1 = nx2 + px2 -> ny1 + py1 = ny2 + py2 -> nz1 + pz1 = nz2 + pz2 ->
  step rec fuel t (CAdvanced v (mkDims nx1 dx (Some ny1) (Some dy) (Some nz1) (Some dz))
                               (mkAdv (Some px1) (Some py1) (Some pz1) sx sy sz)) st = (Ok (VArray l1), s1) ->
  step rec fuel t (CAdvanced v (mkDims nx2 dx (Some ny2) (Some dy) (Some nz2) (Some dz))
                               (mkAdv (Some px2) (Some py2) (Some pz2) sx sy sz)) st = (Ok (VArray l2), s2) ->
  s1 = s2 /\
  forall i j k d,
     0 <= i -> i < nx1 -> i < nx2 -> 0 <= j -> j < ny1 -> j < ny2 -> 0 <= k -> k < nz1 -> k < nz2 ->
     nth (Z.to_nat (i + nx1 * j + nx1 * ny1 * k)) l1 d = nth (Z.to_nat (i + nx2 * j + nx2 * ny2 * k)) l2 d.
Proof. exact @cells_agree_3d. Qed.
Print Assumptions C16_fortran_order_3d.

Theorem C16_fortran_order_2d : forall (L : Lib) (rec : recursion) (fuel : nat) t st (v : variogram L)
  nx1 nx2 dx ny1 ny2 dy nz1 nz2 dz1 dz2 px1 px2 py1 py2 pz1 pz2 sx sy sz1 sz2 l1 l2 s1 s2,
  flt L dy (lit L 0 0) = false -> nz1 <= 1 \/ flt L dz1 (lit L 0 0) = true -> nz2 <= 1 \/ flt L dz2 (lit L 0 0) = true ->
  1 < ny1 -> 1 < ny2 -> 0 <= px1 -> 0 <= px2 -> 0 <= py1 -> 0 <= py2 ->
  nx1 + px1 = nx2 + px2 -> ny1 + py1 = ny2 + py2 ->
  step rec fuel t (CAdvanced v (mkDims nx1 dx (Some ny1) (Some dy) (Some nz1) (Some dz1))
                               (mkAdv (Some px1) (Some py1) pz1 sx sy sz1)) st = (Ok (VArray l1), s1) ->
  step rec fuel t (CAdvanced v (mkDims nx2 dx (Some ny2) (Some dy) (Some nz2) (Some dz2))
                               (mkAdv (Some px2) (Some py2) pz2 sx sy sz2)) st = (Ok (VArray l2), s2) ->
  s1 = s2 /\
  forall i j d,
     0 <= i -> i < nx1 -> i < nx2 -> 0 <= j -> j < ny1 -> j < ny2 ->
     nth (Z.to_nat (i + nx1 * j)) l1 d = nth (Z.to_nat (i + nx2 * j)) l2 d.
Proof. exact @cells_agree_2d. Qed.
Print Assumptions C16_fortran_order_2d.

Theorem C16_fortran_order_1d : forall (L : Lib) (rec : recursion) (fuel : nat) t st (v : variogram L)
  nx1 nx2 dx ny1 ny2 dy1 dy2 nz1 nz2 dz1 dz2 px1 px2 py1 py2 pz1 pz2 sx sy1 sy2 sz1 sz2 l1 l2 s1 s2,
  ny1 <= 1 \/ flt L dy1 (lit L 0 0) = true -> ny2 <= 1 \/ flt L dy2 (lit L 0 0) = true ->
  0 <= px1 -> 0 <= px2 -> nx1 + px1 = nx2 + px2 ->
  step rec fuel t (CAdvanced v (mkDims nx1 dx (Some ny1) (Some dy1) nz1 dz1)
                               (mkAdv (Some px1) py1 pz1 sx sy1 sz1)) st = (Ok (VArray l1), s1) ->
  step rec fuel t (CAdvanced v (mkDims nx2 dx (Some ny2) (Some dy2) nz2 dz2)
                               (mkAdv (Some px2) py2 pz2 sx sy2 sz2)) st = (Ok (VArray l2), s2) ->
  s1 = s2 /\
  forall i d, 0 <= i -> i < nx1 -> i < nx2 -> nth (Z.to_nat i) l1 d = nth (Z.to_nat i) l2 d.
Proof. exact @cells_agree_1d. Qed.
Print Assumptions C16_fortran_order_1d.

(** The same 2x2x2 padded grid, asked for as 1x2x2 with one cell of padding. *)
Example C16_case :
  let one := lit ELib 1 0 in
  let d1 := @mkDims ELib 1 one (Some 2) (Some one) (Some 2) (Some one) in
  let c1 := CAdvanced ex_vario d1 (mkAdv (Some 1) (Some 0) (Some 0) None None None) in
  is_array_b (fst (step do_recursion 100 0 c1 rstate0)) && is_array_b (fst (step do_recursion 100 0 ex_sim3 rstate0)) = true.
Proof.
  vm_compute. reflexivity.
Qed.

(** C44. *)
Theorem C44_index_of_cell_2d : forall ni nj i j, (i < ni -> j < nj -> GetIJ ni nj (GetIndex2 ni i j) = (i, j))%nat.
Proof. exact GetIJ_GetIndex. Qed.
Print Assumptions C44_index_of_cell_2d.
Theorem C44_cell_of_index_2d : forall ni nj x, (x < ni * nj ->
  let '(i, j) := GetIJ ni nj x in i < ni /\ j < nj /\ GetIndex2 ni i j = x)%nat.
Proof. exact GetIndex_GetIJ. Qed.
Print Assumptions C44_cell_of_index_2d.
Theorem C44_index_of_cell_3d : forall ni nj i j k, (i < ni -> j < nj -> GetIJK ni nj (GetIndex3 ni nj i j k) = (i, j, k))%nat.
Proof. exact GetIJK_GetIndex. Qed.
Print Assumptions C44_index_of_cell_3d.
Theorem C44_cell_of_index_3d : forall ni nj nk x, (x < ni * nj * nk ->
  let '(i, j, k) := GetIJK ni nj x in i < ni /\ j < nj /\ k < nk /\ GetIndex3 ni nj i j k = x)%nat.
Proof. exact GetIndex_GetIJK. Qed.
Print Assumptions C44_cell_of_index_3d.
Theorem C44_in_range : forall ni nj nk i j k, (i < ni -> j < nj -> k < nk ->
  GetIndex2 ni i j < ni * nj /\ GetIndex3 ni nj i j k < ni * nj * nk)%nat.
Proof. exact (fun ni nj nk i j k a b c => conj (GetIndex2_lt ni nj i j a b) (GetIndex3_lt ni nj nk i j k a b c)). Qed.
Print Assumptions C44_in_range.
Theorem C44_write_one_cell_2d : forall A ni (l l' : list A) i j a i' j' d, (i < ni -> i' < ni ->
  wr l (GetIndex2 ni i j, a) = Ok l' ->
  nth (GetIndex2 ni i' j') l' d = if (i =? i') && (j =? j') then a else nth (GetIndex2 ni i' j') l d)%nat.
Proof. exact @set_cell2. Qed.
Print Assumptions C44_write_one_cell_2d.
Theorem C44_write_one_cell_3d : forall A ni nj (l l' : list A) i j k a i' j' k' d,
  (i < ni -> j < nj -> i' < ni -> j' < nj ->
  wr l (GetIndex3 ni nj i j k, a) = Ok l' ->
  nth (GetIndex3 ni nj i' j' k') l' d =
  if (i =? i') && (j =? j') && (k =? k') then a else nth (GetIndex3 ni nj i' j' k') l d)%nat.
Proof. exact @set_cell3. Qed.
Print Assumptions C44_write_one_cell_3d.
Example C44_case : GetIJK 3 4 (GetIndex3 3 4 2 1 1) = (2, 1, 1)%nat /\ wr (repeat 0 24) (GetIndex3 3 4 2 1 1, 5) <> UB OutOfBounds.
Proof. vm_compute. split; [reflexivity|discriminate]. Qed.

Lemma ex_leak : exists (L : Lib) (rec : recursion) (fuel : nat) (h : list (Z * call L)),
  all_back rec fuel h /\ leaked (after rec fuel h) = 2%nat.
Proof.
  exists ELib, do_recursion, 100%nat, [(0, ex_sim1); (0, ex_sim2); (0, ex_sim3)]. split.
  - apply came_back_all. vm_compute. reflexivity.
  - vm_compute. reflexivity.
Qed.
(** C46 does not hold: the memory of the generator made for each 1D/2D simulation is never released. What is lost after any
    program is one generator per 1D/2D field returned. *)
Theorem C46_leak_count_partial : forall (L : Lib) (rec : recursion) (fuel : nat) (h : list (Z * call L)),
  leaked (after rec fuel h) = low_dim_fields h (fst (run rec fuel h rstate0)).
Proof. exact @c46. Qed.
Print Assumptions C46_leak_count_partial.
Theorem C46_no_accumulation_refuted : exists (L : Lib) (rec : recursion) (fuel : nat) (h : list (Z * call L)),
  all_back rec fuel h /\ leaked (after rec fuel h) = 2%nat.
Proof. exact ex_leak. Qed.
Print Assumptions C46_no_accumulation_refuted.
