(** C94: very large grids. *)
From Coq Require Import ZArith Bool Lia List.
From Verif Require Import Base Arith M_Variogram M_FftSize M_Dsfmt M_Random M_Field M_Api M_Large S_Api S_Sizes S_Large P_FftSize P_Large ExampleLib.
Import ListNotations.
Open Scope Z_scope.

(** Every call whose padded sizes are at most 2^18 in each direction (README: "1000 x 1000 x 1000 and greater") asks for exactly the memory
    it uses ([fits], which implies [computed_or_refused], P_Large.fits_safe): no product of sizes and no index leaves 64 bits. [ns] is the answer of simulation_size; [has_room] and [grid_used]: S_Sizes.v. *)
Theorem C94_up_to_2_18 : forall (L : Lib) (d : dims L) (a : adv L) ns, good_lib L (2 ^ 18) -> has_room d a ns (2 ^ 18) ->
  exists grid, (forall i, (i < dim_asked d)%nat -> grid_used d a ns i = Ok (grid i)) /\ fits (arrays (dim_asked d) (cells d) grid).
Proof. exact @c94_sizes. Qed.
Print Assumptions C94_up_to_2_18.

(** Larger sizes: one and two dimensions always; three dimensions as long as the grid has fewer than 2^60 cells (two more in the first direction). *)
Theorem C94_fits_partial : forall (L : Lib) (d : dims L) (a : adv L) ns B grid, good_lib L B -> B < 2 ^ 29 -> has_room d a ns B ->
  (forall i, (i < dim_asked d)%nat -> grid_used d a ns i = Ok (grid i)) ->
  (dim_asked d = 3%nat -> (grid 0%nat + 2) * grid 1%nat * grid 2%nat < 2 ^ 60) -> fits (arrays (dim_asked d) (cells d) grid).
Proof. exact @c94_fits. Qed.
Print Assumptions C94_fits_partial.

(** The full statement fails: simulate(variogram('spherical', 2.0), 1, 1.0, 2^30 - 3, 1.0, 2^30 - 3, 1.0) is an acceptable call with a grid
    of 4 x 2^30 x 2^30 cells; the bytes for them are a multiple of 2^64, so that none are asked for, and the constructor fills them. *)
Theorem C94_wrap_refuted : exists (L : Lib) (v : variogram L) (d : dims L) ns grid,
  good_lib L (2 ^ 30) /\ dims_ok d /\ dim_asked d = 3%nat /\
  fst (step do_recursion 100 0 (CSize v d) rstate0) = Ok (VSizes ns) /\ has_room d (@mkAdv L None None None None None None) ns (2 ^ 30) /\
  (forall i, (i < 3)%nat -> grid_used d (@mkAdv L None None None None None None) ns i = Ok (grid i)) /\
  ~ computed_or_refused (arrays 3 (cells d) grid).
Proof.
  exists BLib, b_vario, b_dims, [2 ^ 2; 2 ^ 30; 2 ^ 30], (fun i => nth i [2 ^ 2; 2 ^ 30; 2 ^ 30] 0).
  split; [exact b_lib|]. split; [|split; [vm_compute; reflexivity|split; [|split; [|split]]]].
  - unfold dims_ok, given, size_ok. cbn. repeat split; try discriminate; try (injection H as <-); lia.
  - assert (E : b_sizes_of (fst (step do_recursion 100 0 (CSize b_vario b_dims) rstate0)) = [2 ^ 2; 2 ^ 30; 2 ^ 30]) by (vm_compute; reflexivity).
    destruct (fst (step do_recursion 100 0 (CSize b_vario b_dims) rstate0)) as [[]| | |]; cbn [b_sizes_of] in E; try discriminate E. rewrite E. reflexivity.
  - intros i Hi. replace (dim_asked b_dims) with 3%nat in Hi by (vm_compute; reflexivity).
    destruct i as [|[|[|]]]; [| | |lia]; unfold requested; cbn; lia.
  - intros i Hi. destruct i as [|[|[|]]]; [| | |lia]; (apply (grid_power b_dims b_auto); [exact b_lib|lia|reflexivity]).
  - exact (overrun3 _ _ _).
Qed.
Print Assumptions C94_wrap_refuted.

(** 1000 x 1000 x 1000 cells padded to 2000 in each direction *)
Example C94_case : let d := @mkDims BLib 1000 (lit EA 1 0) (Some 1000) (Some (lit EA 1 0)) (Some 1000) (Some (lit EA 1 0)) in
  let a := @mkAdv BLib (Some 1000) (Some 1000) (Some 1000) None None None in
  good_lib BLib (2 ^ 18) /\ dim_asked d = 3%nat /\ has_room d a [] (2 ^ 18).
Proof.
  cbv zeta. split; [split; [intros x _; cbn; auto|intros m Hm; apply exact_logs_good; lia]|]. split; [vm_compute; reflexivity|].
  intros i Hi. match type of Hi with (_ < ?x)%nat => replace x with 3%nat in Hi by (vm_compute; reflexivity) end.
  destruct i as [|[|[|]]]; [| | |lia]; unfold requested; cbn; lia.
Qed.
