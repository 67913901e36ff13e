(** Python calls: arguments by position and by keyword, rejected calls, type stubs, None, and VariogramType. *)
From Coq Require Import ZArith Bool String List Permutation.
From Verif Require Import Base Arith M_Variogram M_Dsfmt M_Random M_Field M_Api M_Bind ExampleLib S_Vario S_Bind
  P_Bind P_Bind2 P_Bind3 P_Bind4 P_Bind5 P_Bind6 P_Bind7.
Import ListNotations.
Open Scope string_scope.

(** ** C51 *)
(** The next positional argument may be given by keyword instead. *)
Theorem C51_position_or_keyword (L : Lib) rec fuel now f (pos : list (pyobj L)) (kw : kwargs L) n x st :
  named f -> nth_error (parameters f) (List.length pos) = Some n -> ~ In n (map fst kw) ->
  py_call rec fuel now f (pos ++ [x]) kw st = py_call rec fuel now f pos ((n, x) :: kw) st.
Proof. exact (kw_or_pos rec fuel now f pos kw n x st). Qed.
Print Assumptions C51_position_or_keyword.

Theorem C51_keyword_order (L : Lib) rec fuel now f (pos : list (pyobj L)) (kw kw' : kwargs L) st :
  named f -> once kw -> Permutation kw kw' -> py_call rec fuel now f pos kw st = py_call rec fuel now f pos kw' st.
Proof. exact (kw_order rec fuel now f pos kw kw' st). Qed.
Print Assumptions C51_keyword_order.

(** Giving the default changes nothing. *)
Theorem C51_default (L : Lib) rec fuel now f (pos : list (pyobj L)) (kw : kwargs L) n x st :
  named f -> In (n, x) (defaults f) -> ~ In n (map fst kw) ->
  (forall i, nth_error (parameters f) i = Some n -> (List.length pos <= i)%nat) ->
  py_call rec fuel now f pos ((n, x) :: kw) st = py_call rec fuel now f pos kw st.
Proof. exact (kw_default rec fuel now f pos kw n x st). Qed.
Print Assumptions C51_default.

(** A call that does not fit the signature raises TypeError and changes nothing. *)
Theorem C51_rejected (L : Lib) rec fuel now f (pos : list (pyobj L)) (kw : kwargs L) st :
  named f -> once kw -> ~ well_formed f pos kw -> py_call rec fuel now f pos kw st = (Throw TypeError, st).
Proof. exact (fun Hf Ho => call_rejected f pos kw Hf Ho rec fuel now st). Qed.
Print Assumptions C51_rejected.

(** A call that fits does what the function does with the values given. *)
Theorem C51_variogram (L : Lib) rec fuel now (pos : list (pyobj L)) (kw : kwargs L) x1 x2 x3 x4 x5 x6 x7 s m p d a dp pw st :
  once kw -> well_formed FVariogram pos kw ->
  means FVariogram pos kw "type" x1 -> name_value x1 s ->
  means FVariogram pos kw "main_range" x2 -> float_value x2 m ->
  means FVariogram pos kw "perp_range" x3 -> float_value x3 p ->
  means FVariogram pos kw "depth_range" x4 -> float_value x4 d ->
  means FVariogram pos kw "azimuth" x5 -> float_value x5 a ->
  means FVariogram pos kw "dip" x6 -> float_value x6 dp ->
  means FVariogram pos kw "power" x7 -> float_value x7 pw ->
  py_call rec fuel now FVariogram pos kw st = step rec fuel now (CVariogram s m (Some p) (Some d) (Some a) (Some dp) (Some pw)) st.
Proof. exact (fun Ho => py_variogram rec fuel now pos kw Ho x1 x2 x3 x4 x5 x6 x7 s m p d a dp pw st). Qed.
Print Assumptions C51_variogram.

Theorem C51_size_simulate (L : Lib) rec fuel now f (c : variogram L -> dims L -> call L) (pos : list (pyobj L)) (kw : kwargs L)
    x1 x2 x3 x4 x5 x6 x7 v nx dx ny dy nz dz st :
  once kw -> f = FSize /\ c = @CSize L \/ f = FSimulate /\ c = @CSimulate L -> well_formed f pos kw ->
  means f pos kw "variogram" x1 -> x1 = PVario v ->
  means f pos kw "nx" x2 -> whole x2 nx ->
  means f pos kw "dx" x3 -> float_value x3 dx ->
  means f pos kw "ny" x4 -> whole x4 ny ->
  means f pos kw "dy" x5 -> float_value x5 dy ->
  means f pos kw "nz" x6 -> whole x6 nz ->
  means f pos kw "dz" x7 -> float_value x7 dz ->
  py_call rec fuel now f pos kw st = step rec fuel now (c v (@mkDims L nx dx (Some ny) (Some dy) (Some nz) (Some dz))) st.
Proof. exact (fun Ho => py_dims rec fuel now pos kw Ho f c x1 x2 x3 x4 x5 x6 x7 v nx dx ny dy nz dz st). Qed.
Print Assumptions C51_size_simulate.

Theorem C51_advanced (L : Lib) rec fuel now (pos : list (pyobj L)) (kw : kwargs L)
    x1 x2 x3 x4 x5 x6 x7 y1 y2 y3 y4 y5 y6 v nx dx ny dy nz dz px py pz sx sy sz st :
  once kw -> well_formed FAdvanced pos kw ->
  means FAdvanced pos kw "variogram" x1 -> x1 = PVario v ->
  means FAdvanced pos kw "nx" x2 -> whole x2 nx ->
  means FAdvanced pos kw "dx" x3 -> float_value x3 dx ->
  means FAdvanced pos kw "ny" x4 -> whole x4 ny ->
  means FAdvanced pos kw "dy" x5 -> float_value x5 dy ->
  means FAdvanced pos kw "nz" x6 -> whole x6 nz ->
  means FAdvanced pos kw "dz" x7 -> float_value x7 dz ->
  means FAdvanced pos kw "padx" y1 -> whole y1 px ->
  means FAdvanced pos kw "pady" y2 -> whole y2 py ->
  means FAdvanced pos kw "padz" y3 -> whole y3 pz ->
  means FAdvanced pos kw "sx" y4 -> float_value y4 sx ->
  means FAdvanced pos kw "sy" y5 -> float_value y5 sy ->
  means FAdvanced pos kw "sz" y6 -> float_value y6 sz ->
  py_call rec fuel now FAdvanced pos kw st =
    step rec fuel now (CAdvanced v (@mkDims L nx dx (Some ny) (Some dy) (Some nz) (Some dz))
                                 (@mkAdv L (Some px) (Some py) (Some pz) (Some sx) (Some sy) (Some sz))) st.
Proof. exact (fun Ho => py_advanced rec fuel now pos kw Ho x1 x2 x3 x4 x5 x6 x7 y1 y2 y3 y4 y5 y6 v nx dx ny dy nz dz px py pz sx sy sz st). Qed.
Print Assumptions C51_advanced.

(** seed and corr take their arguments by position only. *)
Theorem C51_seed (L : Lib) rec fuel now (pos : list (pyobj L)) (kw : kwargs L) st :
  (pos = [] -> kw = [] -> py_call rec fuel now FSeed pos kw st = step rec fuel now CGetSeed st) /\
  (forall x z, pos = [x] -> kw = [] -> whole x z -> (0 <= z < 2 ^ 64)%Z -> py_call rec fuel now FSeed pos kw st = step rec fuel now (CSeed z) st) /\
  (pos <> [] \/ kw <> [] -> (forall x, pos = [x] -> kw = [] -> ~ a_size x) -> py_call rec fuel now FSeed pos kw st = (Throw TypeError, st)).
Proof. exact (seed_calls rec fuel now pos kw st). Qed.
Print Assumptions C51_seed.

Theorem C51_corr (L : Lib) rec fuel now (v : variogram L) x y z r s t st :
  a_float x -> float_value x r -> a_float y -> float_value y s -> a_float z -> float_value z t ->
  py_call rec fuel now FCorr [PVario v; x] [] st = step rec fuel now (CCorr1 v r) st /\
  py_call rec fuel now FCorr [PVario v; x; y] [] st = step rec fuel now (CCorr2 v r s) st /\
  py_call rec fuel now FCorr [PVario v; x; y; z] [] st = step rec fuel now (CCorr3 v r s t) st.
Proof.
  exact (fun A V B W C X => conj (corr_1 rec fuel now v x r st A V) (conj (corr_2 rec fuel now v x y r s st A V B W)
                              (corr_3 rec fuel now v x y z r s t st A V B W C X))).
Qed.
Print Assumptions C51_corr.

(** simulate(v, 2, dx=1.0, ny=True): an int, a float and a bool, by position and keyword *)
Definition b_pos : list (pyobj ELib) := [PVario ex_vario; PInt 2].
Definition b_kw : kwargs ELib := [("dx", PFloat (lit ELib 1 0)); ("ny", PBool true)].
Example C51_case : named FSimulate /\ once b_kw /\ well_formed FSimulate b_pos b_kw /\
  means FSimulate b_pos b_kw "ny" (PBool true) /\ whole (L := ELib) (PBool true) 1 /\ means FSimulate b_pos b_kw "nz" (PInt 1).
Proof.
  assert (Ho : once b_kw) by (unfold once; cbn; constructor; [cbn; intuition discriminate|constructor; [cbn; tauto|constructor]]).
  assert (Hf : named FSimulate) by (unfold named; tauto).
  assert (W : well_formed FSimulate b_pos b_kw).
  { destruct (resolve FSimulate b_pos b_kw) as [a|] eqn:E; [|discriminate]. exact (resolve_wf FSimulate b_pos b_kw Hf Ho a E). }
  assert (W' : whole (L := ELib) (PBool true) 1) by (unfold whole; tauto).
  assert (N : forall y, ~ given_as FSimulate b_pos b_kw "nz" y).
  { intros y [(i & E1 & E2)|H]; [|destruct H as [H|[H|[]]]; apply (f_equal fst) in H; discriminate H]. destruct i as [|[|i]]; [discriminate|discriminate|destruct i; discriminate]. }
  assert (M : means FSimulate b_pos b_kw "nz" (PInt 1)) by (right; split; [exact N|right; right; left; reflexivity]).
  assert (M' : means FSimulate b_pos b_kw "ny" (PBool true)) by (left; right; right; left; reflexivity).
  exact (conj Hf (conj Ho (conj W (conj M' (conj W' M))))).
Qed.
(** simulate(v, 2.0, 1.0) does not fit: a float is no size *)
Example C51_case_rejected : ~ well_formed (L := ELib) FSimulate [PVario ex_vario; PFloat (lit ELib 2 0); PFloat (lit ELib 1 0)] [].
Proof.
  intros W. destruct (wf_resolve FSimulate [PVario ex_vario; PFloat (lit ELib 2 0); PFloat (lit ELib 1 0)] [] ltac:(unfold named; tauto) (NoDup_nil _) W) as [a E].
  discriminate.
Qed.

(** ** C52: the positional overloads of the type stubs mean what their parameter names say *)
Theorem C52_stubs_partial (L : Lib) rec fuel now f ps (xs : list (pyobj L)) st :
  In ps (stubs f) -> ~ misleading f ps -> (List.length xs <= List.length ps)%nat ->
  py_call rec fuel now f xs [] st = py_call rec fuel now f [] (combine ps xs) st.
Proof. exact (stub_keywords rec fuel now f ps xs st). Qed.
Print Assumptions C52_stubs_partial.

(** The rest is false: for each misleading overload some call is accepted by keyword and raises TypeError by position, and the
    keywords of seed and corr are never accepted. *)
Theorem C52_stubs_refuted :
  (forall f ps, misleading f ps -> In ps (stubs f)) /\
  (exists L : Lib, forall f ps, misleading f ps ->
     exists xs : list (pyobj L), List.length xs = List.length ps /\
       well_formed f [] (combine ps xs) /\ ~ null_variogram f [] (combine ps xs) /\
       forall rec fuel now st, py_call rec fuel now f xs [] st = (Throw TypeError, st)) /\
  (forall (L : Lib) rec fuel now (x : pyobj L) st, py_call rec fuel now FSeed [] [(stub_seed, x)] st = (Throw TypeError, st)) /\
  (forall (L : Lib) rec fuel now (v x : pyobj L) st n, In n stub_corr -> py_call rec fuel now FCorr [v] [(n, x)] st = (Throw TypeError, st)).
Proof. exact stubs_wrong. Qed.
Print Assumptions C52_stubs_refuted.

(** ** C53: a call with unsuitable arguments raises; it does not crash *)
(** False for None in the place of the variogram: the pointer is dereferenced. *)
Theorem C53_none_refuted :
  exists L f (pos : list (pyobj L)), forall rec fuel now st, py_call rec fuel now f pos [] st = (UB NullPointer, st).
Proof. exact none_crash. Qed.
Print Assumptions C53_none_refuted.
(** Every call that fits the signature with None for the variogram does this. *)
Theorem C53_none_always (L : Lib) rec fuel now f (pos : list (pyobj L)) (kw : kwargs L) st :
  named f -> once kw -> well_formed f pos kw -> null_variogram f pos kw -> py_call rec fuel now f pos kw st = (UB NullPointer, st).
Proof. exact (fun Hf Ho => call_null f pos kw Hf Ho rec fuel now st). Qed.
Print Assumptions C53_none_always.
(** Otherwise a call is rejected with TypeError, or reaches the function with a variogram object. *)
Theorem C53_none_partial (L : Lib) f (pos : list (pyobj L)) (kw : kwargs L) : named f -> once kw -> ~ null_variogram f pos kw ->
  (forall rec fuel now st, py_call rec fuel now f pos kw st = (Throw TypeError, st)) \/
  exists c : call L, forall rec fuel now st, py_call rec fuel now f pos kw st = step rec fuel now c st.
Proof. exact (none_only L f pos kw). Qed.
Print Assumptions C53_none_partial.
(** None for any other parameter raises TypeError. *)
Theorem C53_none_elsewhere (L : Lib) rec fuel now f (pos : list (pyobj L)) (kw : kwargs L) n st :
  named f -> once kw -> given_as f pos kw n PNone -> n <> "variogram" -> py_call rec fuel now f pos kw st = (Throw TypeError, st).
Proof. exact (none_elsewhere rec fuel now f pos kw n st). Qed.
Print Assumptions C53_none_elsewhere.
Example C53_case : given_as (L := ELib) FSimulate [PVario ex_vario; PNone; PFloat (lit ELib 1 0)] [] "nx" PNone.
Proof. left. exists 1%nat. split; reflexivity. Qed.

(** ** C54: VariogramType *)
(** Each documented member exists; variogram() takes it for the documented name of its type, and what it creates has that type. *)
Theorem C54_members (L : Lib) n t : In (n, t) members ->
  exists x s, enum_member (L := L) n = Some x /\ In (s, t) documented /\
    forall rec fuel now pos kw st, py_call rec fuel now FVariogram (x :: pos) kw st = py_call rec fuel now FVariogram (PStr s :: pos) kw st /\
      (py_call rec fuel now FVariogram (x :: pos) kw st = (Throw TypeError, st) \/
       exists v, py_call rec fuel now FVariogram (x :: pos) kw st = (Ok (VVariogram v), st) /\ vt v = t).
Proof. exact (enum_calls n t). Qed.
Print Assumptions C54_members.
Theorem C54_one_each t : (exists s, In (s, t) documented) -> exists n, In (n, t) members /\ forall n', In (n', t) members -> n' = n.
Proof. exact (enum_unique t). Qed.
Print Assumptions C54_one_each.
Example C54_case : In ("MATERN_32", MATERN32) members /\
  exists v, forall rec fuel now st, py_call (L := ELib) rec fuel now FVariogram [PEnum (PStr "matern32"); PFloat (lit ELib 2 0)] [] st = (Ok (VVariogram v), st).
Proof. split; [cbn; tauto|]. eexists. intros. reflexivity. Qed.
