(** C34, C35 and C37 in terms of the calls variogram(...) and v.corr(...). *)
From Coq Require Import ZArith Bool Lia Reals Lra String List.
From Verif Require Import Base Arith RealArith M_Variogram M_Dsfmt M_Random M_Field M_Api M_Bind S_Vario S_Bind P_Calls.
Import ListNotations.
Open Scope R_scope.

(** A variogram of a documented type, with any of the other arguments left out (perp_range and depth_range then are -1, that is, the
    main range, the angles 0 and the power 1.5): corr of one, two or three lags is the documented function of the normalised distance. *)
Theorem C34_call o cl rec fuel now s n t (main : R) (perp depth azi dp power : option R) st : In (n, t) documented -> lower s = n -> is_ascii s ->
  let p := opt perp (-1) in let q := opt depth (-1) in let a := opt azi 0 in let d := opt dp 0 in let w := opt power (3 / 2) in
  0 < main -> p <> 0 -> q <> 0 -> 0 < w ->
  exists v : variogram (Rlib o cl), step (L := Rlib o cl) rec fuel now (CVariogram (L := Rlib o cl) s main perp depth azi dp power) st = (Ok (VVariogram (L := Rlib o cl) v), st) /\
  let f x y z := corr_fun t w (ndist main (or_main main p) (or_main main q) (radians a) (radians d) (x, y, z)) in
  forall rec' fuel' now' x y z st',
    step (L := Rlib o cl) rec' fuel' now' (CCorr1 (L := Rlib o cl) v x) st' = (Ok (VNum (L := Rlib o cl) (f x 0 0)), st') /\
    step (L := Rlib o cl) rec' fuel' now' (CCorr2 (L := Rlib o cl) v x y) st' = (Ok (VNum (L := Rlib o cl) (f x y 0)), st') /\
    step (L := Rlib o cl) rec' fuel' now' (CCorr3 (L := Rlib o cl) v x y z) st' = (Ok (VNum (L := Rlib o cl) (f x y z)), st').
Proof. exact (call_ok o cl rec fuel now s n t main perp depth azi dp power st). Qed.
Print Assumptions C34_call.
(** The same for calls from Python, with the arguments by position or by keyword, integers or floats. *)
Theorem C34_python o cl rec fuel now (pos : list (pyobj (Rlib o cl))) (kw : kwargs (Rlib o cl)) x1 x2 x3 x4 x5 x6 x7 s n t (m p q a d w : R) st :
  once kw -> well_formed FVariogram pos kw ->
  means FVariogram pos kw "type" x1 -> name_value x1 s -> In (n, t) documented -> lower s = n -> is_ascii s ->
  means FVariogram pos kw "main_range" x2 -> float_value (L := Rlib o cl) x2 m -> 0 < m ->
  means FVariogram pos kw "perp_range" x3 -> float_value (L := Rlib o cl) x3 p -> p <> 0 ->
  means FVariogram pos kw "depth_range" x4 -> float_value (L := Rlib o cl) x4 q -> q <> 0 ->
  means FVariogram pos kw "azimuth" x5 -> float_value (L := Rlib o cl) x5 a ->
  means FVariogram pos kw "dip" x6 -> float_value (L := Rlib o cl) x6 d ->
  means FVariogram pos kw "power" x7 -> float_value (L := Rlib o cl) x7 w -> 0 < w ->
  exists v : variogram (Rlib o cl), py_call rec fuel now FVariogram pos kw st = (Ok (VVariogram (L := Rlib o cl) v), st) /\
  let f x y z := corr_fun t w (ndist m (or_main m p) (or_main m q) (radians a) (radians d) (x, y, z)) in
  forall rec' fuel' now' X Y Z (x y z : R) st', a_float X -> float_value (L := Rlib o cl) X x -> a_float Y -> float_value (L := Rlib o cl) Y y -> a_float Z -> float_value (L := Rlib o cl) Z z ->
    py_call rec' fuel' now' FCorr [PVario v; X] [] st' = (Ok (VNum (L := Rlib o cl) (f x 0 0)), st') /\
    py_call rec' fuel' now' FCorr [PVario v; X; Y] [] st' = (Ok (VNum (L := Rlib o cl) (f x y 0)), st') /\
    py_call rec' fuel' now' FCorr [PVario v; X; Y; Z] [] st' = (Ok (VNum (L := Rlib o cl) (f x y z)), st').
Proof. exact (python_ok o cl rec fuel now pos kw x1 x2 x3 x4 x5 x6 x7 s n t m p q a d w st). Qed.
Print Assumptions C34_python.
(** variogram("Matern32", 2.0, power=2).corr(1, 2.5): the depth range is left out *)
Example C34_python_case o cl : once (c_kw o cl) /\ well_formed FVariogram (c_pos o cl) (c_kw o cl) /\ means FVariogram (c_pos o cl) (c_kw o cl) "type" (PStr "Matern32") /\
  In ("matern32"%string, MATERN32) documented /\ lower "Matern32" = "matern32"%string /\ is_ascii "Matern32" /\
  means FVariogram (c_pos o cl) (c_kw o cl) "power" (PInt 2) /\ means FVariogram (c_pos o cl) (c_kw o cl) "depth_range" (num_default (-1) 0) /\
  a_float (L := Rlib o cl) (PInt 1) /\ float_value (L := Rlib o cl) (PInt 1) 1 /\ float_value (L := Rlib o cl) (PFloat (L := Rlib o cl) (5 / 2)) (5 / 2).
Proof. exact (c34_example o cl). Qed.
