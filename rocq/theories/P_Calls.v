(** From the calls variogram(...) and v.corr(...) to the documented correlation functions. *)
From Coq Require Import ZArith Bool Lia Reals Lra String List.
From Verif Require Import Base Arith RealArith M_Variogram M_CovGrid M_Fft M_Dsfmt M_Random M_Field M_Api M_Bind S_Vario S_Bind P_Vario P_VarioNames P_VarioMore P_Bind P_Bind2 P_Bind3 P_Bind4 P_Bind5 P_Bind6.
Import ListNotations.
Open Scope R_scope.

Section C.
Variables (o : Z -> outcome Z) (cl : Z -> Z -> Z).
Notation L := (Rlib o cl).
Lemma call_ok rec fuel now s n t (main : R) (perp depth azi dp power : option R) st : In (n, t) documented -> lower s = n -> is_ascii s ->
  let p := opt perp (-1) in let q := opt depth (-1) in let a := opt azi 0 in let d := opt dp 0 in let w := opt power (3 / 2) in
  0 < main -> p <> 0 -> q <> 0 -> 0 < w ->
  exists v : variogram L, step (L := L) rec fuel now (CVariogram (L := L) s main perp depth azi dp power) st = (Ok (VVariogram (L := L) v), st) /\
  let f x y z := corr_fun t w (ndist main (or_main main p) (or_main main q) (radians a) (radians d) (x, y, z)) in
  forall rec' fuel' now' x y z st',
    step (L := L) rec' fuel' now' (CCorr1 (L := L) v x) st' = (Ok (VNum (L := L) (f x 0 0)), st') /\
    step (L := L) rec' fuel' now' (CCorr2 (L := L) v x y) st' = (Ok (VNum (L := L) (f x y 0)), st') /\
    step (L := L) rec' fuel' now' (CCorr3 (L := L) v x y z) st' = (Ok (VNum (L := L) (f x y z)), st').
Proof.
  intros D E A p q a d w M P Q W. destruct (@names_documented Rarith s n t main p q a d w D E A) as (v & C & T).
  destruct (created_corr _ _ _ _ _ _ _ _ C M P Q W) as [_ G]. rewrite T in G.
  assert (F1 : opt power (@lit L 15 1) = w). { destruct power; [reflexivity|]. unfold w, opt. change (15 / 10 = 3 / 2). lra. }
  assert (F2 : forall o' : option R, opt o' (@lit L (-1) 0) = opt o' (-1)). { intros [?|]; [reflexivity|]. unfold opt. change ((-1) / 1 = -1). lra. }
  assert (F3 : forall o' : option R, opt o' (@lit L 0 0) = opt o' 0). { intros [?|]; [reflexivity|]. unfold opt. change (0 / 1 = 0). lra. }
  exists v. split.
  - cbn [step]. unfold p, q, a, d in C. rewrite <- !F2, <- !F3, <- F1 in C. change (num L) with R in *. match goal with |- (omap _ ?c, _) = _ => change c with (@CreateVariogram Rarith s main (opt perp (@lit L (-1) 0)) (opt depth (@lit L (-1) 0)) (opt azi (@lit L 0 0)) (opt dp (@lit L 0 0)) (opt power (@lit L 15 1))) end. rewrite C. reflexivity.
  - intros f rec' fuel' now' x y z st'. cbn [step]. unfold f. rewrite <- !G. repeat split; do 3 f_equal.
    + exact (eq_trans (corr1_2 v x) (corr2_3 v x 0)).
    + exact (corr2_3 v x y).
Qed.
Lemma python_ok rec fuel now (pos : list (pyobj L)) (kw : kwargs L) x1 x2 x3 x4 x5 x6 x7 s n t (m p q a d w : R) st :
  once kw -> well_formed FVariogram pos kw ->
  means FVariogram pos kw "type" x1 -> name_value x1 s -> In (n, t) documented -> lower s = n -> is_ascii s ->
  means FVariogram pos kw "main_range" x2 -> float_value (L := L) x2 m -> 0 < m ->
  means FVariogram pos kw "perp_range" x3 -> float_value (L := L) x3 p -> p <> 0 ->
  means FVariogram pos kw "depth_range" x4 -> float_value (L := L) x4 q -> q <> 0 ->
  means FVariogram pos kw "azimuth" x5 -> float_value (L := L) x5 a ->
  means FVariogram pos kw "dip" x6 -> float_value (L := L) x6 d ->
  means FVariogram pos kw "power" x7 -> float_value (L := L) x7 w -> 0 < w ->
  exists v : variogram L, py_call rec fuel now FVariogram pos kw st = (Ok (VVariogram (L := L) v), st) /\
  let f x y z := corr_fun t w (ndist m (or_main m p) (or_main m q) (radians a) (radians d) (x, y, z)) in
  forall rec' fuel' now' X Y Z (x y z : R) st', a_float X -> float_value (L := L) X x -> a_float Y -> float_value (L := L) Y y -> a_float Z -> float_value (L := L) Z z ->
    py_call rec' fuel' now' FCorr [PVario v; X] [] st' = (Ok (VNum (L := L) (f x 0 0)), st') /\
    py_call rec' fuel' now' FCorr [PVario v; X; Y] [] st' = (Ok (VNum (L := L) (f x y 0)), st') /\
    py_call rec' fuel' now' FCorr [PVario v; X; Y; Z] [] st' = (Ok (VNum (L := L) (f x y z)), st').
Proof.
  intros O WF M1 V1 D E A M2 V2 Pm M3 V3 Pp M4 V4 Pq M5 V5 M6 V6 M7 V7 Pw.
  destruct (call_ok rec fuel now s n t m (Some p) (Some q) (Some a) (Some d) (Some w) st D E A Pm Pp Pq Pw) as (v & S & G). exists v. split.
  - rewrite (py_variogram rec fuel now pos kw O x1 x2 x3 x4 x5 x6 x7 s m p q a d w st WF M1 V1 M2 V2 M3 V3 M4 V4 M5 V5 M6 V6 M7 V7). exact S.
  - intros f rec' fuel' now' X Y Z x y z st' AX FX AY FY AZ FZ. destruct (G rec' fuel' now' x y z st') as (G1 & G2 & G3).
    rewrite (corr_1 rec' fuel' now' v X x st' AX FX), (corr_2 rec' fuel' now' v X Y x y st' AX FX AY FY), (corr_3 rec' fuel' now' v X Y Z x y z st' AX FX AY FY AZ FZ). repeat split; assumption.
Qed.
End C.
Definition c_pos (o : Z -> outcome Z) (cl : Z -> Z -> Z) : list (pyobj (Rlib o cl)) := [PStr "Matern32"; PFloat (L := Rlib o cl) 2].
Definition c_kw (o : Z -> outcome Z) (cl : Z -> Z -> Z) : kwargs (Rlib o cl) := [("power"%string, PInt 2)].
Lemma c34_example o cl : once (c_kw o cl) /\ well_formed FVariogram (c_pos o cl) (c_kw o cl) /\ means FVariogram (c_pos o cl) (c_kw o cl) "type" (PStr "Matern32") /\
  In ("matern32"%string, MATERN32) documented /\ lower "Matern32" = "matern32"%string /\ is_ascii "Matern32" /\
  means FVariogram (c_pos o cl) (c_kw o cl) "power" (PInt 2) /\ means FVariogram (c_pos o cl) (c_kw o cl) "depth_range" (num_default (-1) 0) /\
  a_float (L := Rlib o cl) (PInt 1) /\ float_value (L := Rlib o cl) (PInt 1) 1 /\ float_value (L := Rlib o cl) (PFloat (L := Rlib o cl) (5 / 2)) (5 / 2).
Proof.
  assert (Ho : once (c_kw o cl)) by (unfold once; cbn; constructor; [cbn; tauto|constructor]). split; [exact Ho|]. split.
  { destruct (resolve FVariogram (c_pos o cl) (c_kw o cl)) as [a|] eqn:E; [|discriminate]. exact (resolve_wf FVariogram (c_pos o cl) (c_kw o cl) ltac:(unfold named; tauto) Ho a E). }
  split; [left; left; exists 0%nat; split; reflexivity|]. split; [cbn; tauto|]. split; [reflexivity|].
  split; [cbn [is_ascii]; repeat split; apply Nat.ltb_lt; reflexivity|]. split; [left; right; left; reflexivity|].
  split. { right. split; [|right; left; reflexivity]. intros y [(i & E1 & E2)|H]; [|destruct H as [H|[]]; apply (f_equal fst) in H; discriminate H].
    destruct i as [|[|[|[|i]]]]; try discriminate. }
  split; [right; exists 1%Z; split; [left; reflexivity|reflexivity]|]. split; [right; exists 1%Z; split; [left; reflexivity|reflexivity]|left; reflexivity].
Qed.
