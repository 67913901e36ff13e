(** Python calls, as the documentation describes them: parameter names in order, defaults, and the objects a parameter takes. *)
From Coq Require Import ZArith List Bool String.
From Verif Require Import Base Arith M_Variogram M_Api M_Bind.
Import ListNotations.
Open Scope string_scope.

(** the functions whose arguments have names *)
Definition named (f : fn) : Prop := f = FVariogram \/ f = FSize \/ f = FSimulate \/ f = FAdvanced.
Definition parameters (f : fn) : list string :=
  match f with
  | FVariogram => ["type"; "main_range"; "perp_range"; "depth_range"; "azimuth"; "dip"; "power"]
  | FSize | FSimulate => ["variogram"; "nx"; "dx"; "ny"; "dy"; "nz"; "dz"]
  | FAdvanced => ["variogram"; "nx"; "dx"; "ny"; "dy"; "nz"; "dz"; "padx"; "pady"; "padz"; "sx"; "sy"; "sz"]
  | _ => []
  end.

(** The overloads that the type stubs (gaussianfft/__init__.pyi, gaussianfft/advanced/__init__.pyi) offer: parameter names in order.
    For seed and Variogram.corr see [stub_seed] and [stub_corr]. *)
Definition stubs (f : fn) : list (list string) :=
  match f with
  | FVariogram => [["type"; "main_range"; "perp_range"; "depth_range"; "azimuth"; "dip"; "power"]]
  | FSimulate => [["variogram"; "nx"; "ny"; "nz"; "dx"; "dy"; "dz"]; ["variogram"; "nx"; "dx"; "ny"; "dy"; "nz"; "dz"];
                  ["variogram"; "nx"; "dx"; "ny"; "dy"]; ["variogram"; "nx"; "dx"]]
  | FSize => [["variogram"; "nx"; "dx"; "ny"; "dy"; "nz"; "dz"]; ["variogram"; "nx"; "dx"; "ny"; "dy"]; ["variogram"; "nx"; "dx"]]
  | FAdvanced => [["variogram"; "nx"; "dx"; "ny"; "dy"; "nz"; "dz"; "padx"; "pady"; "padz"; "sx"; "sy"; "sz"];
                  ["variogram"; "nx"; "dx"; "ny"; "dy"; "padx"; "pady"; "sx"; "sy"]; ["variogram"; "nx"; "dx"; "padx"; "sx"]]
  | _ => []
  end.
Definition stub_seed : string := "seed".
Definition stub_corr : list string := ["dx"; "dy"; "dz"].
(** The overloads whose order is not the order of the bound parameters. *)
Definition misleading (f : fn) (ps : list string) : Prop :=
  f = FSimulate /\ ps = ["variogram"; "nx"; "ny"; "nz"; "dx"; "dy"; "dz"] \/
  f = FAdvanced /\ (ps = ["variogram"; "nx"; "dx"; "ny"; "dy"; "padx"; "pady"; "sx"; "sy"] \/ ps = ["variogram"; "nx"; "dx"; "padx"; "sx"]).

(** The members of VariogramType in the documentation and the types they stand for. *)
Definition members : list (string * vtype) :=
  [("GAUSSIAN", GAUSSIAN); ("EXPONENTIAL", EXPONENTIAL); ("GENERAL_EXPONENTIAL", GENERAL_EXPONENTIAL); ("SPHERICAL", SPHERICAL);
   ("MATERN_32", MATERN32); ("MATERN_52", MATERN52); ("MATERN_72", MATERN72); ("CONSTANT", CONSTANT)].

Section S.
Context {L : Lib}.
Definition num_default (m e : Z) : pyobj L := PFloat (lit L m e).
Definition defaults (f : fn) : list (string * pyobj L) :=
  match f with
  | FVariogram => [("perp_range", num_default (-1) 0); ("depth_range", num_default (-1) 0); ("azimuth", num_default 0 0);
                   ("dip", num_default 0 0); ("power", num_default 15 1)]
  | FSize | FSimulate => [("ny", PInt 1); ("dy", num_default (-1) 0); ("nz", PInt 1); ("dz", num_default (-1) 0)]
  | FAdvanced => [("ny", PInt 1); ("dy", num_default (-1) 0); ("nz", PInt 1); ("dz", num_default (-1) 0);
                  ("padx", PInt (-1)); ("pady", PInt (-1)); ("padz", PInt (-1));
                  ("sx", num_default 1 0); ("sy", num_default 1 0); ("sz", num_default 1 0)]
  | _ => []
  end.

(** an int or a bool as a number *)
Definition whole (x : pyobj L) (z : Z) : Prop := x = PInt z \/ x = PBool true /\ z = 1%Z \/ x = PBool false /\ z = 0%Z.
Definition a_size (x : pyobj L) : Prop := exists z, whole x z /\ (0 <= z < 2 ^ 64)%Z.
Definition an_int (x : pyobj L) : Prop := exists z, whole x z /\ (- 2 ^ 31 <= z < 2 ^ 31)%Z.
(** a float, or an int small enough to round to one *)
Definition a_float (x : pyobj L) : Prop := (exists y, x = PFloat y) \/ exists z, whole x z /\ (Z.abs z < 2 ^ 1024 - 2 ^ 970)%Z.
Definition a_variogram (x : pyobj L) : Prop := exists v, x = PVario v.
(** a name, or an Enum member that stands for one *)
Definition a_name (x : pyobj L) : Prop := exists s, x = PStr s \/ x = PEnum (PStr s).

(** what the parameter [n] takes; None passes for a variogram *)
Definition takes (n : string) (x : pyobj L) : Prop :=
  if n =? "type" then a_name x
  else if n =? "variogram" then a_variogram x \/ x = PNone
  else if (n =? "nx") || (n =? "ny") || (n =? "nz") then a_size x
  else if (n =? "padx") || (n =? "pady") || (n =? "padz") then an_int x
  else a_float x.

(** the object given for the parameter [n], by position or by keyword *)
Definition given_as (f : fn) (pos : list (pyobj L)) (kw : kwargs L) (n : string) (x : pyobj L) : Prop :=
  (exists i, nth_error (parameters f) i = Some n /\ nth_error pos i = Some x) \/ In (n, x) kw.

(** Calls that Python can make: no keyword twice. *)
Definition once (kw : kwargs L) : Prop := NoDup (map fst kw).
(** A call that fits the signature. *)
Definition well_formed (f : fn) (pos : list (pyobj L)) (kw : kwargs L) : Prop :=
  (List.length pos <= List.length (parameters f))%nat /\
  (forall n x, In (n, x) kw -> In n (parameters f)) /\
  (forall n x i, In (n, x) kw -> nth_error (parameters f) i = Some n -> (List.length pos <= i)%nat) /\
  (forall n, In n (parameters f) -> ~ In n (map fst (defaults f)) -> exists x, given_as f pos kw n x) /\
  (forall n x, given_as f pos kw n x -> takes n x).
(** the object that the parameter [n] has in the call: the one given, or else the default *)
Definition means (f : fn) (pos : list (pyobj L)) (kw : kwargs L) (n : string) (x : pyobj L) : Prop :=
  given_as f pos kw n x \/ (forall y, ~ given_as f pos kw n y) /\ In (n, x) (defaults f).
(** the double that a number stands for *)
Definition float_value (x : pyobj L) (r : num L) : Prop := x = PFloat r \/ exists z, whole x z /\ r = ofZ L z.
(** the variogram name that a str or an Enum member stands for *)
Definition name_value (x : pyobj L) (s : string) : Prop := x = PStr s \/ x = PEnum (PStr s).
(** some variogram argument is None *)
Definition null_variogram (f : fn) (pos : list (pyobj L)) (kw : kwargs L) : Prop := given_as f pos kw "variogram" PNone.
End S.
