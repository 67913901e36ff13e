(** Model of how Python arguments reach the C++ functions: the binding of pybind11 (gaussfftinterface.cpp:167-258), and the wrapper
    gaussianfft/__init__.py:24-27 around variogram. Objects of other Python types than the ones below (numpy scalars, objects
    with __index__ or __float__, bytes) are not modelled. The text is pybind11's cpp_function::dispatcher and its casters for
    integers, float, std::string and class pointers; no two overloads here take the same number of arguments, so its two passes
    (without and with conversions) find the same overload. *)
From Coq Require Import ZArith List Bool String.
From Verif Require Import Base Arith M_Variogram M_Dsfmt M_Random M_Field M_Api.
Import ListNotations.
Open Scope Z_scope.

Section Bind.
Context {L : Lib}.
Notation num := (num L).

(** Python objects. A str is its UTF-8 encoding; [PEnum x] is a member of an Enum class with value [x]. *)
Inductive pyobj : Type :=
| PNone
| PBool (b : bool)
| PInt (z : Z)
| PFloat (x : num)
| PStr (s : string)
| PVario (v : variogram L)
| PEnum (x : pyobj).

(** C++ parameter types: size_t and unsigned long; int; double; const std::string &; Variogram * *)
Inductive kind : Set := KSize | KInt | KDouble | KString | KVario.
(** converted arguments; a class pointer is null for None *)
Inductive carg : Type := AZ (z : Z) | ANum (x : num) | AStr (s : string) | APtr (v : option (variogram L)).

(** bool is a subclass of int *)
Definition as_integer (x : pyobj) : option Z :=
  match x with PInt z => Some z | PBool b => Some (if b then 1 else 0) | _ => None end.
(** float(z) raises OverflowError from 2^1024 - 2^970 on, which the caster turns into "does not fit" *)
Definition float_ok (z : Z) : bool := Z.abs z <? 2 ^ 1024 - 2 ^ 970.

(** pybind11/cast.h type_caster<T, is_arithmetic>::load (a float never converts to an integer type; an integer out of range does
    not convert), string_caster::load, and type_caster_generic::load for pointers (None becomes a null pointer) *)
Definition load (k : kind) (x : pyobj) : option carg :=
  match k with
  | KSize => match as_integer x with Some z => if fits_size z then Some (AZ z) else None | None => None end
  | KInt => match as_integer x with Some z => if fits_int z then Some (AZ z) else None | None => None end
  | KDouble =>
      match x with
      | PFloat y => Some (ANum y)
      | _ => match as_integer x with Some z => if float_ok z then Some (ANum (ofZ L z)) else None | None => None end
      end
  | KString => match x with PStr s => Some (AStr s) | _ => None end
  | KVario => match x with PVario v => Some (APtr (Some v)) | PNone => Some (APtr None) | _ => None end
  end.

(** py::arg(name) and its default *)
Record param := mkParam { p_name : string; p_kind : kind; p_default : option pyobj }.
Definition req (n : string) (k : kind) : param := mkParam n k None.
Definition dflt (n : string) (k : kind) (x : pyobj) : param := mkParam n k (Some x).

Definition kwargs := list (string * pyobj).
Definition has (kw : kwargs) (n : string) : bool := existsb (fun e => (fst e =? n)%string) kw.
Fixpoint find (kw : kwargs) (n : string) : option pyobj :=
  match kw with [] => None | (m, x) :: kw => if (m =? n)%string then Some x else find kw n end.

(** pybind11.h cpp_function::dispatcher, steps 1 to 4 for functions with named arguments: positional arguments first (an argument
    given twice is an error), then keywords, then defaults *)
Fixpoint fill (sig : list param) (pos : list pyobj) (kw : kwargs) : option (list pyobj) :=
  match sig, pos with
  | [], [] => Some []
  | [], _ :: _ => None
  | p :: sig, x :: pos => if has kw (p_name p) then None else option_map (cons x) (fill sig pos kw)
  | p :: sig, [] =>
      match find kw (p_name p) with
      | Some x => option_map (cons x) (fill sig [] kw)
      | None => match p_default p with Some x => option_map (cons x) (fill sig [] kw) | None => None end
      end
  end.
Fixpoint load_all (ks : list kind) (xs : list pyobj) : option (list carg) :=
  match ks, xs with
  | [], [] => Some []
  | k :: ks, x :: xs =>
      match load k x with Some a => option_map (cons a) (load_all ks xs) | None => None end
  | _, _ => None
  end.
(** step 5: a keyword that no parameter has is an error *)
Definition no_other (sig : list param) (kw : kwargs) : bool :=
  forallb (fun e => existsb (fun p => (p_name p =? fst e)%string) sig) kw.
Definition bind_named (sig : list param) (pos : list pyobj) (kw : kwargs) : option (list carg) :=
  if no_other sig kw then
    match fill sig pos kw with Some xs => load_all (map p_kind sig) xs | None => None end
  else None.
(** functions bound without py::arg: as many positional arguments as parameters, no keywords *)
Definition bind_unnamed (ks : list kind) (pos : list pyobj) (kw : kwargs) : option (list carg) :=
  match kw with [] => load_all ks pos | _ => None end.

(** Functions of the package *)
Inductive fn : Set := FSeed | FVariogram | FCorr | FSize | FSimulate | FAdvanced.

(** gaussfftinterface.cpp:196-205, 224-232 *)
Definition sig_dims : list param :=
  [req "variogram" KVario; req "nx" KSize; req "dx" KDouble;
   dflt "ny" KSize (PInt 1); dflt "dy" KDouble (PFloat (lit L (-1) 0));
   dflt "nz" KSize (PInt 1); dflt "dz" KDouble (PFloat (lit L (-1) 0))].
(** gaussfftinterface.cpp:240-255 *)
Definition sig_advanced : list param :=
  sig_dims ++
  [dflt "padx" KInt (PInt (-1)); dflt "pady" KInt (PInt (-1)); dflt "padz" KInt (PInt (-1));
   dflt "sx" KDouble (PFloat (lit L 1 0)); dflt "sy" KDouble (PFloat (lit L 1 0)); dflt "sz" KDouble (PFloat (lit L 1 0))].
(** gaussfftinterface.cpp:210-220 *)
Definition sig_variogram : list param :=
  [req "type" KString; req "main_range" KDouble;
   dflt "perp_range" KDouble (PFloat (lit L (-1) 0)); dflt "depth_range" KDouble (PFloat (lit L (-1) 0));
   dflt "azimuth" KDouble (PFloat (lit L 0 0)); dflt "dip" KDouble (PFloat (lit L 0 0));
   dflt "power" KDouble (PFloat (lit L 15 1))].

(** What a call does once its arguments are bound: a call of the typed interface, or an access through a null Variogram pointer.
    Every function that takes a Variogram * dereferences it (gaussfft.cpp:35, 145-223; corr calls a virtual function). *)
Inductive action : Type := ACall (c : call L) | ANull.
Definition use (p : option (variogram L)) (f : variogram L -> call L) : action :=
  match p with Some v => ACall (f v) | None => ANull end.
Definition mk_dims nx dx ny dy nz dz : dims L := @mkDims L nx dx (Some ny) (Some dy) (Some nz) (Some dz).

Definition act_seed (l : list carg) : option action :=
  match l with [] => Some (ACall (@CGetSeed L)) | [AZ z] => Some (ACall (@CSeed L z)) | _ => None end.
Definition act_corr (l : list carg) : option action :=
  match l with
  | [APtr p; ANum x] => Some (use p (fun v => CCorr1 v x))
  | [APtr p; ANum x; ANum y] => Some (use p (fun v => CCorr2 v x y))
  | [APtr p; ANum x; ANum y; ANum z] => Some (use p (fun v => CCorr3 v x y z))
  | _ => None
  end.
Definition act_variogram (l : list carg) : option action :=
  match l with
  | [AStr s; ANum m; ANum p; ANum d; ANum a; ANum dp; ANum pw] =>
      Some (ACall (CVariogram s m (Some p) (Some d) (Some a) (Some dp) (Some pw)))
  | _ => None
  end.
Definition act_dims (f : variogram L -> dims L -> call L) (l : list carg) : option action :=
  match l with
  | [APtr p; AZ nx; ANum dx; AZ ny; ANum dy; AZ nz; ANum dz] => Some (use p (fun v => f v (mk_dims nx dx ny dy nz dz)))
  | _ => None
  end.
Definition act_advanced (l : list carg) : option action :=
  match l with
  | [APtr p; AZ nx; ANum dx; AZ ny; ANum dy; AZ nz; ANum dz; AZ px; AZ py; AZ pz; ANum sx; ANum sy; ANum sz] =>
      Some (use p (fun v => CAdvanced v (mk_dims nx dx ny dy nz dz) (@mkAdv L (Some px) (Some py) (Some pz) (Some sx) (Some sy) (Some sz))))
  | _ => None
  end.

Definition obind {T U} (o : option T) (f : T -> option U) : option U := match o with Some x => f x | None => None end.
Definition orelse {T} (a b : option T) : option T := match a with Some x => Some x | None => b end.

(** overloads in order of registration *)
Definition ext_call (f : fn) (pos : list pyobj) (kw : kwargs) : option action :=
  match f with
  | FSeed => orelse (obind (bind_unnamed [KSize] pos kw) act_seed) (obind (bind_unnamed [] pos kw) act_seed)
  | FCorr => orelse (obind (bind_unnamed [KVario; KDouble] pos kw) act_corr)
             (orelse (obind (bind_unnamed [KVario; KDouble; KDouble] pos kw) act_corr)
                     (obind (bind_unnamed [KVario; KDouble; KDouble; KDouble] pos kw) act_corr))
  | FVariogram => obind (bind_named sig_variogram pos kw) act_variogram
  | FSize => obind (bind_named sig_dims pos kw) (act_dims (@CSize L))
  | FSimulate => obind (bind_named sig_dims pos kw) (act_dims (@CSimulate L))
  | FAdvanced => obind (bind_named sig_advanced pos kw) act_advanced
  end.

(** gaussianfft/__init__.py:25-26 *)
Definition unwrap (x : pyobj) : pyobj := match x with PEnum y => y | _ => x end.
Definition remove (kw : kwargs) (n : string) : kwargs := filter (fun e => negb (fst e =? n)%string) kw.
(** gaussianfft/__init__.py:24-27: def variogram(type, *args, **kwargs); the other functions are the extension module's own *)
Definition resolve (f : fn) (pos : list pyobj) (kw : kwargs) : option action :=
  match f with
  | FVariogram =>
      match pos with
      | x :: pos => if has kw "type" then None else ext_call FVariogram (unwrap x :: pos) kw
      | [] => match find kw "type" with Some x => ext_call FVariogram [unwrap x] (remove kw "type") | None => None end
      end
  | _ => ext_call f pos kw
  end.

(** gaussianfft/__init__.py:13-21: class VariogramType(Enum), names and values *)
Definition VariogramType : list (string * string) :=
  [("GAUSSIAN", "gaussian"); ("EXPONENTIAL", "exponential"); ("GENERAL_EXPONENTIAL", "general_exponential"); ("SPHERICAL", "spherical");
   ("MATERN_32", "matern32"); ("MATERN_52", "matern52"); ("MATERN_72", "matern72"); ("CONSTANT", "constant")]%string.
(** VariogramType.<name>; AttributeError (here None) for other names *)
Definition enum_member (n : string) : option pyobj :=
  option_map (fun e => PEnum (PStr (snd e))) (List.find (fun e => (fst e =? n)%string) VariogramType).

(** A Python call made at clock time [now] *)
Definition py_call (rec : recursion) (fuel : nat) (now : Z) (f : fn) (pos : list pyobj) (kw : kwargs) (st : rstate)
  : outcome (value L) * rstate :=
  match resolve f pos kw with
  | Some (ACall c) => step rec fuel now c st
  | Some ANull => (UB NullPointer, st)
  | None => (Throw TypeError, st)
  end.
End Bind.
Arguments pyobj L : clear implicits.
Arguments kwargs L : clear implicits.
