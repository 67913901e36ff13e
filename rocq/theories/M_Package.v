(** Model of the names of the Python package, gaussianfft/__init__.py, and of "from gaussianfft import *". *)
From Coq Require Import List Bool String.
Import ListNotations.
Open Scope string_scope.

(** Names bound in the extension module, gaussfftinterface.cpp:167-258 (m.def, py::class_ and def_submodule). *)
Definition extension_names : list string :=
  ["quote"; "Variogram"; "seed"; "simulation_size"; "variogram"; "simulate"; "advanced"].

(** "from m import *" without __all__ takes the names that do not begin with an underscore. *)
Definition public (s : string) : bool := negb (prefix "_" s).

(** Names bound in the package after its __init__.py has run: lines 1-3, 8, 10, 13-21, 24-27, 30-34. *)
Definition package_names : list string :=
  ["__version__"; "Enum"; "find_spec"; "_gaussianfft"] ++ filter public extension_names ++
  ["VariogramType"; "variogram"; "__all__"].

(** Directories that "import gaussianfft.<name>" finds: gaussianfft/util and gaussianfft/advanced, each with an __init__.py.
    gaussianfft/util raises ImportError unless scipy is installed (util/__init__.py:1-4); that is the parameter [scipy] below. *)
Definition submodule (s : string) : bool := (s =? "util") || (s =? "advanced").

(** gaussianfft/__init__.py:30-34 *)
Definition package_all : list string :=
  ["variogram"; "simulate"; "seed"; "advanced"; "simulation_size";
   "quote"; "Variogram"; "VariogramType"; "util"; "SizeTVector"; "DoubleVector";
   "__version__"].

Inductive star : Set :=
| Bound (names : list string)     (* every name of __all__ is bound in the importer *)
| AttributeError (name : string)  (* the first name that is neither an attribute nor a submodule *)
| ImportError (name : string).    (* the first submodule whose import fails *)

Definition known (names : list string) (s : string) : bool := existsb (String.eqb s) names.

(** Python's "from package import *" (importlib._bootstrap._handle_fromlist, ceval import_all_from): submodules named in __all__
    that are not attributes yet are imported first, in order; a submodule that does not exist is passed over; then every name
    of __all__ is looked up. *)
Fixpoint import_submodules (scipy : bool) (names todo : list string) : string + list string :=
  match todo with
  | [] => inr names
  | s :: todo =>
      if known names s then import_submodules scipy names todo
      else if submodule s then
        if (s =? "util") && negb scipy then inl s else import_submodules scipy (s :: names) todo
      else import_submodules scipy names todo
  end.
Fixpoint look_up (names todo done : list string) : star :=
  match todo with
  | [] => Bound (rev done)
  | s :: todo => if known names s then look_up names todo (s :: done) else AttributeError s
  end.
Definition star_import (scipy : bool) (all : list string) : star :=
  match import_submodules scipy package_names all with
  | inl s => ImportError s
  | inr names => look_up names all []
  end.
