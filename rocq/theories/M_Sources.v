(** Model of collect_sources of /repo/utils.py (lines 59-176), which CMakeLists.txt:70 calls to find the source files of the module. *)
From Coq Require Import List Bool String Ascii.
Import ListNotations.
Open Scope string_scope.

(** A pathlib.Path, cut before the last suffix: its text is [base ++ ext]. *)
Record path := mkPath { base : string; ext : string }.
Definition text (p : path) : string := base p ++ ext p.
Definition path_eqb (p q : path) : bool := (String.eqb (base p) (base q) && String.eqb (ext p) (ext q))%bool.

Section Sources.
(** The project as the function sees it. A project file is named by its path relative to the root, as text.
    [canon p]: p.resolve().relative_to(root), or None when p is outside of the root (utils.py:124-128).
    [is_file]: Path.is_file and, for companions, Path.exists (a folder called x.cpp is not considered).
    [names f]: the names that the four patterns find in the lines of [f], in order (142-155); with the preprocessor these are
    the names of its line markers. Files are readable text.
    [beside f n], [as_is n], [in_src n]: file.parent / item, item, src / item (157-162).
    [system f]: below the include folder of Python, and the preprocessor is used (129-132). *)
Variable canon : path -> option string.
Variable is_file : path -> bool.
Variable names : string -> list string.
Variable beside : string -> string -> path.
Variable as_is in_src : string -> path.
Variable system : string -> bool.
Variable ignore : list string.

(** utils.py:84-106, add_if_necessary. The worklist is a stack, its end first. "file not in files" compares a Path with strings, which
    are never equal, so only the worklist is searched. *)
Definition ignored (p : path) : bool := existsb (fun i => prefix i (text p)) ignore.
Definition companions (p : path) : list path :=
  let b := base p in
  if String.eqb (ext p) ".hpp" then [mkPath b ".cpp"; mkPath b ".cpp"]
  else if String.eqb (ext p) ".h" then [mkPath b ".c"; mkPath b ".cpp"]
  else if String.eqb (ext p) ".cpp" then [mkPath b ".hpp"]
  else if String.eqb (ext p) ".c" then [mkPath b ".h"]
  else [].
Definition add_if_necessary (work : list path) (p : path) : list path :=
  if ignored p then work
  else if existsb (path_eqb p) work then work
  else fold_left (fun w c => if is_file c then c :: w else w) (companions p) (p :: work).

(** 156-164: where a name leads *)
Definition lookup (f n : string) : option path :=
  if is_file (beside f n) then Some (beside f n)
  else if is_file (as_is n) then Some (as_is n)
  else if is_file (in_src n) then Some (in_src n)
  else None.
(** 141-165: the loop over the lines *)
Definition inspect (f : string) (work : list path) : list path :=
  fold_left (fun w n => match lookup f n with Some p => add_if_necessary w p | None => w end) (names f) work.

(** 122-171: one turn of "while len(files_to_be_inspected) > 0" *)
Definition turn (p : path) (work : list path) (files : list string) : list path * list string :=
  match canon p with
  | None => (work, files)
  | Some f =>
      if system f then (work, files)
      else if existsb (String.eqb f) files then (work, files)
      else (inspect f work, (files ++ [f])%list)
  end.
(** None: not finished after [fuel] turns *)
Fixpoint loop (fuel : nat) (work : list path) (files : list string) : option (list string) :=
  match work with
  | [] => Some files
  | p :: work =>
      match fuel with
      | O => None
      | S fuel => let '(work, files) := turn p work files in loop fuel work files
      end
  end.
(** 69-82: [starts] are the files asked for, folders replaced by the files in them, all of which exist *)
Definition collect_sources (fuel : nat) (starts : list path) : option (list string) := loop fuel (rev starts) [].
End Sources.
