(** C71-C73: the source files the build collects. *)
From Coq Require Import Bool String Lia List.
From Verif Require Import M_Sources S_Sources P_Sources.
Import ListNotations.
Open Scope string_scope.

(** ** C71: the files collected are those needed *)
(** Each is listed once, none is a system file, and each is needed: a start file, a file included (and not skipped) by a needed file,
    or the partner of such a file. *)
Theorem C71_only_needed : forall canon is_file names beside as_is in_src system ignore starts fuel r,
  collect_sources canon is_file names beside as_is in_src system ignore fuel starts = Some r ->
  NoDup r /\
  forall f, In f r -> needed canon is_file names beside as_is in_src system ignore (partner is_file) starts f /\ system f = false.
Proof. intros. eapply sound; eassumption. Qed.
Print Assumptions C71_only_needed.
(** All are found: the start files, what collected files include, and the source files that belong to included headers. Headers that
    are start files themselves are excepted: see the refutation. *)
Theorem C71_all_needed : forall canon is_file names beside as_is in_src system ignore starts fuel r,
  collect_sources canon is_file names beside as_is in_src system ignore fuel starts = Some r ->
  forall f, needed canon is_file names beside as_is in_src system ignore
              (fun p q => source_of is_file p q /\ ~ In p starts) starts f -> In f r.
Proof. intros. eapply complete; eassumption. Qed.
Print Assumptions C71_all_needed.

(** A project of three files: src/a.cpp includes "b.hpp", to which src/b.cpp belongs. *)
Definition ex_files : list path := [mkPath "src/a" ".cpp"; mkPath "src/b" ".hpp"; mkPath "src/b" ".cpp"].
Definition ex_is_file (p : path) : bool := existsb (path_eqb p) ex_files.
Definition ex_canon (p : path) : option string := if ex_is_file p then Some (text p) else None.
Definition ex_names (f : string) : list string := if String.eqb f "src/a.cpp" then ["vector"; "b.hpp"] else [].
Definition ex_in_src (n : string) : path := if String.eqb n "b.hpp" then mkPath "src/b" ".hpp" else mkPath "src/none" "".
Definition ex_as_is (n : string) : path := mkPath n "".
Definition ex_collect (ignore : list string) (starts : list path) : option (list string) :=
  collect_sources ex_canon ex_is_file ex_names (fun _ => ex_in_src) ex_as_is ex_in_src (fun _ => false) ignore 10 starts.
Example C71_example : ex_collect ["/usr/include"] [mkPath "src/a" ".cpp"] = Some ["src/a.cpp"; "src/b.cpp"; "src/b.hpp"].
Proof. reflexivity. Qed.
(** A header that is a start file does not bring its source file along, although one that is included does. *)
Theorem C71_start_header_refuted : exists r, ex_collect [] [mkPath "src/b" ".hpp"] = Some r /\
  partner ex_is_file (mkPath "src/b" ".hpp") (mkPath "src/b" ".cpp") /\ ~ In "src/b.cpp" r.
Proof.
  exists ["src/b.hpp"]. split; [reflexivity|]. split.
  - split; [reflexivity|]. split; [reflexivity|]. left. reflexivity.
  - intros [H|[]]. discriminate.
Qed.
Print Assumptions C71_start_header_refuted.

(** ** C72: the collection ends, for every finite project (cyclic includes or not) *)
Theorem C72_ends : forall canon is_file names beside as_is in_src system ignore all,
  (forall p f, canon p = Some f -> system f = false -> In f all) ->
  forall starts, exists fuel r, collect_sources canon is_file names beside as_is in_src system ignore fuel starts = Some r.
Proof. intros. eapply ends; [eassumption|]. apply le_n. Qed.
Print Assumptions C72_ends.
Example C72_example : forall p f, ex_canon p = Some f -> (fun _ : string => false) f = false -> In f (map text ex_files).
Proof.
  intros p f H _. unfold ex_canon in H. destruct (ex_is_file p) eqn:E; [|discriminate]. assert (T : text p = f) by congruence. rewrite <- T.
  apply in_map. unfold ex_is_file in E. apply existsb_exists in E. destruct E as (q & Q & E). apply path_eqb_iff in E. rewrite E. exact Q.
Qed.

(** ** C73: ignored folders *)
(** What an included file leads to is skipped exactly when its path starts with the text of an ignored folder. *)
Theorem C73_skipped_partial : forall is_file ignore work p, skipped ignore p -> add_if_necessary is_file ignore work p = work.
Proof. intros is_file ignore work p H. unfold add_if_necessary. apply ignored_iff in H. rewrite H. reflexivity. Qed.
Print Assumptions C73_skipped_partial.
(** Missing from the full claim (only files in ignored folders are skipped): ignoring "sr" drops the files of "src", and an empty entry
    drops everything but the start files. *)
Theorem C73_folders_refuted :
  ex_collect ["sr"] [mkPath "src/a" ".cpp"] = Some ["src/a.cpp"] /\ ex_collect [""] [mkPath "src/a" ".cpp"] = Some ["src/a.cpp"] /\
  (forall p, In p ex_files -> ~ exists r, text p = "sr/" ++ r).
Proof.
  split; [reflexivity|]. split; [reflexivity|]. intros p [<-|[<-|[<-|[]]]] [r H]; discriminate.
Qed.
Print Assumptions C73_folders_refuted.
