(** build-packages/arm-performance-libraries/hatch_build.py: the build hook that fetches the Arm Performance Libraries (the FFT of
    the ARM wheels), keeps its progress in files, and packages the library. *)
From Coq Require Import String List Bool Arith.
Import ListNotations.

(** TargetPlatform (line 45) *)
Inductive platform := Macos | Linux.
Definition version := string.
(** STATE (line 63) *)
Inductive stage := Fetching | Fetched | Preparing | Prepared | Finished | Failed.

Definition platform_eqb (p q : platform) : bool := match p, q with Macos, Macos | Linux, Linux => true | _, _ => false end.
Definition stage_eqb (a b : stage) : bool :=
  match a, b with
  | Fetching, Fetching | Fetched, Fetched | Preparing, Preparing | Prepared, Prepared | Finished, Finished | Failed, Failed => true
  | _, _ => false
  end.

(** STATE_MACHINE["transitions"] (lines 73-81); [None]: no state yet *)
Definition transitions (s : option stage) : list stage :=
  match s with
  | None => [Fetching; Failed]
  | Some Fetching => [Fetched; Failed]
  | Some Fetched => [Preparing; Failed]
  | Some Preparing => [Prepared; Failed]
  | Some Prepared => [Finished; Failed]
  | Some Finished => []
  | Some Failed => [Fetching; Preparing]
  end.

(** A file that is written in one go: it may be there in part only. *)
Inductive file := Missing | Part | Whole.
(** The directory "data" of one platform and version: missing, empty, holding the saved .deb only (Linux), or the first [k] of the
    library's files.  The library's files are numbered; their names are not modelled. *)
Inductive data := NoData | EmptyData | Deb | Files (k : nat).

(** What is on the disk.  Files of other programs, and the directories' own creation, are left out. *)
Record disk := {
  state : option stage;              (* .cache/build-state.txt; absent or empty: None (lines 118-124) *)
  target : option (option platform); (* .cache/target-platform.txt; Some None: an empty file *)
  archive : platform -> version -> file; (* .cache/<name>; the name has the platform and the version in it (lines 268-283) *)
  script : platform -> version -> file;  (* the installation script (lines 285-294) *)
  library : platform -> version -> data; (* .cache/<platform>/<version>/data (lines 211-217) *)
  package : list (platform * version * nat * bool); (* bin, lib, include, license_terms under the root; false: a file copied in part *)
  platform_txt : option platform     (* .platform.txt; None: missing or empty *)
}.
Definition put {B} (f : platform -> version -> B) (p : platform) (v : version) (b : B) : platform -> version -> B :=
  fun q w => if platform_eqb p q && String.eqb v w then b else f q w.
Definition with_state d s := {| state := s; target := target d; archive := archive d; script := script d; library := library d; package := package d; platform_txt := platform_txt d |}.
Definition with_target d t := {| state := state d; target := t; archive := archive d; script := script d; library := library d; package := package d; platform_txt := platform_txt d |}.
Definition with_archive p v b d := {| state := state d; target := target d; archive := put (archive d) p v b; script := script d; library := library d; package := package d; platform_txt := platform_txt d |}.
Definition with_script p v b d := {| state := state d; target := target d; archive := archive d; script := put (script d) p v b; library := library d; package := package d; platform_txt := platform_txt d |}.
Definition with_library p v b d := {| state := state d; target := target d; archive := archive d; script := script d; library := put (library d) p v b; package := package d; platform_txt := platform_txt d |}.
Definition with_package d l := {| state := state d; target := target d; archive := archive d; script := script d; library := library d; package := l; platform_txt := platform_txt d |}.
Definition with_platform d p := {| state := state d; target := target d; archive := archive d; script := script d; library := library d; package := package d; platform_txt := p |}.

(** How a run ends: it returns, an exception leaves it, or the process is killed. *)
Inductive ending := Returned | Raised | Killed.
(** What goes wrong: at the [n]-th step of the run an exception is raised, or the process is killed.  An exception stands for a
    failing network, a full disk, a failing script, an old bash or Python, ... *)
Inductive fault := Exception | Kill.
Definition trouble := option (nat * fault).
(** A part of the program: from the disk and the trouble ahead to the ending, the trouble still ahead and the disk. *)
Definition prog := trouble -> disk -> ending * trouble * disk.

Definition skip : prog := fun t d => (Returned, t, d).
Definition raise : prog := fun t d => (Raised, t, d).
(** One step of the program or of the world *)
Definition step (f : disk -> disk) : prog := fun t d =>
  match t with
  | Some (0, Exception) => (Raised, None, d)
  | Some (0, Kill) => (Killed, None, d)
  | Some (S n, x) => (Returned, Some (n, x), f d)
  | None => (Returned, None, f d)
  end.
Definition seq (a b : prog) : prog := fun t d =>
  match a t d with
  | (Returned, t', d') => b t' d'
  | r => r
  end.
Definition look (f : disk -> prog) : prog := fun t d => f d t d.
(** try: a except Exception: h; raise *)
Definition guard (a h : prog) : prog := fun t d =>
  match a t d with
  | (Raised, t', d') => match h t' d' with
      | (Returned, t'', d'') => (Raised, t'', d'')
      | r => r
      end
  | r => r
  end.
Infix ";;" := seq (at level 61, right associativity).

(** the setter of state (lines 126-132): opening with "w" empties the file, then the word is written *)
Definition set_state (s : option stage) : prog :=
  match s with
  | None => step (fun d => with_state d None)
  | Some x => step (fun d => with_state d None) ;; step (fun d => with_state d (Some x))
  end.

(** state_change (lines 85-111) *)
Definition state_change (start finished : stage) (func : prog) : prog :=
  look (fun d =>
    if existsb (stage_eqb start) (transitions (state d)) || match state d with Some s => stage_eqb s start | None => false end
    then set_state (Some start) ;; guard func (set_state (Some Failed)) ;; set_state (Some finished)
    else skip).

Section Run.
(** how many files the library of a platform and version has; what a script that was extracted in part does: it installs [k] files and
    reports success, or reports an error *)
Context (size : platform -> version -> nat) (broken_script : option nat).
Context (p : platform) (v : version).

(** _download (lines 276-283): the connection is opened before the file *)
Definition download : prog :=
  look (fun d => match archive d p v with
    | Missing => step (fun d => d) ;; step (with_archive p v Part) ;; step (with_archive p v Whole)
    | _ => skip
    end).
(** _extract_archive (lines 296-333) on the archive that was downloaded; an archive that is not whole cannot be read (simplification:
    nothing is extracted from it) *)
Definition extract_archive : prog :=
  look (fun d => match archive d p v with
    | Whole => step (with_script p v Part) ;; step (with_script p v Whole)
    | _ => raise
    end).
Fixpoint install_from (k n : nat) : prog :=
  match n with
  | O => skip
  | S n' => step (with_library p v (Files (S k))) ;; install_from (S k) n'
  end.
(** the files arrive one by one; on Linux after the .deb was saved *)
Definition install (n : nat) : prog :=
  match p with Linux => step (with_library p v Deb) | Macos => skip end ;;
  step (with_library p v (Files 0)) ;; install_from 0 n.
(** _extract_library_files (lines 335-383) *)
Definition extract_library_files : prog :=
  look (fun d => match library d p v with
    | NoData | EmptyData =>
        step (with_library p v EmptyData) ;;
        step (fun d => d) ;;
        look (fun d => match script d p v with
          | Whole => install (size p v)
          | _ => match broken_script with Some k => install k | None => raise end
          end)
    | _ => skip
    end).
(** fetch (lines 259-266) *)
Definition fetch_body : prog :=
  download ;;
  look (fun d => match script d p v with Missing => extract_archive | _ => skip end) ;;
  extract_library_files.
Definition fetch : prog := state_change Fetching Fetched fetch_body.

(** removal of the packaged directories, file by file (lines 194-202) *)
Fixpoint remove (n : nat) : prog :=
  match n with
  | O => skip
  | S n' => step (fun d => with_package d (tl (package d))) ;; remove n'
  end.
(** the copies, file by file (lines 204-209); a copy can be cut short *)
Fixpoint copy_from (i n : nat) : prog :=
  match n with
  | O => skip
  | S n' => step (fun d => with_package d (package d ++ [(p, v, i, false)])) ;;
            step (fun d => with_package d (removelast (package d) ++ [(p, v, i, true)])) ;;
            copy_from (S i) n'
  end.
(** source_directory (lines 219-240) and _source_files (lines 246-257): without the directory macOS raises, Linux calls fetch and goes
    on with no files *)
Definition copy_sources : prog :=
  look (fun d => match library d p v with
    | Files _ => skip
    | _ => match p with Macos => raise | Linux => fetch end
    end) ;;
  look (fun d => match library d p v with
    | Files k => copy_from 0 k
    | _ => skip
    end).
(** prepare (lines 190-209); the first step is the test of the Python version *)
Definition prepare_body : prog :=
  step (fun d => d) ;; look (fun d => remove (length (package d))) ;; copy_sources.
Definition prepare : prog := state_change Preparing Prepared prepare_body.
(** write_platform_file (lines 176-179) *)
Definition write_platform_file : prog :=
  state_change Prepared Finished (step (fun d => with_platform d None) ;; step (fun d => with_platform d (Some p))).

(** the setter of target_platform (lines 161-174) *)
Definition set_target : prog :=
  look (fun d => match target d with
    | Some (Some q) => if platform_eqb q p then skip else set_state None
    | _ => set_state None
    end) ;;
  step (fun d => with_target d (Some None)) ;;
  step (fun d => with_target d (Some (Some p))).
(** ensure_arm_performance_libraries (lines 385-405): one build *)
Definition build : prog := set_target ;; fetch ;; prepare ;; write_platform_file.
End Run.
