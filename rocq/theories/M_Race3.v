(** Calls made by several threads at once, continued from M_Race.v: calls of any dimension. A 3D call draws its whole noise from the shared
    generator; a thread is therefore described by the words it has received so far and its place in the draw it is making. *)
From Coq Require Import ZArith List Bool.
From Verif Require Import Base Arith M_Variogram M_Dsfmt M_Random M_Field M_Api M_Race.
Import ListNotations.
Open Scope Z_scope.

(** dSFMT.h:256-266, 278-287: a draw of a word, cut at its accesses to dsfmt->idx and psfmt64[...]; the third component is the word when
    the draw is complete. Simplification as in M_Race.v: the test idx >= DSFMT_N64 and the refilling that follows it are one step. *)
Inductive pc3 : Type :=
| At3Test
| At3Idx
| At3Word (i : nat)
| At3Store (i : nat) (w : Z).
Definition micro3 (rec : recursion) (p : pc3) (g : dsfmt) : outcome (pc3 * dsfmt * option Z) :=
  match p with
  | At3Test => Ok (At3Idx, if (DSFMT_N64 <=? idx g)%nat then {| status := gen_rand_all rec (status g); idx := 0 |} else g, None)
  | At3Idx => Ok (At3Word (idx g), g, None)
  | At3Word i => if (i <? 2 * length (status g))%nat then Ok (At3Store i (word64 (status g) i), g, None) else UB OutOfBounds
  | At3Store i w => Ok (At3Test, {| status := status g; idx := S i |}, Some w)
  end.

Section Threads.
Context {L : Lib}.
Notation num := (num L).
Variable rec : recursion.
Variable fuel : nat.

(** Unif01 fed with the words received; the flag says that there were too few of them *)
Definition from_words (s : list Z * bool) : num * (list Z * bool) :=
  match s with
  | (w :: ws, b) => ((ofbits L w - lit L 1 0)%num, (ws, b))
  | ([], _) => (lit L 0 0, ([], true))
  end.
(** [n] normal draws from these words, if they are enough *)
Definition normals (n : nat) (ws : list Z) : option (list num) :=
  match draws from_words fuel n (ws, false) with
  | Ok (xs, (_, false)) => Some xs
  | _ => None
  end.

(** the padded size of a 3D grid *)
Definition grid3 (v : variogram L) (nx : Z) (dx : num) (ny : Z) (dy : num) (nz : Z) (dz : num) (padx pady padz : Z) : outcome (nat * nat * nat) :=
  let* (nxt, nyt, nzt) := sizes3 v nx dx ny dy nz dz padx pady padz in
  let* nxt := narrow nxt in
  let* nyt := narrow nyt in
  let* nzt := narrow nzt in
  Ok (nxt, nyt, nzt).

(** What a call returns once it has received these words; None if it needs more. 3D: gaussianfield.cpp:96-191. 1D and 2D: one word, see
    [rest_of_call]. Simplification: a 1D or 2D call draws its word even if it is going to fail. *)
Definition answer_any (v : variogram L) (nx : Z) (dx : num) (ny : Z) (dy : num) (nz : Z) (dz : num)
    (padx pady padz : Z) (sx sy sz : num) (ws : list Z) : option (outcome (value L)) :=
  match dimension ny dy nz dz with
  | 3%nat =>
      match grid3 v nx dx ny dy nz dz padx pady padz with
      | Ok (nxt, nyt, nzt) =>
          match normals (nxt * nyt * nzt) ws with
          | Some xs =>
              Some (let* noise := noise_grid3 nxt nyt nzt xs in
                    let* out := field3d v (Z.to_nat nx) (Z.to_nat ny) (Z.to_nat nz) nxt nyt nzt dx dy dz sx sy sz noise in
                    Ok (VArray out))
          | None => None
          end
      | Throw e => Some (Throw e)
      | UB u => Some (UB u)
      | NoFuel => Some NoFuel
      end
  | _ =>
      match ws with
      | w :: _ => Some (seeded_any rec fuel v nx dx ny dy nz dz padx pady sx sy (Z.land w 0xffffffff))
      | [] => None
      end
  end.
Definition answer (c : call L) (ws : list Z) : option (outcome (value L)) :=
  match c with
  | CSimulate v d =>
      match args d with
      | Ok (nx, dx, ny, dy, nz, dz) => answer_any v nx dx ny dy nz dz (-1) (-1) (-1) (lit L 1 0) (lit L 1 0) (lit L 1 0) ws
      | _ => Some (Throw TypeError)
      end
  | CAdvanced v d a =>
      match args d, adv_args a with
      | Ok (nx, dx, ny, dy, nz, dz), Ok (px, py, pz, sx, sy, sz) => answer_any v nx dx ny dy nz dz px py pz sx sy sz ws
      | _, _ => Some (Throw TypeError)
      end
  | _ => Some (Throw TypeError)
  end.

(** The schedule says which thread makes its next access; a thread that has its words makes none. *)
Fixpoint race3 (sched : list nat) (ts : list (call L * list Z * pc3)) (g : dsfmt) : outcome (list (call L * list Z * pc3) * dsfmt) :=
  match sched with
  | [] => Ok (ts, g)
  | t :: sched =>
      match nth_error ts t with
      | None => race3 sched ts g
      | Some (c, ws, p) =>
          match answer c ws with
          | Some _ => race3 sched ts g
          | None =>
              let* (p, g, got) := micro3 rec p g in
              race3 sched (upd ts t (c, match got with Some w => ws ++ [w] | None => ws end, p)) g
          end
      end
  end.
(** Threads that each make one call; NoFuel: not finished when the schedule ends. *)
Definition concurrent3 (sched : list nat) (cs : list (call L)) (g : dsfmt) : outcome (list (outcome (value L))) :=
  let* (ts, _) := race3 sched (map (fun c => (c, [], At3Test)) cs) g in
  Ok (map (fun '(c, ws, _) => match answer c ws with Some o => o | None => NoFuel end) ts).
End Threads.
