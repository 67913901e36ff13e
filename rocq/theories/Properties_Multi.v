(** C55-C58: the C++ overloads with several fields and with the caller's own generator. *)
From Coq Require Import ZArith Bool Lia List.
From Verif Require Import Base Arith M_Variogram M_Grid M_Dsfmt M_Random M_Field M_Multi S_CovGrid S_Multi P_Overrun P_Multi P_Multi2
  P_Multi3 ExampleLib.
Import ListNotations.

(** ** C55 *)
(** 3D: asking for n fields gives the fields of n calls for one field, and leaves the generator where they leave it. *)
Theorem C55_fields_3d : forall (L : Lib) rec fuel (v : variogram L) nx dx ny dy nz dz n padx pady padz sx sy sz st,
  fft_sizes L -> (0 < n)%Z ->
  Fields3D rec fuel v nx dx ny dy nz dz n padx pady padz sx sy sz st =
  repeatedly (Z.to_nat n) (Simulate3D rec fuel v nx dx ny dy nz dz padx pady padz sx sy sz) st.
Proof. intros L rec fuel v nx dx ny dy nz dz n padx pady padz sx sy sz st HL. exact (fields3 rec fuel HL v nx dx ny dy nz dz n padx pady padz sx sy sz st). Qed.
Print Assumptions C55_fields_3d.

(** 2D with the caller's generator: likewise. *)
Theorem C55_fields_2d_partial : forall (L : Lib) rec fuel (v : variogram L) nx dx ny dy n g padx pady sx sy st,
  fft_sizes L -> (0 < n)%Z ->
  Fields2D rec fuel v nx dx ny dy n (Some g) padx pady sx sy st =
  repeatedly (Z.to_nat n) (one_field rec fuel v nx dx ny dy padx pady sx sy) (g, st).
Proof. intros L rec fuel v nx dx ny dy n g padx pady sx sy st HL. exact (fields2' rec fuel HL v nx dx ny dy n g padx pady sx sy st). Qed.
Print Assumptions C55_fields_2d_partial.

(** 2D without a generator: one number is drawn for the whole call; the first field is that of a single call. *)
Theorem C55_fields_2d_null : forall (L : Lib) rec fuel (v : variogram L) nx dx ny dy n padx pady sx sy st fs g' st',
  fft_sizes L -> (0 < n)%Z -> Fields2D rec fuel v nx dx ny dy n None padx pady sx sy st = Ok (fs, (g', st')) ->
  length fs = Z.to_nat n /\
  (exists f, nth_error fs 0 = Some f /\ Simulate2D rec fuel v nx dx ny dy padx pady sx sy st = Ok (f, st')) /\
  let seed := fst (DrawUint32 rec st) in
  gen st' = gen (snd (DrawUint32 rec st)) /\ leaked st' = S (leaked st) /\
  Fields2D rec fuel v nx dx ny dy n (Some (init_gen_rand seed)) padx pady sx sy st = Ok (fs, (g', st)).
Proof. intros L rec fuel v nx dx ny dy n padx pady sx sy st fs g' st' HL. exact (null2 rec fuel HL v nx dx ny dy n padx pady sx sy st fs g' st'). Qed.
Print Assumptions C55_fields_2d_null.

(** Without a generator two fields from one call are not those of two calls. *)
Theorem C55_fields_2d_refuted : exists (L : Lib) rec fuel (v : variogram L) nx dx ny dy n padx pady sx sy st fs gs s s',
  fft_sizes L /\ (0 < n)%Z /\ Fields2D rec fuel v nx dx ny dy n None padx pady sx sy st = Ok (fs, s) /\
  repeatedly (Z.to_nat n) (Simulate2D rec fuel v nx dx ny dy padx pady sx sy) st = Ok (gs, s') /\
  fs <> gs.
Proof. exact two_fields. Qed.
Print Assumptions C55_fields_2d_refuted.

Example C55_case : fft_sizes ELib /\
  match Fields3D do_recursion 100 ex_vario 2 (lit ELib 1 0) 2 (lit ELib 1 0) 2 (lit ELib 1 0) 3 0 0 0 (lit ELib 1 0) (lit ELib 1 0) (lit ELib 1 0)
          (InitializeSeed 4 rstate0) with
  | Ok (fs, _) => map (@length _) fs | _ => [] end = [8; 8; 8].
Proof. split; [exact ELib_sizes|vm_compute; reflexivity]. Qed.

(** ** C56 *)
(** The short 2D overload depends on the seed that was set, and on nothing that happened since: however often it is called, and whatever
    is drawn in between, it returns the same field. *)
Theorem C56_same_seed_same_field : forall (L : Lib) rec fuel (v : variogram L) nx dx ny dy st st2 f st',
  is_init st = true -> is_init st2 = true -> start_seed st2 = start_seed st ->
  ShortField2D rec fuel v nx dx ny dy st = Ok (f, st') ->
  exists st2', ShortField2D rec fuel v nx dx ny dy st2 = Ok (f, st2') /\ gen st2' = gen st2 /\ start_seed st2' = start_seed st2.
Proof. intros L rec fuel. exact (short_again rec fuel). Qed.
Print Assumptions C56_same_seed_same_field.

(** So n calls do not give n realizations. *)
Theorem C56_repeats : forall (L : Lib) rec fuel (v : variogram L) nx dx ny dy f n st st', is_init st = true ->
  ShortField2D rec fuel v nx dx ny dy st = Ok (f, st') ->
  exists st2, repeatedly n (ShortField2D rec fuel v nx dx ny dy) st = Ok (repeat f n, st2) /\
    start_seed st2 = start_seed st /\ gen st2 = gen st /\ is_init st2 = true /\ leaked st2 = (n + leaked st)%nat.
Proof. intros L rec fuel. exact (short_repeat rec fuel). Qed.
Print Assumptions C56_repeats.

(** Before any seed is set it is a simulation like the others. *)
Theorem C56_unseeded : forall (L : Lib) rec fuel (v : variogram L) nx dx ny dy st, fft_sizes L -> is_init st = false ->
  ShortField2D rec fuel v nx dx ny dy st = Simulate2D rec fuel v nx dx ny dy (-1) (-1) (lit L 1 0) (lit L 1 0) st.
Proof. intros L rec fuel. exact (short_unseeded rec fuel). Qed.
Print Assumptions C56_unseeded.

Example C56_case : let st := InitializeSeed 4 rstate0 in is_init st = true /\
  match ShortField2D do_recursion 100 ex_vario 2 (lit ELib 1 0) 2 (lit ELib 1 0) st with Ok (f, _) => length f | _ => 0%nat end = 4%nat.
Proof. split; [reflexivity|vm_compute; reflexivity]. Qed.

(** ** C57 *)
(** With the caller's generator a 1D or 2D call neither reads nor changes the global generator, and leaks nothing. *)
Theorem C57_own_generator_2d : forall (L : Lib) rec fuel (v : variogram L) nx dx ny dy n g padx pady sx sy st st0 fs g' s',
  Fields2D rec fuel v nx dx ny dy n (Some g) padx pady sx sy st0 = Ok (fs, (g', s')) ->
  s' = st0 /\ Fields2D rec fuel v nx dx ny dy n (Some g) padx pady sx sy st = Ok (fs, (g', st)).
Proof. intros L rec fuel. exact (own2_ok rec fuel). Qed.
Print Assumptions C57_own_generator_2d.
Theorem C57_own_generator_1d : forall (L : Lib) rec fuel (v : variogram L) nx dx cells g padx sx st st0 f g' s',
  Field1D rec fuel v nx dx cells (Some g) padx sx st0 = Ok (f, (g', s')) ->
  s' = st0 /\ Field1D rec fuel v nx dx cells (Some g) padx sx st = Ok (f, (g', st)).
Proof. intros L rec fuel. exact (own1_ok rec fuel). Qed.
Print Assumptions C57_own_generator_1d.
(** A generator the caller seeds with [s] gives the field the Python call gives when [s] is the number it draws. *)
Theorem C57_like_python : forall (L : Lib) rec fuel (v : variogram L) nx dx ny dy padx pady sx sy st f st', fft_sizes L ->
  let g := init_gen_rand (fst (DrawUint32 rec st)) in
  (Simulate2D rec fuel v nx dx ny dy padx pady sx sy st = Ok (f, st') ->
   exists g', Fields2D rec fuel v nx dx ny dy 1 (Some g) padx pady sx sy st = Ok ([f], (g', st))) /\
  (Simulate1D rec fuel v nx dx padx sx st = Ok (f, st') ->
   exists g', Field1D rec fuel v nx dx (Z.to_nat nx) (Some g) padx sx st = Ok (f, (g', st))).
Proof. intros L rec fuel v nx dx ny dy padx pady sx sy st f st' HL. exact (like_python rec fuel HL v nx dx ny dy padx pady sx sy st f st'). Qed.
Print Assumptions C57_like_python.

Example C57_case :
  match Fields2D do_recursion 100 ex_vario 2 (lit ELib 1 0) 2 (lit ELib 1 0) 2 (Some (init_gen_rand 7)) 0 0 (lit ELib 1 0) (lit ELib 1 0) rstate0 with
  | Ok (fs, _) => map (@length _) fs | _ => [] end = [4; 4] /\
  match Field1D do_recursion 100 ex_vario 2 (lit ELib 1 0) 2 (Some (init_gen_rand 7)) 0 (lit ELib 1 0) rstate0 with
  | Ok (f, _) => length f | _ => 0%nat end = 2%nat.
Proof. split; vm_compute; reflexivity. Qed.

(** ** C58 *)
(** The 1D overload fills the vector it is given: a shorter vector gets the first values of a longer one ... *)
Theorem C58_vector_filled_partial : forall (L : Lib) rec fuel (v : variogram L) nx dx c1 c2 rg padx sx st f s, (c1 <= c2)%nat ->
  Field1D rec fuel v nx dx c2 rg padx sx st = Ok (f, s) ->
  length f = c2 /\ Field1D rec fuel v nx dx c1 rg padx sx st = Ok (firstn c1 f, s).
Proof. intros L rec fuel. exact (cells1 rec fuel). Qed.
Print Assumptions C58_vector_filled_partial.
(** ... and one longer than the padded grid is filled by reading past the end of an array. *)
Theorem C58_vector_too_long_refuted : forall (L : Lib) rec fuel (v : variogram L) nx dx cells rg padx sx st m, fft_sizes L ->
  sizes1 v nx dx padx = Ok m -> (1 <= m < 2 ^ 31)%Z -> (m < Z.of_nat cells)%Z ->
  let o := Field1D rec fuel v nx dx cells rg padx sx st in o = UB OutOfBounds \/ o = NoFuel.
Proof. intros L rec fuel. exact (over1 rec fuel). Qed.
Print Assumptions C58_vector_too_long_refuted.
Example C58_case : sizes1 ex_vario 2 (lit ELib 1 0) 0 = Ok 2%Z /\
  match Field1D do_recursion 100 ex_vario 2 (lit ELib 1 0) 3 None 0 (lit ELib 1 0) rstate0 with UB OutOfBounds => true | _ => false end = true.
Proof. split; vm_compute; reflexivity. Qed.
