(** The model's operations over the real numbers (exact arithmetic), and FFTW by its defining sums
    (FFTW manual, sections "What FFTW Really Computes": unnormalised transforms, row-major arrays). *)
From Coq Require Import ZArith List Bool Reals.
From Flocq Require Import Core.Raux IEEE754.BinarySingleNaN IEEE754.Binary IEEE754.Bits.
From Verif Require Import Base Arith.
Import ListNotations.
Open Scope R_scope.

(** pow(x,y) for x > 0, and pow(0,0) = 1, pow(0,y) = 0 otherwise. Negative bases are not used with a meaning. *)
Definition Rpow (x y : R) : R :=
  if Rlt_dec 0 x then Rpower x y else if Req_EM_T y 0 then 1 else 0.

Definition Rltb (x y : R) : bool := if Rlt_dec x y then true else false.
Definition Rleb (x y : R) : bool := if Rle_dec x y then true else false.
Definition Reqb (x y : R) : bool := if Req_EM_T x y then true else false.

Definition Rarith : Arith := {|
  num := R;
  lit := fun m e => IZR m / IZR (10 ^ e);
  ofZ := IZR;
  add := Rplus; sub := Rminus; mul := Rmult; div := Rdiv; neg := Ropp;
  fabs := Rabs; fsqrt := sqrt; fexp := exp; flog := ln; fsin := sin; fcos := cos; fpow := Rpow;
  flt := Rltb; fle := Rleb; feq := Reqb;
  ftrunc := fun x => Some (Ztrunc x);
  ofbits := fun w => B2R 53 1024 (b64_of_bits w)
|}.

(** ** Finite sums *)
Fixpoint rsum (n : nat) (f : nat -> R) : R :=
  match n with O => 0 | S n => rsum n f + f n end.

(** 2 pi k j / n *)
Definition ang (n k j : nat) : R := 2 * PI * INR k * INR j / INR n.

(** ** 1D *)
Definition Rr2c1 (n : nat) (x : list R) : list (R * R) :=
  map (fun k => (rsum n (fun j => nth j x 0 * cos (ang n k j)), - rsum n (fun j => nth j x 0 * sin (ang n k j))))
      (seq 0 (n / 2 + 1)).
Definition conj (z : R * R) : R * R := (fst z, - snd z).
(** the full spectrum that FFTW reconstructs from the stored half *)
Definition herm1 (n : nat) (X : list (R * R)) (k : nat) : R * R :=
  if (k <? n / 2 + 1)%nat then nth k X (0, 0) else conj (nth (n - k) X (0, 0)).
Definition Rc2r1 (n : nat) (X : list (R * R)) : list R :=
  map (fun j => rsum n (fun k => fst (herm1 n X k) * cos (ang n k j) - snd (herm1 n X k) * sin (ang n k j)))
      (seq 0 n).

(** ** 2D, array index j0*n1 + j1 *)
Definition Rr2c2 (n0 n1 : nat) (x : list R) : list (R * R) :=
  map (fun '(k0, k1) =>
         let e j0 j1 := ang n0 k0 j0 + ang n1 k1 j1 in
         (rsum n0 (fun j0 => rsum n1 (fun j1 => nth (j0 * n1 + j1) x 0 * cos (e j0 j1))),
          - rsum n0 (fun j0 => rsum n1 (fun j1 => nth (j0 * n1 + j1) x 0 * sin (e j0 j1)))))
      (list_prod (seq 0 n0) (seq 0 (n1 / 2 + 1))).
Definition herm2 (n0 n1 : nat) (X : list (R * R)) (k0 k1 : nat) : R * R :=
  let h := (n1 / 2 + 1)%nat in
  if (k1 <? h)%nat then nth (k0 * h + k1) X (0, 0)
  else conj (nth ((n0 - k0) mod n0 * h + (n1 - k1)) X (0, 0)).
Definition Rc2r2 (n0 n1 : nat) (X : list (R * R)) : list R :=
  map (fun '(j0, j1) =>
         rsum n0 (fun k0 => rsum n1 (fun k1 =>
           let e := ang n0 k0 j0 + ang n1 k1 j1 in
           fst (herm2 n0 n1 X k0 k1) * cos e - snd (herm2 n0 n1 X k0 k1) * sin e)))
      (list_prod (seq 0 n0) (seq 0 n1)).

(** ** 3D, array index (j0*n1 + j1)*n2 + j2 *)
Definition Rr2c3 (n0 n1 n2 : nat) (x : list R) : list (R * R) :=
  map (fun '(k0, (k1, k2)) =>
         let e j0 j1 j2 := ang n0 k0 j0 + ang n1 k1 j1 + ang n2 k2 j2 in
         (rsum n0 (fun j0 => rsum n1 (fun j1 => rsum n2 (fun j2 =>
            nth ((j0 * n1 + j1) * n2 + j2) x 0 * cos (e j0 j1 j2)))),
          - rsum n0 (fun j0 => rsum n1 (fun j1 => rsum n2 (fun j2 =>
            nth ((j0 * n1 + j1) * n2 + j2) x 0 * sin (e j0 j1 j2))))))
      (list_prod (seq 0 n0) (list_prod (seq 0 n1) (seq 0 (n2 / 2 + 1)))).
Definition herm3 (n0 n1 n2 : nat) (X : list (R * R)) (k0 k1 k2 : nat) : R * R :=
  let h := (n2 / 2 + 1)%nat in
  if (k2 <? h)%nat then nth ((k0 * n1 + k1) * h + k2) X (0, 0)
  else conj (nth (((n0 - k0) mod n0 * n1 + (n1 - k1) mod n1) * h + (n2 - k2)) X (0, 0)).
Definition Rc2r3 (n0 n1 n2 : nat) (X : list (R * R)) : list R :=
  map (fun '(j0, (j1, j2)) =>
         rsum n0 (fun k0 => rsum n1 (fun k1 => rsum n2 (fun k2 =>
           let e := ang n0 k0 j0 + ang n1 k1 j1 + ang n2 k2 j2 in
           fst (herm3 n0 n1 n2 X k0 k1 k2) * cos e - snd (herm3 n0 n1 n2 X k0 k1 k2) * sin e))))
      (list_prod (seq 0 n0) (list_prod (seq 0 n1) (seq 0 n2))).

(** [o]: see [oor] in Arith.v *)
Definition Rlib (o : Z -> outcome Z) (cl : Z -> Z -> Z) : Lib := {|
  arith := Rarith;
  r2c1 := Rr2c1; r2c2 := Rr2c2; r2c3 := Rr2c3;
  c2r1 := Rc2r1; c2r2 := Rc2r2; c2r3 := Rc2r3;
  oor := o; clogf := cl
|}.
