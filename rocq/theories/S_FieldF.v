(** What is said about the accuracy of simulated fields in double precision. *)
From Coq Require Import ZArith List Bool Reals.
From Flocq Require Import Core IEEE754.BinarySingleNaN.
From Verif Require Import Base Arith RealArith FloatArith.
Import ListNotations.
Open Scope R_scope.

(** An FFTW library working on doubles, and the program in double precision with it. *)
Record fftlib := mkFft {
  f_r2c1 : nat -> list b64 -> list (b64 * b64);
  f_r2c2 : nat -> nat -> list b64 -> list (b64 * b64);
  f_r2c3 : nat -> nat -> nat -> list b64 -> list (b64 * b64);
  f_c2r1 : nat -> list (b64 * b64) -> list b64;
  f_c2r2 : nat -> nat -> list (b64 * b64) -> list b64;
  f_c2r3 : nat -> nat -> nat -> list (b64 * b64) -> list b64
}.
Definition Flib (m : libm) (f : fftlib) (o : Z -> outcome Z) (cl : Z -> Z -> Z) : Lib :=
  mkLib (Farith m) (f_r2c1 f) (f_r2c2 f) (f_r2c3 f) (f_c2r1 f) (f_c2r2 f) (f_c2r3 f) o cl.

(** the numbers that doubles stand for *)
Definition vals (x : list b64) : list R := map B2R x.
Definition cvals (X : list (b64 * b64)) : list (R * R) := map (fun z => (B2R (fst z), B2R (snd z))) X.
Definition all_finite (x : list b64) : Prop := forall a, In a x -> is_finite a = true.
Definition all_cfinite (X : list (b64 * b64)) : Prop := forall z, In z X -> is_finite (fst z) = true /\ is_finite (snd z) = true.

(** Euclidean length of a list of numbers, and distance *)
Definition len (x : list R) : R := sqrt (rsum (length x) (fun j => nth j x 0 ^ 2)).
Definition dist (x y : list R) : R := sqrt (rsum (length x) (fun j => (nth j x 0 - nth j y 0) ^ 2)).
(** the same for the whole spectra that the stored halves stand for *)
Definition sq2 (z w : R * R) : R := (fst z - fst w) ^ 2 + (snd z - snd w) ^ 2.
Definition sdist1 n X Y : R := sqrt (rsum n (fun k => sq2 (herm1 n X k) (herm1 n Y k))).
Definition sdist2 n0 n1 X Y : R := sqrt (rsum n0 (fun k0 => rsum n1 (fun k1 => sq2 (herm2 n0 n1 X k0 k1) (herm2 n0 n1 Y k0 k1)))).
Definition sdist3 n0 n1 n2 X Y : R :=
  sqrt (rsum n0 (fun k0 => rsum n1 (fun k1 => rsum n2 (fun k2 => sq2 (herm3 n0 n1 n2 X k0 k1 k2) (herm3 n0 n1 n2 Y k0 k1 k2))))).

(** far below every number that matters *)
Definition tiny : R := bpow radix2 (-900).
Definition huge : R := bpow radix2 200.

(** The transforms have relative error at most [eps] in the Euclidean length (the result of a forward transform of x has length
    sqrt n * len x, n the number of points); overflow and underflow are excluded: there are fewer than 2^53 points, inputs are at most
    [huge], and an error of [tiny] is allowed. This is how the accuracy of FFTs is proved and how FFTW's authors measure it (about 10^-16 * log n). *)
Record accurate (eps : R) (f : fftlib) : Prop := mkAccurate {
  a_r1 : forall n x, (0 < n)%nat -> (Z.of_nat n < 2 ^ 53)%Z -> length x = n -> all_finite x -> len (vals x) <= huge ->
    all_cfinite (f_r2c1 f n x) /\
    sdist1 n (cvals (f_r2c1 f n x)) (Rr2c1 n (vals x)) <= eps * (sqrt (INR n) * len (vals x)) + tiny;
  a_r2 : forall n0 n1 x, (0 < n0 * n1)%nat -> (Z.of_nat (n0 * n1) < 2 ^ 53)%Z -> length x = (n0 * n1)%nat -> all_finite x -> len (vals x) <= huge ->
    all_cfinite (f_r2c2 f n0 n1 x) /\
    sdist2 n0 n1 (cvals (f_r2c2 f n0 n1 x)) (Rr2c2 n0 n1 (vals x)) <= eps * (sqrt (INR (n0 * n1)) * len (vals x)) + tiny;
  a_r3 : forall n0 n1 n2 x, (0 < n0 * n1 * n2)%nat -> (Z.of_nat (n0 * n1 * n2) < 2 ^ 53)%Z -> length x = (n0 * n1 * n2)%nat -> all_finite x -> len (vals x) <= huge ->
    all_cfinite (f_r2c3 f n0 n1 n2 x) /\
    sdist3 n0 n1 n2 (cvals (f_r2c3 f n0 n1 n2 x)) (Rr2c3 n0 n1 n2 (vals x)) <= eps * (sqrt (INR (n0 * n1 * n2)) * len (vals x)) + tiny;
  a_c1 : forall n X, (0 < n)%nat -> (Z.of_nat n < 2 ^ 53)%Z -> length X = n -> all_cfinite X -> sdist1 n (cvals X) [] <= huge ->
    all_finite (f_c2r1 f n X) /\
    dist (vals (f_c2r1 f n X)) (Rc2r1 n (cvals X)) <= eps * (sqrt (INR n) * sdist1 n (cvals X) []) + tiny;
  a_c2 : forall n0 n1 X, (0 < n0 * n1)%nat -> (Z.of_nat (n0 * n1) < 2 ^ 53)%Z -> length X = (n0 * (n1 / 2 + 1))%nat -> all_cfinite X -> sdist2 n0 n1 (cvals X) [] <= huge ->
    all_finite (f_c2r2 f n0 n1 X) /\
    dist (vals (f_c2r2 f n0 n1 X)) (Rc2r2 n0 n1 (cvals X)) <= eps * (sqrt (INR (n0 * n1)) * sdist2 n0 n1 (cvals X) []) + tiny;
  a_c3 : forall n0 n1 n2 X, (0 < n0 * n1 * n2)%nat -> (Z.of_nat (n0 * n1 * n2) < 2 ^ 53)%Z -> length X = (n0 * n1 * (n2 / 2 + 1))%nat -> all_cfinite X -> sdist3 n0 n1 n2 (cvals X) [] <= huge ->
    all_finite (f_c2r3 f n0 n1 n2 X) /\
    dist (vals (f_c2r3 f n0 n1 n2 X)) (Rc2r3 n0 n1 n2 (cvals X)) <= eps * (sqrt (INR (n0 * n1 * n2)) * sdist3 n0 n1 n2 (cvals X) []) + tiny
}.

(** A table of covariances in doubles that is within [dl] of a table of numbers of size at most 1. *)
Definition near_table (dl : R) (tF : outcome (list b64)) (t : outcome (list R)) : Prop :=
  exists xF x, tF = Ok xF /\ t = Ok x /\ all_finite xF /\
    forall j, (j < length x)%nat -> Rabs (nth j (vals xF) 0 - nth j x 0) <= dl /\ Rabs (nth j x 0) <= 1.
(** A field in doubles that is within [d] of a field of numbers *)
Definition near_field (d : R) (fF : outcome (list b64)) (f : outcome (list R)) : Prop :=
  exists xF x, fF = Ok xF /\ f = Ok x /\ length xF = length x /\ all_finite xF /\ dist (vals xF) x <= d.
(** a cell size: the size of a cell and of [n] cells lie between 2^-100 and 2^100 *)
Definition spacing (n : nat) (d : b64) : Prop := is_finite d = true /\ bpow radix2 (-100) <= B2R d /\ INR n * B2R d <= bpow radix2 100.
