(** The floating point operations the C++ code uses, as a record, so that the
    model can be read over exact real arithmetic and over IEEE binary64. *)
From Coq Require Import ZArith List.
From Verif Require Import Base.

Record Arith := mkArith {
  num : Type;
  lit : Z -> Z -> num;             (* [lit m e]: the decimal literal m * 10^(-e) *)
  ofZ : Z -> num;                  (* conversion from an integer type *)
  add : num -> num -> num;
  sub : num -> num -> num;
  mul : num -> num -> num;
  div : num -> num -> num;
  neg : num -> num;
  fabs : num -> num;
  fsqrt : num -> num;
  fexp : num -> num;
  flog : num -> num;
  fsin : num -> num;
  fcos : num -> num;
  fpow : num -> num -> num;
  flt : num -> num -> bool;        (* < *)
  fle : num -> num -> bool;        (* <= *)
  feq : num -> num -> bool;        (* == *)
  ftrunc : num -> option Z;        (* integer part towards zero; None if not finite *)
  ofbits : Z -> num                (* the double with this 64-bit pattern *)
}.

Declare Scope num_scope.
Delimit Scope num_scope with num.
Infix "+" := (add _) : num_scope.
Infix "-" := (sub _) : num_scope.
Infix "*" := (mul _) : num_scope.
Infix "/" := (div _) : num_scope.
Notation "- x" := (neg _ x) : num_scope.
Infix "<?" := (flt _) : num_scope.
Infix "<=?" := (fle _) : num_scope.
Infix "=?" := (feq _) : num_scope.

(** std::max(a, b) is (a < b) ? b : a *)
Definition fmax {A : Arith} (a b : num A) : num A := if (a <? b)%num then b else a.

(** [a > b], [a >= b] are [b < a], [b <= a] *)
Definition fgt {A : Arith} (a b : num A) : bool := flt A b a.
Definition fge {A : Arith} (a b : num A) : bool := fle A b a.

(** static_cast<int>(double): undefined unless the truncated value fits *)
Definition to_int {A : Arith} (x : num A) : outcome Z :=
  match ftrunc A x with
  | Some z => if fits_int z then Ok z else UB FloatToInt
  | None => UB FloatToInt
  end.

(** std::complex<double> *)
Definition cplx (A : Arith) : Type := (num A * num A)%type.
Definition cmul {A : Arith} (x y : cplx A) : cplx A :=
  (fst x * fst y - snd x * snd y, fst x * snd y + snd x * fst y)%num.

(** std::sqrt(std::complex<double>), the principal root. A number whose imaginary part is zero is treated separately, as glibc's
    csqrt does (std::sqrt of libstdc++ calls it); the sign of a negative zero imaginary part is not carried to the root of a
    negative number. *)
Definition csqrt {A : Arith} (z : cplx A) : cplx A :=
  if (snd z =? lit A 0 0)%num then
    if (fst z <? lit A 0 0)%num then (lit A 0 0, fsqrt A (- fst z)%num) else (fsqrt A (fst z), snd z)
  else
    let r := fsqrt A (fst z * fst z + snd z * snd z)%num in
    let re := fsqrt A ((r + fst z) / lit A 2 0)%num in
    let im := fsqrt A ((r - fst z) / lit A 2 0)%num in
    (re, if (snd z <? lit A 0 0)%num then (- im)%num else im).

(** The FFTW entry points the code uses, and what the compiled conversion
    static_cast<size_t>(double) gives for a value of 2^64 or more (undefined in C++), and what
    ceil((double)log((float)m)/log(p)) gives (fft.cpp:59-62). *)
Record Lib := mkLib {
  arith :> Arith;
  (* fftw_plan_dft_r2c_1d(n), _2d(n0,n1), _3d(n0,n1,n2) + fftw_execute; row-major arrays *)
  r2c1 : nat -> list (num arith) -> list (cplx arith);
  r2c2 : nat -> nat -> list (num arith) -> list (cplx arith);
  r2c3 : nat -> nat -> nat -> list (num arith) -> list (cplx arith);
  c2r1 : nat -> list (cplx arith) -> list (num arith);
  c2r2 : nat -> nat -> list (cplx arith) -> list (num arith);
  c2r3 : nat -> nat -> nat -> list (cplx arith) -> list (num arith);
  oor : Z -> outcome Z;
  clogf : Z -> Z -> Z     (* clogf p m *)
}.
