(** The model's operations over IEEE 754 binary64 (Flocq, round to nearest even, one NaN). The libm functions are
    parameters: nothing is assumed about them. *)
From Coq Require Import ZArith List Bool.
From Flocq Require Import Core IEEE754.BinarySingleNaN.
From Flocq Require IEEE754.Binary IEEE754.Bits.
From Verif Require Import Base Arith.
Import ListNotations.

Notation b64 := (BinarySingleNaN.binary_float 53 1024).
Lemma Hprec : FLX.Prec_gt_0 53. Proof. reflexivity. Qed.
Lemma Hmax : Prec_lt_emax 53 1024. Proof. reflexivity. Qed.
#[global] Existing Instance Hprec.
#[global] Existing Instance Hmax.

(** integer [m] times 2^e, rounded *)
Definition Fof (m e : Z) : b64 := BinarySingleNaN.binary_normalize 53 1024 Hprec Hmax mode_NE m e false.

(** The literal m * 10^-e, correctly rounded (GCC and Clang round literals correctly): 200 more bits than an integer quotient
    gives, and a sticky bit. *)
Definition Flit (m e : Z) : b64 :=
  let x := (m * 2 ^ 200)%Z in
  let q := (x / 10 ^ e)%Z in
  Fof (2 * q + if (x mod 10 ^ e =? 0)%Z then 0 else 1) (-201).

Record libm := mkLibm {
  lm_exp : b64 -> b64; lm_log : b64 -> b64; lm_sin : b64 -> b64; lm_cos : b64 -> b64; lm_pow : b64 -> b64 -> b64
}.

Definition Farith (m : libm) : Arith := {|
  num := b64;
  lit := Flit;
  ofZ := fun z => Fof z 0;
  add := Bplus mode_NE; sub := Bminus mode_NE; mul := Bmult mode_NE; div := Bdiv mode_NE;
  neg := BinarySingleNaN.Bopp; fabs := BinarySingleNaN.Babs; fsqrt := Bsqrt mode_NE;
  fexp := lm_exp m; flog := lm_log m; fsin := lm_sin m; fcos := lm_cos m; fpow := lm_pow m;
  flt := Bltb; fle := Bleb; feq := Beqb;
  ftrunc := fun x => if BinarySingleNaN.is_finite x then Some (BinarySingleNaN.Btrunc x) else None;
  ofbits := fun w => Binary.B2BSN 53 1024 (Bits.b64_of_bits w)
|}.
