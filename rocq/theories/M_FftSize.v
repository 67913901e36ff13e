(** Model of FindNewSizeWithPadding, src/nrlib/fft/fft.cpp:50-82. *)
From Coq Require Import ZArith List Bool.
From Verif Require Import Base.
Import ListNotations.
Open Scope Z_scope.

(** (float)(minSize): the conversion of a 64-bit unsigned integer to binary32, round to nearest even.
    The result is an integer. *)
Definition f32 (n : Z) : Z :=
  if n <? 2 ^ 24 then n
  else
    let e := Z.log2 n - 23 in
    let q := n / 2 ^ e in
    let r := n mod 2 ^ e in
    let half := 2 ^ (e - 1) in
    let up := (half <? r) || ((half =? r) && Z.odd q) in
    (if up then q + 1 else q) * 2 ^ e.

(** The least a with m <= p^a, which ceil(log(m)/log(p)) computes up to rounding. Fuel 65 is enough for m <= 2^64. *)
Fixpoint clog_from (fuel : nat) (p m : Z) (a : Z) (pa : Z) : Z :=
  match fuel with
  | O => a
  | S fuel => if m <=? pa then a else clog_from fuel p m (a + 1) (pa * p)
  end.
Definition clog (p m : Z) : Z := clog_from 65 p m 0 1.

(** fft.cpp:59-62: maxantP = static_cast<int>(ceil((double)log((float)minSize)/log(P))). [clogf p m] is what this expression
    gives for minSize = m >= 1 and P = p: it depends on the logarithm of the C library, and on whether log(float) is the single
    precision overload (MSVC, libc++) or ::log(double) (libstdc++, where <cmath> alone adds no float overload to the global
    namespace). minSize = 0 gives
    log(0) = -infinity, whose conversion to int is undefined. *)
Definition maxant (clogf : Z -> Z -> Z) (p minSize : Z) : outcome Z :=
  if minSize =? 0 then UB FloatToInt else Ok (clogf p minSize).

(** for (i = a; i < b + 1; i++) *)
Definition irange (a b : Z) : list Z := map Z.of_nat (range (Z.to_nat a) (Z.to_nat (b + 1))).

(** fft.cpp:74-75. The powers and products are taken as exact (they are, in double, below 2^53); the conversion
    to size_t is undefined from 2^64 on, [oor] says what the platform does then. m and n are always 0 (fft.cpp:63-64,72-73). *)
Definition factor (oor : Z -> outcome Z) (i j k l : Z) : outcome Z :=
  let x := 2 ^ i * 3 ^ j * 5 ^ k * 7 ^ l in
  if x <? 2 ^ 64 then Ok x else oor x.

(** fft.cpp:68-79, the order in which the exponents are visited *)
Definition exponents (min2 max2 max3 max5 max7 : Z) : list (Z * Z * Z * Z) :=
  flat_map (fun i =>
  flat_map (fun j =>
  flat_map (fun k =>
  map (fun l => (i, j, k, l)) (irange 0 max7)) (irange 0 max5)) (irange 0 max3)) (irange min2 max2).

(** fft.cpp:76-78 *)
Fixpoint search (oor : Z -> outcome Z) (minSize : Z) (es : list (Z * Z * Z * Z)) (closestprod : Z)
  : outcome Z :=
  match es with
  | [] => Ok closestprod
  | (i, j, k, l) :: es =>
      let* f := factor oor i j k l in
      search oor minSize es
             (if (minSize <=? f) && (f <? closestprod) then f else closestprod)
  end.

(** fft.cpp:50-82. static_cast<size_t>(pow(2.0f, maxant2)) at line 65 is the factor with exponents (maxant2,0,0,0). *)
Definition FindNewSizeWithPadding (clogf : Z -> Z -> Z) (oor : Z -> outcome Z) (minSize : Z) (must_be_even : bool) : outcome Z :=
  let minant2 := if must_be_even then 1 else 0 in
  let* maxant2 := maxant clogf 2 minSize in
  let* maxant3 := maxant clogf 3 minSize in
  let* maxant5 := maxant clogf 5 minSize in
  let* maxant7 := maxant clogf 7 minSize in
  let* closestprod := factor oor maxant2 0 0 0 in
  search oor minSize (exponents minant2 maxant2 maxant3 maxant5 maxant7) closestprod.
