(** Model of src/nrlib/fft/fft.hpp (1D transforms) and fftgrid2d.{hpp,cpp}, fftgrid3d.{hpp,cpp}. *)
From Coq Require Import ZArith List Bool.
From Verif Require Import Base Arith M_Grid M_FftSize.
Import ListNotations.
Open Scope nat_scope.

Section Fft.
Context {L : Lib}.
Notation num := (num L).
Notation cplx := (cplx L).
Notation lit := (lit L).
Notation ofN n := (ofZ L (Z.of_nat n)).

(** A call of fftw_execute that reads [need] elements of the array [x]. *)
Definition fftw {A B} (need : nat) (x : list A) (result : B) : outcome B :=
  if need <=? length x then Ok result else UB OutOfBounds.

(** fft.hpp:150-169, AddPadding: the values appended after the data. *)
Definition AddPadding (first last : num) (pad : nat) (scale : num) : list num :=
  if pad =? 1 then [(scale * first)%num]
  else map (fun i =>
         let t := (ofN i / ofN (pad - 1))%num in
         (scale * (first * t + (lit 1 0 - t) * last))%num) (seq 0 pad).

(** fft.hpp:79-116, ComputeFFT1D (the iterator version; [v] is the input range). An empty input leaves the
    output vector as it is; the callers pass an empty vector. *)
Definition ComputeFFT1D (v : list num) (scale_forward : bool) (minPadSize : Z) : outcome (list cplx) :=
  match v with
  | [] => Ok []
  | first :: _ =>
      let orig := length v in
      let pad0 := if (minPadSize <? 0)%Z then Z.of_nat orig else minPadSize in
      let* pad := if (pad0 =? 0)%Z then Ok 0%Z
                  else let* n := FindNewSizeWithPadding (clogf L) (oor L) (u64 (pad0 + Z.of_nat orig)) false in
                       Ok (u64 (n - Z.of_nat orig)) in
      let tot := orig + Z.to_nat pad in
      let scale := if scale_forward then (lit 1 0 / fsqrt L (lit 1 0 * ofN tot))%num else lit 1 0 in
      let real_data := map (fun x => (scale * x)%num) v
                       ++ AddPadding first (List.last v first) (Z.to_nat pad) scale in
      let complex_size := tot / 2 + 1 in
      let* complex_data := fftw tot real_data (r2c1 L tot real_data) in
      let* c0 := rd complex_data 0 in
      let* ws := mapM (fun i => let* c := rd complex_data i in Ok [(i, c); (tot - i, c)])
                      (range 1 complex_size) in
      writes ((0, c0) :: concat ws) (repeat (lit 0 0, lit 0 0) tot)
  end.

(** fft.hpp:118-146, ComputeFFTInv1D. [out] is the output range before the call (its length is data_size). *)
Definition ComputeFFTInv1D (vIn : list cplx) (out : list num) (scale_forward : bool) : outcome (list num) :=
  match vIn with
  | [] => Ok out
  | _ =>
      let tot := length vIn in
      let* real_data := fftw (tot / 2 + 1) vIn (c2r1 L tot vIn) in
      let scale := if scale_forward then (lit 1 0 / fsqrt L (lit 1 0 * ofN tot))%num
                   else (lit 1 0 / ofN tot)%num in
      mapM (fun i => let* x := rd real_data i in Ok (x * scale)%num) (seq 0 (length out))
  end.

(** fftgrid2d.hpp:208-218, DoFFT; fftgrid2d.cpp calls fftw_plan_dft_r2c_2d(nj, ni, ...) *)
Definition DoFFT2 (ni nj : nat) (scale_forward : bool) (real_data : list num) : outcome (list cplx) :=
  let n := ni * nj in
  let scale := (lit 1 0 / fsqrt L (lit 1 0 * ofN n))%num in
  let scaled := if scale_forward then map (fun x => (x * scale)%num) real_data else real_data in
  fftw (nj * ni) scaled (r2c2 L nj ni scaled).

(** fftgrid2d.hpp:220-233, DoInverseFFT *)
Definition DoInverseFFT2 (ni nj : nat) (scale_forward : bool) (complex_data : list cplx) : outcome (list num) :=
  let n := ni * nj in
  let scale := if scale_forward then (lit 1 0 / fsqrt L (lit 1 0 * ofN n))%num else (lit 1 0 / ofN n)%num in
  let* real_data := fftw (nj * (ni / 2 + 1)) complex_data (c2r2 L nj ni complex_data) in
  Ok (map (fun x => (x * scale)%num) real_data).

(** fftgrid2d.hpp:252-263, Initialize. [values] is grid data of size ni*nj. real_data_ is zero before (190-192); its extra
    element (184) is never initialised or read and is left out. *)
Definition Initialize2 (ni nj : nat) (values : list num) : outcome (list num) :=
  let* vs := mapM (fun '(j, i) => rd values (GetIndex2 ni i j))
                  (list_prod (seq 0 nj) (seq 0 ni)) in
  writes (combine (seq 0 (ni * nj)) vs) (repeat (lit 0 0) (ni * nj)).

(** fftgrid2d.hpp:292-303, GetRealGrid *)
Definition GetRealGrid2 (ni nj ni_tot : nat) (real_data : list num) : outcome (list num) :=
  let* ws := mapM (fun '(i, j) => let* x := rd real_data (i + ni_tot * j) in Ok (GetIndex2 ni i j, x))
                  (list_prod (seq 0 ni) (seq 0 nj)) in
  writes ws (repeat (lit 0 0) (ni * nj)).

(** fftgrid3d.hpp:230-239; fftgrid3d.cpp calls fftw_plan_dft_r2c_3d(nk, nj, ni, ...) *)
Definition DoFFT3 (ni nj nk : nat) (scale_forward : bool) (real_data : list num) : outcome (list cplx) :=
  let n := ni * nj * nk in
  let scale := (lit 1 0 / fsqrt L (lit 1 0 * ofN n))%num in
  let scaled := if scale_forward then map (fun x => (x * scale)%num) real_data else real_data in
  fftw (nk * nj * ni) scaled (r2c3 L nk nj ni scaled).

(** fftgrid3d.hpp:241-254 *)
Definition DoInverseFFT3 (ni nj nk : nat) (scale_forward : bool) (complex_data : list cplx) : outcome (list num) :=
  let n := ni * nj * nk in
  let scale := if scale_forward then (lit 1 0 / fsqrt L (lit 1 0 * ofN n))%num else (lit 1 0 / ofN n)%num in
  let* real_data := fftw (nk * nj * (ni / 2 + 1)) complex_data (c2r3 L nk nj ni complex_data) in
  Ok (map (fun x => (x * scale)%num) real_data).

(** fftgrid3d.hpp:296-308 *)
Definition Initialize3 (ni nj nk : nat) (values : list num) : outcome (list num) :=
  let* vs := mapM (fun '(k, (j, i)) => rd values (GetIndex3 ni nj i j k))
                  (list_prod (seq 0 nk) (list_prod (seq 0 nj) (seq 0 ni))) in
  writes (combine (seq 0 (ni * nj * nk)) vs) (repeat (lit 0 0) (ni * nj * nk)).

(** fftgrid3d.hpp:373-385 *)
Definition GetRealGrid3 (ni nj nk ni_tot nj_tot : nat) (real_data : list num) : outcome (list num) :=
  let* ws := mapM (fun '(i, (j, k)) =>
                     let* x := rd real_data (i + ni_tot * j + ni_tot * nj_tot * k) in
                     Ok (GetIndex3 ni nj i j k, x))
                  (list_prod (seq 0 ni) (list_prod (seq 0 nj) (seq 0 nk))) in
  writes ws (repeat (lit 0 0) (ni * nj * nk)).

End Fft.
