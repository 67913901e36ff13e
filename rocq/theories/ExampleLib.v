(** A small executable instance of the model, used only to run examples: binary64 arithmetic with toy libm functions (exact at 0)
    and Fourier transforms that are correct for transform lengths 1 and 2 in every direction (roots of unity +1 and -1). *)
From Coq Require Import ZArith List Bool String.
From Verif Require Import Base Arith FloatArith M_Variogram M_FftSize M_Dsfmt M_Random M_Field M_Api.
Import ListNotations.

Definition toy_libm : libm :=
  let A := Farith (mkLibm (fun x => x) (fun x => x) (fun x => x) (fun x => x) (fun x _ => x)) in
  mkLibm (fun x => add A (lit A 1 0) x)
         (fun x => sub A x (lit A 1 0))
         (fun x => x)
         (fun x => sub A (lit A 1 0) (div A (mul A x x) (lit A 2 0)))
         (fun x _ => mul A x x).

Definition EA : Arith := Farith toy_libm.
Definition esum (n : nat) (f : nat -> num EA) : num EA :=
  fold_left (add EA) (map f (seq 0 n)) (lit EA 0 0).
Definition sgn (n : nat) (x : num EA) : num EA := if Nat.even n then x else neg EA x.
Definition er2c3 (n0 n1 n2 : nat) (x : list (num EA)) : list (cplx EA) :=
  map (fun '(k0, (k1, k2)) =>
         (esum n0 (fun j0 => esum n1 (fun j1 => esum n2 (fun j2 =>
            sgn (j0 * k0 + j1 * k1 + j2 * k2) (nth ((j0 * n1 + j1) * n2 + j2) x (lit EA 0 0))))), lit EA 0 0))
      (list_prod (seq 0 n0) (list_prod (seq 0 n1) (seq 0 (n2 / 2 + 1)))).
Definition ec2r3 (n0 n1 n2 : nat) (x : list (cplx EA)) : list (num EA) :=
  map (fun '(k0, (k1, k2)) =>
         esum n0 (fun j0 => esum n1 (fun j1 => esum n2 (fun j2 =>
            sgn (j0 * k0 + j1 * k1 + j2 * k2)
                (fst (nth ((j0 * n1 + j1) * (n2 / 2 + 1) + j2) x (lit EA 0 0, lit EA 0 0)))))))
      (list_prod (seq 0 n0) (list_prod (seq 0 n1) (seq 0 n2))).
Definition ELib : Lib := {|
  arith := EA;
  r2c1 := er2c3 1 1; r2c2 := er2c3 1; r2c3 := er2c3;
  c2r1 := ec2r3 1 1; c2r2 := ec2r3 1; c2r3 := ec2r3;
  oor := fun _ => UB FloatToInt;
  clogf := fun p m => clog p (f32 m)
|}.

(** variogram("spherical", 2.0) *)
Definition ex_vario : variogram ELib :=
  match CreateVariogram "spherical" (lit EA 2 0) (lit EA (-1) 0) (lit EA (-1) 0) (lit EA 0 0) (lit EA 0 0) (lit EA 15 1) with
  | Ok v => v
  | _ => new_variogram CONSTANT (lit EA 0 0) (lit EA 0 0) (lit EA 0 0) (lit EA 0 0) (lit EA 0 0) (lit EA 0 0) (lit EA 0 0)
  end.

Definition ex_dims1 : dims ELib := @mkDims ELib 2 (lit ELib 1 0) None None None None.
Definition ex_dims2 : dims ELib := @mkDims ELib 2 (lit ELib 1 0) (Some 2%Z) (Some (lit ELib 1 0)) None None.
Definition ex_dims3 : dims ELib := @mkDims ELib 2 (lit ELib 1 0) (Some 2%Z) (Some (lit ELib 1 0)) (Some 2%Z) (Some (lit ELib 1 0)).
Definition ex_nopad : adv ELib := @mkAdv ELib (Some 0%Z) (Some 0%Z) (Some 0%Z) None None None.
(** advanced.simulate(v, ..., padx=0, pady=0, padz=0) *)
Definition ex_sim1 : call ELib := CAdvanced ex_vario ex_dims1 ex_nopad.
Definition ex_sim2 : call ELib := CAdvanced ex_vario ex_dims2 ex_nopad.
Definition ex_sim3 : call ELib := CAdvanced ex_vario ex_dims3 ex_nopad.
