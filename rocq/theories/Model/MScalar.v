(** The scalar type the geometric code computes with.  The same program text is
    instantiated twice: with IEEE binary64 ([F64], bit-exact) and with exact real
    arithmetic extended by one "not a number" value ([XR]), in which a division
    by zero gives [None].  Simplification for [XR]: no rounding, and +-infinity
    and NaN are identified (every comparison with it is false). *)
From Coq Require Import ZArith Reals Bool.
From Verif.Base Require Import Float64.

Record scalar : Type := Scalar {
  car : Type;
  sadd : car -> car -> car;
  ssub : car -> car -> car;
  smul : car -> car -> car;
  sdiv : car -> car -> car;
  ssqrt : car -> car;
  sabs : car -> car;
  sltb : car -> car -> bool;
  sleb : car -> car -> bool;
  sisnan : car -> bool;
  sofZ : Z -> car              (* small integer constants / static_cast<double> *)
}.

Definition F64 : scalar :=
  {| car := f64; sadd := fadd; ssub := fsub; smul := fmul; sdiv := fdiv;
     ssqrt := fsqrt; sabs := fabs; sltb := fltb; sleb := fleb; sisnan := fisnan;
     sofZ := fofZ |}.

Definition Rltb (x y : R) : bool := if Rlt_dec x y then true else false.
Definition Rleb (x y : R) : bool := if Rle_dec x y then true else false.

Definition xlift2 (f : R -> R -> R) (a b : option R) : option R :=
  match a, b with Some x, Some y => Some (f x y) | _, _ => None end.
Definition xdiv (a b : option R) : option R :=
  match a, b with
  | Some x, Some y => if Req_EM_T y 0 then None else Some (x / y)%R
  | _, _ => None
  end.
Definition xsqrt (a : option R) : option R :=
  match a with Some x => if Rlt_dec x 0 then None else Some (sqrt x) | None => None end.
Definition xcmp (c : R -> R -> bool) (a b : option R) : bool :=
  match a, b with Some x, Some y => c x y | _, _ => false end.

Definition XR : scalar :=
  {| car := option R; sadd := xlift2 Rplus; ssub := xlift2 Rminus; smul := xlift2 Rmult;
     sdiv := xdiv; ssqrt := xsqrt;
     sabs := option_map Rabs; sltb := xcmp Rltb; sleb := xcmp Rleb;
     sisnan := fun a => match a with None => true | Some _ => false end;
     sofZ := fun z => Some (IZR z) |}.

Section Derived.
Variable S : scalar.
(** std::fmin / std::fmax *)
Definition sfmin (x y : car S) : car S :=
  if sisnan S x then y else if sisnan S y then x else if sltb S y x then y else x.
Definition sfmax (x y : car S) : car S :=
  if sisnan S x then y else if sisnan S y then x else if sltb S x y then y else x.
End Derived.
