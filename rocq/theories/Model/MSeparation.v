(** Model of src/util/EllipsoidSeparation.cpp in exact real arithmetic.
    Simplification: doubles are real numbers; the eigenvalue solver of Eigen is not
    modelled, the decision is a function of the eigenvalue list it returns. *)
From Coq Require Import List Reals Arith.
Import ListNotations.
Local Open Scope R_scope.

(** Small square matrices: row, column. *)
Definition mat : Type := nat -> nat -> R.
Definition tr (m : mat) : mat := fun i j => m j i.
Definition mul3 (m n : mat) : mat := fun i j => m i 0%nat * n 0%nat j + m i 1%nat * n 1%nat j + m i 2%nat * n 2%nat j.
Definition mul4 (m n : mat) : mat := fun i j =>
  m i 0%nat * n 0%nat j + m i 1%nat * n 1%nat j + m i 2%nat * n 2%nat j + m i 3%nat * n 3%nat j.

(** -- Planar case -- *)
(** SuperEllipse with epsilon = 1 (SuperEllipse.h:67-81): semi-axes, centre, angle. *)
Record ellipse : Type := Ell { e_a : R; e_b : R; e_x : R; e_y : R; e_th : R }.

(** A.diagonal(), EllipsoidSeparation.cpp:128-133 ([std::pow(a, -2.0)]). *)
Definition diag3 (e : ellipse) : mat := fun i j =>
  match i, j with
  | 0, 0 => (/ (e_a e * e_a e))%R | 1, 1 => (/ (e_b e * e_b e))%R | 2, 2 => (-1)%R | _, _ => (0)%R
  end%nat.
(** Ta / Tb, lines 136-146. *)
Definition trans3 (e : ellipse) : mat := fun i j =>
  match i, j with
  | 0, 0 => (cos (e_th e))%R | 0, 1 => (- sin (e_th e))%R | 0, 2 => (e_x e)%R
  | 1, 0 => (sin (e_th e))%R | 1, 1 => (cos (e_th e))%R   | 1, 2 => (e_y e)%R
  | 2, 2 => (1)%R | _, _ => (0)%R
  end%nat.
(** Tb.inverse() of such a matrix. *)
Definition trans3_inv (e : ellipse) : mat := fun i j =>
  match i, j with
  | 0, 0 => (cos (e_th e))%R   | 0, 1 => (sin (e_th e))%R | 0, 2 => (- (cos (e_th e) * e_x e + sin (e_th e) * e_y e))%R
  | 1, 0 => (- sin (e_th e))%R | 1, 1 => (cos (e_th e))%R | 1, 2 => (- (- sin (e_th e) * e_x e + cos (e_th e) * e_y e))%R
  | 2, 2 => (1)%R | _, _ => (0)%R
  end%nat.
(** b = (Tb^-1 Ta)' B (Tb^-1 Ta), lines 152-153. *)
Definition pull3 (ea eb : ellipse) : mat :=
  let m := mul3 (trans3_inv eb) (trans3 ea) in mul3 (mul3 (tr m) (diag3 eb)) m.

(** T3, T2, T1, T0, lines 156-164. *)
Definition coeffs3 (a b : mat) : list R :=
  [ - a 0%nat 0%nat * a 1%nat 1%nat * a 2%nat 2%nat;
    a 0%nat 0%nat * a 1%nat 1%nat * b 2%nat 2%nat + a 0%nat 0%nat * a 2%nat 2%nat * b 1%nat 1%nat +
      a 1%nat 1%nat * a 2%nat 2%nat * b 0%nat 0%nat;
    a 0%nat 0%nat * b 1%nat 2%nat * b 2%nat 1%nat - a 0%nat 0%nat * b 1%nat 1%nat * b 2%nat 2%nat -
      a 1%nat 1%nat * b 0%nat 0%nat * b 2%nat 2%nat + a 1%nat 1%nat * b 0%nat 2%nat * b 2%nat 0%nat -
      a 2%nat 2%nat * b 0%nat 0%nat * b 1%nat 1%nat + a 2%nat 2%nat * b 0%nat 1%nat * b 1%nat 0%nat;
    b 0%nat 0%nat * b 1%nat 1%nat * b 2%nat 2%nat - b 0%nat 0%nat * b 1%nat 2%nat * b 2%nat 1%nat -
      b 0%nat 1%nat * b 1%nat 0%nat * b 2%nat 2%nat + b 0%nat 1%nat * b 1%nat 2%nat * b 2%nat 0%nat +
      b 0%nat 2%nat * b 1%nat 0%nat * b 2%nat 1%nat - b 0%nat 2%nat * b 1%nat 1%nat * b 2%nat 0%nat ].

(** -- Spatial case -- *)
(** SuperQuadrics with epsilon = (1, 1): semi-axes, centre, quaternion (w, x, y, z). *)
Record ellipsoid : Type := Eld { d_a : R; d_b : R; d_c : R; d_x : R; d_y : R; d_z : R; d_qw : R; d_qx : R; d_qy : R; d_qz : R }.
(** Eigen::Quaterniond::toRotationMatrix (Eigen/src/Geometry/Quaternion.h). *)
Definition rotq (w x y z : R) : mat := fun i j =>
  match i, j with
  | 0, 0 => (1 - (2 * y * y + 2 * z * z))%R | 0, 1 => (2 * y * x - 2 * z * w)%R       | 0, 2 => (2 * z * x + 2 * y * w)%R
  | 1, 0 => (2 * y * x + 2 * z * w)%R       | 1, 1 => (1 - (2 * x * x + 2 * z * z))%R | 1, 2 => (2 * z * y - 2 * x * w)%R
  | 2, 0 => (2 * z * x - 2 * y * w)%R       | 2, 1 => (2 * z * y + 2 * x * w)%R       | 2, 2 => (1 - (2 * x * x + 2 * y * y))%R
  | _, _ => (0)%R
  end%nat.
Definition rot_of (e : ellipsoid) : mat := rotq (d_qw e) (d_qx e) (d_qy e) (d_qz e).
Definition pos_of (e : ellipsoid) (i : nat) : R := match i with 0 => (d_x e)%R | 1 => (d_y e)%R | _ => (d_z e)%R end%nat.
(** A.diagonal(), lines 10-17. *)
Definition diag4 (e : ellipsoid) : mat := fun i j =>
  match i, j with
  | 0, 0 => (/ (d_a e * d_a e))%R | 1, 1 => (/ (d_b e * d_b e))%R | 2, 2 => (/ (d_c e * d_c e))%R | 3, 3 => (-1)%R | _, _ => (0)%R
  end%nat.
(** Ta / Tb, lines 20-31. *)
Definition trans4 (e : ellipsoid) : mat := fun i j =>
  match i, j with
  | 3, 3 => (1)%R | 3, _ => (0)%R
  | _, 3 => (pos_of e i)%R
  | _, _ => (rot_of e i j)%R
  end%nat.
(** Tb.inverse(), for a unit quaternion (simplification: the general inverse is the
    rigid one only then). *)
Definition trans4_inv (e : ellipsoid) : mat := fun i j =>
  match i, j with
  | 3, 3 => (1)%R | 3, _ => (0)%R
  | _, 3 => (- (rot_of e 0%nat i * d_x e + rot_of e 1%nat i * d_y e + rot_of e 2%nat i * d_z e))%R
  | _, _ => (rot_of e j i)%R
  end%nat.
(** b, lines 54-55. *)
Definition pull4 (ea eb : ellipsoid) : mat :=
  let m := mul4 (trans4_inv eb) (trans4 ea) in mul4 (mul4 (tr m) (diag4 eb)) m.

(** T4 .. T0, lines 74-101. *)
Definition coeffs4 (a b : mat) : list R :=
  let a11 := a 0%nat 0%nat in let a22 := a 1%nat 1%nat in let a33 := a 2%nat 2%nat in
  let b11 := b 0%nat 0%nat in let b12 := b 0%nat 1%nat in let b13 := b 0%nat 2%nat in let b14 := b 0%nat 3%nat in
  let b21 := b 1%nat 0%nat in let b22 := b 1%nat 1%nat in let b23 := b 1%nat 2%nat in let b24 := b 1%nat 3%nat in
  let b31 := b 2%nat 0%nat in let b32 := b 2%nat 1%nat in let b33 := b 2%nat 2%nat in let b34 := b 2%nat 3%nat in
  let b41 := b 3%nat 0%nat in let b42 := b 3%nat 1%nat in let b43 := b 3%nat 2%nat in let b44 := b 3%nat 3%nat in
  [ - a11 * a22 * a33;
    a11 * a22 * b33 + a11 * a33 * b22 + a22 * a33 * b11 - a11 * a22 * a33 * b44;
    a11 * b23 * b32 - a11 * b22 * b33 - a22 * b11 * b33 +
      a22 * b13 * b31 - a33 * b11 * b22 + a33 * b12 * b21 +
      a11 * a22 * b33 * b44 - a11 * a22 * b34 * b43 +
      a11 * a33 * b22 * b44 - a11 * a33 * b24 * b42 +
      a22 * a33 * b11 * b44 - a22 * a33 * b14 * b41;
    b11 * b22 * b33 - b11 * b23 * b32 - b12 * b21 * b33 + b12 * b23 * b31 +
      b13 * b21 * b32 - b13 * b22 * b31 - a11 * b22 * b33 * b44 +
      a11 * b22 * b34 * b43 + a11 * b23 * b32 * b44 - a11 * b23 * b34 * b42 -
      a11 * b24 * b32 * b43 + a11 * b24 * b33 * b42 - a22 * b11 * b33 * b44 +
      a22 * b11 * b34 * b43 + a22 * b13 * b31 * b44 - a22 * b13 * b34 * b41 -
      a22 * b14 * b31 * b43 + a22 * b14 * b33 * b41 - a33 * b11 * b22 * b44 +
      a33 * b11 * b24 * b42 + a33 * b12 * b21 * b44 - a33 * b12 * b24 * b41 -
      a33 * b14 * b21 * b42 + a33 * b14 * b22 * b41;
    b11 * b22 * b33 * b44 - b11 * b22 * b34 * b43 - b11 * b23 * b32 * b44 +
      b11 * b23 * b34 * b42 + b11 * b24 * b32 * b43 - b11 * b24 * b33 * b42 -
      b12 * b21 * b33 * b44 + b12 * b21 * b34 * b43 + b12 * b23 * b31 * b44 -
      b12 * b23 * b34 * b41 - b12 * b24 * b31 * b43 + b12 * b24 * b33 * b41 +
      b13 * b21 * b32 * b44 - b13 * b21 * b34 * b42 - b13 * b22 * b31 * b44 +
      b13 * b22 * b34 * b41 + b13 * b24 * b31 * b42 - b13 * b24 * b32 * b41 -
      b14 * b21 * b32 * b43 + b14 * b21 * b33 * b42 + b14 * b22 * b31 * b43 -
      b14 * b22 * b33 * b41 - b14 * b23 * b31 * b42 + b14 * b23 * b32 * b41 ].

(** -- Roots and decision -- *)
(** The companion matrix, lines 195-203: subdiagonal of ones, first row -c_(i+1)/c_0. *)
Definition companion (cs : list R) : mat := fun i j =>
  if Nat.eqb i 0 then - nth (j + 1) cs 0 / nth 0 cs 0
  else if Nat.eqb i (j + 1) then 1 else 0.

(** Complex numbers: (real, imaginary). *)
Definition cplx : Type := (R * R)%type.
(** getRootsPolynomial, lines 190-219: [vret(matsz)] already holds matsz zeros when
    the eigenvalues are pushed back. *)
Definition roots_polynomial (eig : mat -> nat -> list cplx) (cs : list R) : list cplx :=
  let matsz := (length cs - 1)%nat in
  repeat (0, 0) matsz ++ eig (companion cs) matsz.

(** Lines 107-113 and 171-177. *)
Definition negative_root (r : cplx) : bool :=
  if Rlt_dec (Rabs (snd r)) (1 / 1000000) then if Rlt_dec (fst r) 0 then true else false else false.
(** [std::abs] of a complex number. *)
Definition cabs (z : cplx) : R := sqrt (fst z * fst z + snd z * snd z).
(** Lines 115-123 and 179-187. *)
Definition decide (roots : list cplx) : bool :=
  match filter negative_root roots with
  | [r0; r1] => if Rlt_dec (1 / 1000000) (cabs (fst r0 - fst r1, snd r0 - snd r1)) then true else false
  | _ => false
  end.

(** isEllipseSeparated, lines 122-188; isEllipsoidSeparated, lines 7-120. *)
Definition is_ellipse_separated (eig : mat -> nat -> list cplx) (ea eb : ellipse) : bool :=
  decide (roots_polynomial eig (coeffs3 (diag3 ea) (pull3 ea eb))).
Definition is_ellipsoid_separated (eig : mat -> nat -> list cplx) (ea eb : ellipsoid) : bool :=
  decide (roots_polynomial eig (coeffs4 (diag4 ea) (pull4 ea eb))).
