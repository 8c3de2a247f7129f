(** Specification for C44, C45: quadrics, determinants, spectra. *)
From Coq Require Import List Reals.
From Verif.Model Require Import MSeparation.
Import ListNotations.
Local Open Scope R_scope.

(** Membership of a world point in a closed ellipse / ellipsoid: rotate back into
    the body frame and use the implicit equation. *)
Definition in_ellipse (e : ellipse) (px py : R) : Prop :=
  let u := cos (e_th e) * (px - e_x e) + sin (e_th e) * (py - e_y e) in
  let v := - sin (e_th e) * (px - e_x e) + cos (e_th e) * (py - e_y e) in
  (u / e_a e) * (u / e_a e) + (v / e_b e) * (v / e_b e) <= 1.
Definition body (e : ellipsoid) (px py pz : R) (i : nat) : R :=
  rot_of e 0%nat i * (px - d_x e) + rot_of e 1%nat i * (py - d_y e) + rot_of e 2%nat i * (pz - d_z e).
Definition in_ellipsoid (e : ellipsoid) (px py pz : R) : Prop :=
  (body e px py pz 0%nat / d_a e) * (body e px py pz 0%nat / d_a e) +
  (body e px py pz 1%nat / d_b e) * (body e px py pz 1%nat / d_b e) +
  (body e px py pz 2%nat / d_c e) * (body e px py pz 2%nat / d_c e) <= 1.
Definition proper_ellipse (e : ellipse) : Prop := 0 < e_a e /\ 0 < e_b e.
Definition proper_ellipsoid (e : ellipsoid) : Prop :=
  0 < d_a e /\ 0 < d_b e /\ 0 < d_c e /\
  d_qw e * d_qw e + d_qx e * d_qx e + d_qy e * d_qy e + d_qz e * d_qz e = 1.

(** Determinants by expansion along the first row. *)
Definition det2 (a b c d : R) : R := a * d - b * c.
Definition det3 (m : mat) : R :=
  m 0%nat 0%nat * det2 (m 1%nat 1%nat) (m 1%nat 2%nat) (m 2%nat 1%nat) (m 2%nat 2%nat) -
  m 0%nat 1%nat * det2 (m 1%nat 0%nat) (m 1%nat 2%nat) (m 2%nat 0%nat) (m 2%nat 2%nat) +
  m 0%nat 2%nat * det2 (m 1%nat 0%nat) (m 1%nat 1%nat) (m 2%nat 0%nat) (m 2%nat 1%nat).
(** Delete row 0 and column [c]. *)
Definition minor (m : mat) (c : nat) : mat := fun i j => m (S i) (if Nat.ltb j c then j else S j).
Definition det4 (m : mat) : R :=
  m 0%nat 0%nat * det3 (minor m 0) - m 0%nat 1%nat * det3 (minor m 1) +
  m 0%nat 2%nat * det3 (minor m 2) - m 0%nat 3%nat * det3 (minor m 3).
(** lambda * a - b *)
Definition pencil (l : R) (a b : mat) : mat := fun i j => l * a i j - b i j.
Definition ident : mat := fun i j => if Nat.eqb i j then 1 else 0.

(** Value of a polynomial given by its coefficients, highest degree first. *)
Definition poly (cs : list R) (x : R) : R := fold_left (fun acc c => acc * x + c) cs 0.

(** Eigenvalues with multiplicity: the characteristic polynomial is the product of
    the factors (x - r), as complex numbers, at every real x. *)
Definition cmul (z w : cplx) : cplx := (fst z * fst w - snd z * snd w, fst z * snd w + snd z * fst w).
Definition factors (rs : list cplx) (x : R) : cplx :=
  fold_right (fun r acc => cmul (x - fst r, - snd r) acc) (1, 0) rs.
Definition spectrum3 (m : mat) (rs : list cplx) : Prop :=
  length rs = 3%nat /\ forall x, factors rs x = (det3 (pencil x ident m), 0).
Definition spectrum4 (m : mat) (rs : list cplx) : Prop :=
  length rs = 4%nat /\ forall x, factors rs x = (det4 (pencil x ident m), 0).
