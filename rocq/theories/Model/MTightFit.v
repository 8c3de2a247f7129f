(** Model of src/geometry/TightFitEllipsoid.cpp, in exact real arithmetic.

    The singular value decomposition of Eigen::JacobiSVD is a parameter [svd]: it returns
    matrixU() and singularValues().  [None]: a division by zero, a negative power of a number
    that is not positive, or acos outside [-1, 1] (NaN or infinity in the code). *)
From Coq Require Import List Reals ZArith Arith Bool.
From Verif.Base Require Import Outcome.
From Verif.Model Require Import MScalar MInterp.
From Verif.Model Require Import MGeom MMultiBody.
Import ListNotations.
Local Open Scope outcome_scope.
Local Open Scope R_scope.

Definition inv_sq (x : R) : option R := odiv 1 (x * x).              (* pow(x, -2) *)
Definition inv_root (x : R) : option R := if Rlt_dec 0 x then Some (/ sqrt x) else None.   (* pow(x, -0.5) *)

(** Eigen's inverse() of a fixed size matrix: cofactors over the determinant. *)
Definition det2 (A : m2) : R := m00 A * m11 A - m01 A * m10 A.
Definition inv2 (A : m2) : option m2 :=
  obnd (odiv 1 (det2 A)) (fun d => Some (M2 (m11 A * d) (- m01 A * d) (- m10 A * d) (m00 A * d))).
Definition cross3 (u v : v3) : v3 :=
  V3r (y3 u * z3 v - z3 u * y3 v) (z3 u * x3 v - x3 u * z3 v) (x3 u * y3 v - y3 u * x3 v).
Definition det3 (A : m3) : R := dot3 (r0 A) (cross3 (r1 A) (r2 A)).
Definition inv3 (A : m3) : option m3 :=
  obnd (odiv 1 (det3 A)) (fun d =>
    Some (tr3 (M3 (scale3 d (cross3 (r1 A) (r2 A))) (scale3 d (cross3 (r2 A) (r0 A))) (scale3 d (cross3 (r0 A) (r1 A)))))).

(** R diag(d) R^T. *)
Definition conj2 (Rm : m2) (d0 d1 : R) : m2 := mul2 (mul2 Rm (diag2 d0 d1)) (tr2 Rm).
Definition conj3 (Rm : m3) (d0 d1 d2 : R) : m3 := mul3 (mul3 Rm (diag3 d0 d1 d2)) (tr3 Rm).

Section Planar.
Variable svd : m2 -> m2 * (R * R).
(** getMVCE2D, TightFitEllipsoid.cpp:6-41. *)
Definition mvce2 (a b : R * R) (thA thB : R) : option ((R * R) * R) :=
  let Ra := rot2 thA in let Rb := rot2 thB in
  let r := Rmin (fst b) (snd b) in
  obnd (odiv r (fst b)) (fun d0 => obnd (odiv r (snd b)) (fun d1 =>
  obnd (inv_sq (fst a)) (fun e0 => obnd (inv_sq (snd a)) (fun e1 =>
  let T := conj2 Rb d0 d1 in
  obnd (inv2 T) (fun Ti =>
  let Ap := mul2 (mul2 Ti (conj2 Ra e0 e1)) Ti in
  let '(U, (s0, s1)) := svd Ap in
  obnd (inv_root s0) (fun p0 => obnd (inv_root s1) (fun p1 =>
  obnd (inv_sq (Rmax p0 r)) (fun c0 => obnd (inv_sq (Rmax p1 r)) (fun c1 =>
  let C := mul2 (mul2 T (conj2 U c0 c1)) T in
  let '(W, (z0, z1)) := svd C in
  obnd (inv_root z0) (fun k0 => obnd (inv_root z1) (fun k1 =>
  if Rlt_dec (m00 W) (-1) then None else if Rlt_dec 1 (m00 W) then None else
  Some ((k0, k1), acos (m00 W))))))))))))).

(** getTFE2D, TightFitEllipsoid.cpp:83-96: [dt] is 1 / (numStep - 1); for numStep = 1 the only
    step computes 0 times infinity. *)
Definition tfe_step2 (a : R * R) (thA thB dt : R) (st : option ((R * R) * R)) (i : nat) : option ((R * R) * R) :=
  obnd st (fun e => mvce2 a (fst e) ((1 - INR i * dt) * thA + INR i * dt * thB) (snd e)).
Definition tfe2 (a : R * R) (thA thB : R) (numStep : nat) : option ((R * R) * R) :=
  let e0 := mvce2 a a thA thB in
  if Nat.eqb numStep 0 then e0 else
  obnd (odiv 1 (INR numStep - 1)) (fun dt => fold_left (tfe_step2 a thA thB dt) (seq 0 numStep) e0).

(** The returned SuperEllipse; the vectors of semi-axes are read unchecked. *)
Definition get_mvce2 (a b : list R) (thA thB : R) (num : nat) : outcome (option sellipse) :=
  do a0 <- idx a 0; do a1 <- idx a 1; do b0 <- idx b 0; do b1 <- idx b 1;
  Ok (option_map (fun e => SE [fst (fst e); snd (fst e)] 1 [0; 0] (snd e) num) (mvce2 (a0, a1) (b0, b1) thA thB)).
Definition get_tfe2 (a : list R) (thA thB : R) (numStep num : nat) : outcome (option sellipse) :=
  do a0 <- idx a 0; do a1 <- idx a 1;
  Ok (option_map (fun e => SE [fst (fst e); snd (fst e)] 1 [0; 0] (snd e) num) (tfe2 (a0, a1) thA thB numStep)).
End Planar.

Section Spatial.
Variable svd : m3 -> m3 * (R * R * R).
(** getMVCE3D, TightFitEllipsoid.cpp:43-81. *)
Definition mvce3 (a b : R * R * R) (qA qB : quat) : option ((R * R * R) * quat) :=
  let '(a0, a1, a2) := a in let '(b0, b1, b2) := b in
  let r := Rmin b0 (Rmin b1 b2) in
  obnd (odiv r b0) (fun d0 => obnd (odiv r b1) (fun d1 => obnd (odiv r b2) (fun d2 =>
  obnd (inv_sq a0) (fun e0 => obnd (inv_sq a1) (fun e1 => obnd (inv_sq a2) (fun e2 =>
  let T := conj3 (rotm qB) d0 d1 d2 in
  obnd (inv3 T) (fun Ti =>
  let Ap := mul3 (mul3 Ti (conj3 (rotm qA) e0 e1 e2)) Ti in
  let '(U, (s0, s1, s2)) := svd Ap in
  obnd (inv_root s0) (fun p0 => obnd (inv_root s1) (fun p1 => obnd (inv_root s2) (fun p2 =>
  obnd (inv_sq (Rmax p0 r)) (fun c0 => obnd (inv_sq (Rmax p1 r)) (fun c1 => obnd (inv_sq (Rmax p2 r)) (fun c2 =>
  let C := mul3 (mul3 T (conj3 U c0 c1 c2)) T in
  let '(W, (z0, z1, z2)) := svd C in
  obnd (inv_root z0) (fun k0 => obnd (inv_root z1) (fun k1 => obnd (inv_root z2) (fun k2 =>
  obnd (quat_of W) (fun qc => Some ((k0, k1, k2), qc)))))))))))))))))).

(** getTFE3D, TightFitEllipsoid.cpp:98-114; [quats] is interpolateSlerp(quatA, quatB, numStep)
    ([at(i)] throws beyond its end; [None]: not a number). *)
Definition tfe_step3 (a : R * R * R) (quats : list (option quat)) (st : option ((R * R * R) * quat)) (i : nat) :
  outcome (option ((R * R * R) * quat)) :=
  do q <- at_ quats i; Ok (obnd q (fun qi => obnd st (fun e => mvce3 a (fst e) qi (snd e)))).
Definition tfe3 (a : R * R * R) (qA qB : quat) (quats : list (option quat)) (numStep : nat) : outcome (option ((R * R * R) * quat)) :=
  ofold (tfe_step3 a quats) (seq 1 (numStep - 1)) (mvce3 a a qA qB).
(** The quaternions of interpolateSlerp (Model/MInterp.v), in exact arithmetic. *)
Definition to_xr (q : quat) : MInterp.quat XR := (Some (qw q), Some (qx q), Some (qy q), Some (qz q)).
Definition of_xr (q : MInterp.quat XR) : option quat :=
  match q with (Some w, Some x, Some y, Some z) => Some (Q w x y z) | _ => None end.
Definition slerp_steps (qA qB : quat) (n : nat) : list (option quat) :=
  map of_xr (interpolate_slerp XR slerp_XR (to_xr qA) (to_xr qB) n).
(** The returned SuperQuadrics; the vectors of semi-axes are read unchecked. *)
Definition get_mvce3 (a b : list R) (qA qB : quat) (num : nat) : outcome (option squad) :=
  do a0 <- idx a 0; do a1 <- idx a 1; do a2 <- idx a 2; do b0 <- idx b 0; do b1 <- idx b 1; do b2 <- idx b 2;
  Ok (option_map (fun e => SQ [fst (fst (fst e)); snd (fst (fst e)); snd (fst e)] [1; 1] [0; 0; 0] (snd e) num)
        (mvce3 (a0, a1, a2) (b0, b1, b2) qA qB)).
Definition get_tfe3 (a : list R) (qA qB : quat) (numStep num : nat) : outcome (option squad) :=
  do a0 <- idx a 0; do a1 <- idx a 1; do a2 <- idx a 2;
  do e <- tfe3 (a0, a1, a2) qA qB (slerp_steps qA qB numStep) numStep;
  Ok (option_map (fun e => SQ [fst (fst (fst e)); snd (fst (fst e)); snd (fst e)] [1; 1] [0; 0; 0] (snd e) num) e).
End Spatial.
