(** Model of src/geometry/PointInPoly.cpp. *)
From Coq Require Import List ZArith Bool.
From Verif.Base Require Import Outcome Float64.
From Verif.Model Require Import MScalar.
Import ListNotations.
Local Open Scope outcome_scope.

Section Poly.
Variable S : scalar.
Notation T := (car S).

(** Row [r] of a column-major 4x4 matrix stored in 16 numbers, times (x,y,z,1):
    Eigen::Map<Matrix4d>(data) * p, PointInPoly.cpp:18-20.  The map reads 16
    numbers unchecked. *)
Definition row_dot (m : list T) (r : nat) (x y z : T) : outcome T :=
  do a <- idx m r;
  do b <- idx m (r + 4);
  do c <- idx m (r + 8);
  do d <- idx m (r + 12);
  Ok (sadd S (sadd S (sadd S (smul S a x) (smul S b y)) (smul S c z)) (smul S d (sofZ S 1))).

(** One simplex, PointInPoly.cpp:18-24.  Simplification: for NaN coordinates
    (Eigen: unspecified) the test is false. *)
Definition in_simplex (m : list T) (x y z : T) : outcome bool :=
  do a0 <- row_dot m 0 x y z;
  do a1 <- row_dot m 1 x y z;
  do a2 <- row_dot m 2 x y z;
  do a3 <- row_dot m 3 x y z;
  Ok (forallb (fun a => sleb S (sofZ S 0) a && sleb S a (sofZ S 1)) [a0; a1; a2; a3]).

Fixpoint any_simplex (ms : list (list T)) (x y z : T) : outcome bool :=
  match ms with
  | [] => Ok false
  | m :: rest => do b <- in_simplex m x y z; if b then Ok true else any_simplex rest x y z
  end.

(** isPtInPoly, PointInPoly.cpp:6-28 ([ms] = polyhedronVertex.matrixInverse). *)
Definition is_pt_in_poly (ms : list (list T)) (pt : list T) : outcome bool :=
  do x <- idx pt 0;
  do y <- idx pt 1;
  do z <- idx pt 2;
  any_simplex ms x y z.
End Poly.
