(** Specification for C85-C88: scene files, conversion of resource files, planning parameters. *)
From Coq Require Import List Reals ZArith Arith Ascii String.
From Verif.Base Require Import Outcome Float64.
From Verif.Model Require Import MGeom MMultiBody MCsv MSettings.
From Verif.Spec Require Import SGeom SRigid SUtil.
Import ListNotations.
Local Open Scope R_scope.

(** ---- scene files ---- *)
(** Six columns: semi-axes, exponent, position, heading.  Twelve: semi-axes, exponents, position,
    quaternion (w, x, y, z). *)
Definition row_is2 {A} (num : nat) (c : list A) (s : sh2 A) : Prop :=
  exists a b e x y t rest, c = [a; b; e; x; y; t] ++ rest /\ s = Sh2 [a; b] e [x; y] t num.
Definition row_is3 {A} (num : nat) (c : list A) (s : sh3 A) : Prop :=
  exists a b d e1 e2 x y z w i j k rest, c = [a; b; d; e1; e2; x; y; z; w; i; j; k] ++ rest /\
    s = Sh3 [a; b; d] [e1; e2] [x; y; z] (w, i, j, k) num.
(** The rows of a robot file: base, then the other bodies. *)
Definition robot_rows {A S} (row : list A -> S -> Prop) (rows : list (list A)) (base : S) (links : list S) : Prop :=
  exists first rest, rows = first :: rest /\ row first base /\ Forall2 row rest links.
(** A row of an orientation file: (x, y, z, w). *)
Definition sample_is {A} (c : list A) (q : A * A * A * A) : Prop :=
  exists x y z w rest, c = [x; y; z; w] ++ rest /\ q = (w, x, y, z).
(** The numbers of a line of text. *)
Definition numbers_of (stof : list ascii -> stof_result) (l : list ascii) : list f64 :=
  flat_map (fun f => match stof f with Value x => [x] | _ => [] end) (line_fields l).
(** No field of a data line is a number out of range. *)
Definition readable (stof : list ascii -> stof_result) (text : list ascii) : Prop :=
  stof [] = Invalid /\ forall l f, In l (data_lines text) -> In f (line_fields l) -> stof f <> Range.

(** ---- conversion ---- *)
(** v turned by the angle t about the unit vector u (Rodrigues). *)
Definition cross (u v : v3) : v3 :=
  V3r (y3 u * z3 v - z3 u * y3 v) (z3 u * x3 v - x3 u * z3 v) (x3 u * y3 v - y3 u * x3 v).
Definition turned (u : v3) (t : R) (v : v3) : v3 :=
  add3 (add3 (scale3 (cos t) v) (scale3 (sin t) (cross u v))) (scale3 (dot3 u v * (1 - cos t)) u).
(** The unit vector in the direction of a non-zero vector. *)
Definition direction (w u : v3) : Prop := dot3 u u = 1 /\ exists k, 0 < k /\ w = scale3 k u.
(** The orientation q of the row with axis w and angle t: turned by t about the direction of w, or not
    turned if w is zero. *)
Definition orientation_of (w : v3) (t : R) (q : quat) : Prop :=
  (w <> V3r 0 0 0 -> unit_quat q /\ exists u, direction w u /\ forall v, turn q v = turned u t v) /\
  (w = V3r 0 0 0 -> forall v, app3 (rotm q) v = v).
(** Start or goal with axis and angle, converted; n joints. *)
Definition goal_is3 (n : nat) (c r : list R) : Prop :=
  exists x y z w t q js, c = [x; y; z; x3 w; y3 w; z3 w; t] ++ js /\ (n <= List.length js)%nat /\
    orientation_of w t q /\ r = [x; y; z; qw q; qx q; qy q; qz q] ++ firstn n js.
Definition goal_is2 (c r : list R) : Prop := exists x y t rest, c = [x; y; t] ++ rest /\ r = [x; y; t].
(** The number of joints kept for a robot of this name. *)
Definition joints_of (name : string) : nat := if String.eqb name "snake" then 3 else if String.eqb name "tree" then 6 else 0.
(** A number written with six digits and read back: relative error at most 1/100000 (numbers below
    the range of float, for which reading throws, are left out). *)
Definition six_digits (rt : R -> R) : Prop := forall x, Rabs (rt x - x) <= 1 / 100000 * Rabs x.

(** ---- parameters ---- *)
Definition within2 (p : params) (x y : R) : Prop :=
  exists l0 l1 l2 l3, r_limits p = [l0; l1; l2; l3] /\ l0 <= x <= l1 /\ l2 <= y <= l3.
Definition within3 (p : params) (v : v3) : Prop :=
  exists l0 l1 l2 l3 l4 l5, r_limits p = [l0; l1; l2; l3; l4; l5] /\ l0 <= x3 v <= l1 /\ l2 <= y3 v <= l3 /\ l4 <= z3 v <= l5.
(** The bounding box of an unturned body. *)
Definition in_box2 (s : sellipse) (p : v2) : Prop :=
  Rabs (x2 p - nth 0 (se_pos s) 0) <= nth 0 (se_axes s) 0 /\ Rabs (y2 p - nth 1 (se_pos s) 0) <= nth 1 (se_axes s) 0.
Definition in_box3 (s : squad) (p : v3) : Prop :=
  Rabs (x3 p - nth 0 (sq_pos s) 0) <= nth 0 (sq_axes s) 0 /\ Rabs (y3 p - nth 1 (sq_pos s) 0) <= nth 1 (sq_axes s) 0 /\
  Rabs (z3 p - nth 2 (sq_pos s) 0) <= nth 2 (sq_axes s) 0.
(** m is the smallest semi-axis. *)
Definition smallest (axes : list (list R)) (m : R) : Prop :=
  (exists o, In o axes /\ In m o) /\ forall o a, In o axes -> In a o -> m <= a.
(** The i-th of n sweep lines over the given limits, in exact arithmetic. *)
Definition sweep_at (l2 l3 : R) (n : Z) (i : Z) : R := l2 + IZR i * ((l3 - l2) / (IZR n - 1)).
