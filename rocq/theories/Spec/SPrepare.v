(** Specification for C104: what a prepared scene holds. *)
From Coq Require Import List Reals Ascii String Bool Arith.
From Verif.Base Require Import Float64.
From Verif.Model Require Import MCsv MStore MSettings.
From Verif.Spec Require Import SUtil SStore SSettings.
Import ListNotations.
Local Open Scope R_scope.

(** The rows of numbers of a text. *)
Definition rows_of (stof : list ascii -> stof_result) (text : list ascii) : list (list f64) := map (numbers_of stof) (data_lines text).
(** A number as it comes back from the file: within 5.1 millionths. *)
Definition near (x y : f64) : Prop := fisfin y = true /\ Rabs (fval y - fval x) <= 51 / 10000000 * Rabs (fval x).
(** std::stof on a decimal text: the nearest float. *)
Definition float_read (stof : list ascii -> stof_result) (t : list ascii) : Prop :=
  forall r, decimal t = Some r -> exists y, stof t = Value y /\ fisfin y = true /\ Rabs (fval y - r) <= / 2 ^ 24 * Rabs r.
Definition come_back (stof : list ascii -> stof_result) (R : list (list f64)) : Prop :=
  forall r x, In r R -> In x r -> fisfin x = true /\ float_read stof (number_text x).
(** A file with one comma-separated line per row. *)
Definition holds (file : option (list ascii)) (R : list (list f64)) : Prop :=
  exists text, file = Some text /\ map line_fields (data_lines text) = map (map number_text) R.
(** A file that holds the rows R, and perhaps the beginning of one more line. *)
Definition cut_after (file : option (list ascii)) (R : list (list f64)) : Prop :=
  exists text, file = Some text /\ map line_fields (firstn (List.length R) (data_lines text)) = map (map number_text) R /\
    (List.length (data_lines text) <= S (List.length R))%nat.

Section Conv.
Variable turnq : f64 -> f64 -> f64 -> f64 -> f64 * f64 * f64 * f64.
(** A body of the resource file, and of the configuration file: twelve numbers ending in axis and
    angle become twelve ending in a quaternion; any other non-empty row stays. *)
Definition body_to (c r : list f64) : Prop :=
  (exists a b d e1 e2 x y z u v w t qw qx qy qz, c = [a; b; d; e1; e2; x; y; z; u; v; w; t] /\
     turnq u v w t = (qw, qx, qy, qz) /\ r = [a; b; d; e1; e2; x; y; z; qw; qx; qy; qz]) \/
  (c <> [] /\ List.length c <> 12%nat /\ r = c).
(** A start or goal: the plane keeps three numbers, space the position, the quaternion and the joints
    of a robot of this name. *)
Definition end_to (robot dim : string) (c r : list f64) : Prop :=
  (dim = "2D"%string /\ exists x y t rest, c = [x; y; t] ++ rest /\ r = [x; y; t]) \/
  (dim = "3D"%string /\ exists x y z u v w t js qw qx qy qz, c = [x; y; z; u; v; w; t] ++ js /\ turnq u v w t = (qw, qx, qy, qz) /\
     (joints_of robot <= List.length js)%nat /\ r = [x; y; z; qw; qx; qy; qz] ++ firstn (joints_of robot) js).
End Conv.

Local Open Scope string_scope.
(** The files read and the files written, in the order of the four steps. *)
Definition resource_files (res objectType envType robotType dim : string) : list string :=
  let stem := objectType ++ "_" ++ envType ++ "_" ++ dim in
  [ res ++ "/" ++ dim ++ "/env_" ++ stem ++ "_arena.csv"; res ++ "/" ++ dim ++ "/env_" ++ stem ++ "_obstacle.csv";
    res ++ "/" ++ dim ++ "/robot_" ++ robotType ++ "_" ++ dim ++ ".csv"; res ++ "/" ++ dim ++ "/setting_" ++ stem ++ ".csv" ].
Definition config_files (cfg dim : string) : list string :=
  map (fun s => cfg ++ "/" ++ s ++ dim ++ ".csv") ["arena_config_"; "obstacle_config_"; "robot_config_"; "end_points_"].
(** The conversion of the i-th file. *)
Definition step_to turnq robotType dim (i : nat) : list f64 -> list f64 -> Prop :=
  if Nat.ltb i 3 then body_to turnq else end_to turnq robotType dim.
Local Close Scope string_scope.
(** The shape loaded from a resource row: its numbers within 5.1 millionths of those of the converted
    row. *)
Definition shape_near2 (num : nat) (c : list f64) (s : sh2 f64) : Prop := exists b, Forall2 near (firstn 6 c) b /\ row_is2 num b s.
Definition shape_near3 turnq (num : nat) (c : list f64) (s : sh3 f64) : Prop := exists r b, body_to turnq c r /\ Forall2 near (firstn 12 r) b /\ row_is3 num b s.
Definition end_near turnq robotType dim (c e : list f64) : Prop := exists r, end_to turnq robotType dim c r /\ Forall2 near r e.
From Verif.Model Require Import MGeom MMultiBody.
From Verif.Spec Require Import SGeom SRigid.
(** The quaternion computed for axis (u, v, w) and angle t is within a millionth, in each component,
    of one for the exact rotation. *)
Definition accurate (turnq : f64 -> f64 -> f64 -> f64 -> f64 * f64 * f64 * f64) (u v w t : f64) : Prop :=
  exists a b c d q, turnq u v w t = (a, b, c, d) /\ orientation_of (V3r (fval u) (fval v) (fval w)) (fval t) q /\
    Rabs (fval a - qw q) <= 1 / 1000000 /\ Rabs (fval b - qx q) <= 1 / 1000000 /\ Rabs (fval c - qy q) <= 1 / 1000000 /\ Rabs (fval d - qz q) <= 1 / 1000000.
(** The body of the shape s, turned as its quaternion says. *)
Definition turned_by (s : sh3 f64) (p : v3) : v3 :=
  let '(w, x, y, z) := g_quat s in app3 (rotm (Q (fval w) (fval x) (fval y) (fval z))) p.
