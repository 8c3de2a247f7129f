(** Model of parsePlanningConfig and of the files it writes,
    src/test/util/ParsePlanningSettings.cpp:162-264 (parsePlanningConfig, parseGeometricModel,
    parseStartGoalConfig).

    A file system maps names to contents; two names are the same file only if they are equal
    (simplification: no links, no "..").  Numbers are binary64, printed as in [MStore].  An
    exception closes the stream in its destructor: what was written before it is in the file.  The
    build uses C++17, in which the operands of a chain of [<<] are evaluated from left to right. *)
From Coq Require Import List Ascii String Bool Arith.
From Verif.Base Require Import Outcome Float64.
From Verif.Model Require Import MCsv MStore MSettings.
Import ListNotations.

Definition files : Type := string -> option (list ascii).
Definition write (fs : files) (name : string) (text : list ascii) : files :=
  fun n => if String.eqb n name then Some text else fs n.

(** What one pass of a loop writes, and whether it ends in an exception. *)
Definition row_out : Type := list ascii * option exn.
(** [a << ',' << b << ... << "\n"], from fields that exist. *)
Definition csv_line (row : list f64) : list ascii := joined comma (map number_text row) ++ [newline].
(** [out << c.at(0) << ',' << ... << c.at(n - 1) << "\n"]: a missing field throws after the
    fields before it and their commas were written. *)
Definition write_at (c : list f64) (n : nat) : row_out :=
  if Nat.ltb (List.length c) n then (flat_map (fun x => number_text x ++ [comma]) c, Some OutOfRange)
  else (csv_line (firstn n c), None).

Section Prepare.
Variable stof : list ascii -> stof_result.
(** Eigen's conversion of an axis (x, y, z) and an angle to a quaternion (w, x, y, z), lines 197-199,
    236-238, in binary64. *)
Variable turnq : f64 -> f64 -> f64 -> f64 -> f64 * f64 * f64 * f64.
(** RESOURCES_PATH and CONFIG_PATH. *)
Variable res cfg : string.
(** Whether opening a file of this name for writing succeeds (lines 192, 223: not checked; writing to a
    stream that is not open does nothing). *)
Variable opens : string -> bool.

(** Lines 193-213, the body of the loop.  For an empty row [object.size() - 1] wraps and [object.at(0)]
    throws. *)
Definition geometric_row (o : list f64) : row_out :=
  match o with
  | [] => ([], Some OutOfRange)
  | [a; b; d; e1; e2; x; y; z; u; v; w; t] =>
      let '(qw, qx, qy, qz) := turnq u v w t in (csv_line [a; b; d; e1; e2; x; y; z; qw; qx; qy; qz], None)
  | _ => (csv_line o, None)
  end.
(** Lines 224-262. *)
Definition goal_row (robotType dim : string) (c : list f64) : row_out :=
  if String.eqb dim "2D" then write_at c 3
  else if String.eqb dim "3D" then
    match c with
    | x :: y :: z :: u :: v :: w :: t :: js =>
        let '(qw, qx, qy, qz) := turnq u v w t in
        write_at (x :: y :: z :: qw :: qx :: qy :: qz :: js) (S (num_dof robotType))
    | _ => ([], Some OutOfRange)
    end
  else ([], None).

(** The loop: the text written, and the exception that ended it. *)
Fixpoint written (row : list f64 -> row_out) (rows : list (list f64)) : row_out :=
  match rows with
  | [] => ([], None)
  | r :: rest =>
      match row r with
      | (t, Some e) => (t, Some e)
      | (t, None) => let '(t', e) := written row rest in (t ++ t', e)
      end
  end.
(** parseGeometricModel and parseStartGoalConfig: the input is read first, so that an exception in
    reading it leaves the output as it was; opening the output empties it. *)
Definition convert_file (row : list f64 -> row_out) (fs : files) (inp out : string) : files * outcome unit :=
  match parse_csv stof (fs inp) with
  | Throw e => (fs, Throw e)
  | UB => (fs, UB)
  | Ok rows =>
      let '(text, e) := written row rows in
      ((if opens out then write fs out text else fs), match e with Some e => Throw e | None => Ok Datatypes.tt end)
  end.
(** One call after the other, until one throws. *)
Fixpoint convert_all (jobs : list ((list f64 -> row_out) * string * string)) (fs : files) : files * outcome unit :=
  match jobs with
  | [] => (fs, Ok Datatypes.tt)
  | (row, inp, out) :: rest =>
      match convert_file row fs inp out with
      | (fs', Ok _) => convert_all rest fs'
      | r => r
      end
  end.
Local Open Scope string_scope.
(** parsePlanningConfig, lines 162-185. *)
Definition arena_in (objectType envType dim : string) : string := res ++ "/" ++ dim ++ "/env_" ++ objectType ++ "_" ++ envType ++ "_" ++ dim ++ "_arena.csv".
Definition obstacle_in (objectType envType dim : string) : string := res ++ "/" ++ dim ++ "/env_" ++ objectType ++ "_" ++ envType ++ "_" ++ dim ++ "_obstacle.csv".
Definition robot_in (robotType dim : string) : string := res ++ "/" ++ dim ++ "/robot_" ++ robotType ++ "_" ++ dim ++ ".csv".
Definition ends_in (objectType envType dim : string) : string := res ++ "/" ++ dim ++ "/setting_" ++ objectType ++ "_" ++ envType ++ "_" ++ dim ++ ".csv".
Definition prepare (fs : files) (objectType envType robotType dim : string) : files * outcome unit :=
  convert_all
    [ (geometric_row, arena_in objectType envType dim, cfg ++ "/arena_config_" ++ dim ++ ".csv");
      (geometric_row, obstacle_in objectType envType dim, cfg ++ "/obstacle_config_" ++ dim ++ ".csv");
      (geometric_row, robot_in robotType dim, cfg ++ "/robot_config_" ++ dim ++ ".csv");
      (goal_row robotType dim, ends_in objectType envType dim, cfg ++ "/end_points_" ++ dim ++ ".csv") ] fs.
End Prepare.
