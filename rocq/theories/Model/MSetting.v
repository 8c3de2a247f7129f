(** Model of the class PlannerSetting, include/hrm/test/util/ParsePlanningSettings.h:91-178, as an
    object whose methods are called one after the other; an exception leaves the object as it then is.

    [T]: the shapes; [load_file]: loadVectorGeometry from a file (ParsePlanningSettings.cpp:18-25,
    41-48) with the number of points of this object; [dim]: the text set by the constructor.  The
    constructor for other shape types (line 104) is not modelled.  loadVectorGeometry throws only while
    the file is read, before the target is cleared (lines 10 and 32), so an exception leaves it as it
    was; after undefined behaviour the object is not tracked. *)
From Coq Require Import List Ascii String.
From Verif.Base Require Import Outcome Float64.
From Verif.Model Require Import MCsv MSettings.
Import ListNotations.
Local Open Scope string_scope.

Section Setting.
Variable T : Type.
Variable stof : list ascii -> stof_result.
Variable load_file : option (list ascii) -> list T -> outcome (list T).
Variable dim : string.

(** Lines 163-176; lists are empty after construction. *)
Record setting : Type := Setting { t_arena : list T; t_obstacle : list T; t_ends : list (list f64) }.
Definition new_setting : setting := Setting [] [] [].

(** loadEnvironment, lines 143-156. *)
Definition load_environment (files : string -> option (list ascii)) (prefix : string) (s : setting) : setting * outcome unit :=
  match load_file (files (prefix ++ "arena_config_" ++ dim ++ ".csv")) (t_arena s) with
  | Ok a =>
      let s1 := Setting a (t_obstacle s) (t_ends s) in
      match load_file (files (prefix ++ "obstacle_config_" ++ dim ++ ".csv")) (t_obstacle s1) with
      | Ok o =>
          let s2 := Setting (t_arena s1) o (t_ends s1) in
          match parse_csv stof (files (prefix ++ "end_points_" ++ dim ++ ".csv")) with
          | Ok e => (Setting (t_arena s2) (t_obstacle s2) e, Ok tt)
          | Throw x => (s2, Throw x)
          | UB => (s2, UB)
          end
      | Throw x => (s1, Throw x)
      | UB => (s1, UB)
      end
  | Throw x => (s, Throw x)
  | UB => (s, UB)
  end.

(** The methods that change the object: lines 111-123, 143. *)
Inductive call : Type :=
| SetArena (arena : list T) | SetObstacle (obstacle : list T) | SetEndPoints (endPoints : list (list f64))
| LoadEnvironment (files : string -> option (list ascii)) (prefix : string).
Definition do_call (c : call) (s : setting) : setting * outcome unit :=
  match c with
  | SetArena a => (Setting a (t_obstacle s) (t_ends s), Ok tt)
  | SetObstacle o => (Setting (t_arena s) o (t_ends s), Ok tt)
  | SetEndPoints e => (Setting (t_arena s) (t_obstacle s) e, Ok tt)
  | LoadEnvironment files prefix => load_environment files prefix s
  end.
(** A history in which the caller catches the exceptions of loading. *)
Fixpoint history (cs : list call) (s : setting) : outcome setting :=
  match cs with
  | [] => Ok s
  | c :: rest => match do_call c s with (_, UB) => UB | (s', _) => history rest s' end
  end.
End Setting.
Arguments Setting {T}. Arguments t_arena {T}. Arguments t_obstacle {T}. Arguments t_ends {T}. Arguments new_setting {T}.
Arguments load_environment {T}. Arguments SetArena {T}. Arguments SetObstacle {T}. Arguments SetEndPoints {T}. Arguments LoadEnvironment {T}.
Arguments do_call {T}. Arguments history {T}.

(** The two instances, lines 180-181. *)
Definition history2 stof num := history stof (load2_file stof num) "2D".
Definition history3 stof num := history stof (load3_file stof num) "3D".
Definition load_scene2 stof num := load_environment stof (load2_file stof num) "2D".
Definition load_scene3 stof num := load_environment stof (load3_file stof num) "3D".
