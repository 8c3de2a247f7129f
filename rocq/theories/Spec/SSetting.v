(** Specification for C105: what a setting shows after a history of calls. *)
From Coq Require Import List Ascii String.
From Verif.Base Require Import Outcome Float64.
From Verif.Model Require Import MCsv MSettings MSetting.
From Verif.Spec Require Import SUtil SSettings.
Import ListNotations.

Section Spec.
Variable T : Type.
Variable stof : list ascii -> stof_result.
(** The shape of a line's numbers, and how many of them it takes. *)
Variable row : list f64 -> T -> Prop.
Variable cols : nat.
Variable dim : string.

(** What the three getters show. *)
Inductive part : Type := Arena | Obstacles | EndPoints.
Inductive value : Type := Shapes (l : list T) | Points (l : list (list f64)).
Definition shows (s : setting T) (p : part) : value :=
  match p with Arena => Shapes (t_arena s) | Obstacles => Shapes (t_obstacle s) | EndPoints => Points (t_ends s) end.
Definition nothing (p : part) : value := match p with EndPoints => Points [] | _ => Shapes [] end.

(** The file of a part, and the parts whose files are read before. *)
Definition file_of (prefix : string) (p : part) : string :=
  (prefix ++ (match p with Arena => "arena_config_" | Obstacles => "obstacle_config_" | EndPoints => "end_points_" end) ++ dim ++ ".csv")%string.
Definition before (p : part) : list part := match p with Arena => [] | Obstacles => [Arena] | EndPoints => [Arena; Obstacles] end.

(** What a file gives for a part: one shape, or one list of numbers, per data line. *)
Definition gives (p : part) (file : option (list ascii)) (v : value) : Prop :=
  exists text, file = Some text /\ readable stof text /\
    match p with
    | EndPoints => v = Points (map (numbers_of stof) (data_lines text))
    | _ => exists l, v = Shapes l /\ Forall2 (fun line => row (numbers_of stof line)) (data_lines text) l
    end.
(** It cannot be opened, or one of its numbers is out of range; the exception. *)
Definition unreadable (file : option (list ascii)) (e : exn) : Prop :=
  file = None /\ e = InvalidArgument \/
  exists text l f, file = Some text /\ In l (data_lines text) /\ In f (line_fields l) /\ stof f = Range /\ e = OutOfRange.
(** It can be read, but a line has too few numbers for a shape. *)
Definition too_short (p : part) (file : option (list ascii)) : Prop :=
  p <> EndPoints /\ exists text l, file = Some text /\ readable stof text /\ In l (data_lines text) /\ List.length (numbers_of stof l) < cols.

(** The files of all parts read before p can be used. *)
Definition reaches (files : string -> option (list ascii)) (prefix : string) (p : part) : Prop :=
  forall q, In q (before p) -> exists v, gives q (files (file_of prefix q)) v.
(** The call changes the part p to v. *)
Definition writes (c : call T) (p : part) (v : value) : Prop :=
  match c with
  | SetArena a => p = Arena /\ v = Shapes a
  | SetObstacle o => p = Obstacles /\ v = Shapes o
  | SetEndPoints e => p = EndPoints /\ v = Points e
  | LoadEnvironment files prefix => reaches files prefix p /\ gives p (files (file_of prefix p)) v
  end.
End Spec.
Arguments Shapes {T}. Arguments Points {T}. Arguments shows {T}. Arguments nothing {T}. Arguments gives {T}. Arguments reaches {T}. Arguments writes {T}.
