(** Model of src/test/util/ParsePlanningSettings.cpp and
    include/hrm/test/util/ParsePlanningSettings.h: the loaders of scenes and robots, the planning
    parameters derived from them, and the conversion of the resource files.

    The loaders are generic in the number type (the text is read by MCsv in binary64); parameters
    and conversion are in exact real arithmetic. *)
From Coq Require Import List Reals ZArith Arith Bool Ascii String.
From Verif.Base Require Import Outcome Float64.
From Verif.Model Require Import MGeom MMultiBody MCsv.
Import ListNotations.
Local Open Scope outcome_scope.

Section Load.
Variable A : Type.
(** The constructor arguments of SuperEllipse and SuperQuadrics. *)
Record sh2 : Type := Sh2 { h_axes : list A; h_eps : A; h_pos : list A; h_angle : A; h_num : nat }.
Record sh3 : Type := Sh3 { g_axes : list A; g_eps : list A; g_pos : list A; g_quat : A * A * A * A; g_num : nat }.

(** loadVectorGeometry, ParsePlanningSettings.cpp:6-16: unchecked reads; the target is cleared
    first. *)
Definition shape_row2 (num : nat) (c : list A) : outcome sh2 :=
  do a <- idx c 0; do b <- idx c 1; do e <- idx c 2; do x <- idx c 3; do y <- idx c 4; do t <- idx c 5;
  Ok (Sh2 [a; b] e [x; y] t num).
Definition load2 (num : nat) (rows : list (list A)) (object : list sh2) : outcome (list sh2) :=
  omap (shape_row2 num) rows.
(** Lines 27-39. *)
Definition shape_row3 (num : nat) (c : list A) : outcome sh3 :=
  do a <- idx c 0; do b <- idx c 1; do d <- idx c 2; do e1 <- idx c 3; do e2 <- idx c 4;
  do x <- idx c 5; do y <- idx c 6; do z <- idx c 7;
  do qw <- idx c 8; do qx <- idx c 9; do qy <- idx c 10; do qz <- idx c 11;
  Ok (Sh3 [a; b; d] [e1; e2] [x; y; z] (qw, qx, qy, qz) num).
Definition load3 (num : nat) (rows : list (list A)) (object : list sh3) : outcome (list sh3) :=
  omap (shape_row3 num) rows.

(** loadRobotMultiBody2D, lines 50-64, as (base, bodies added in order): [robotParts[0]] is
    unchecked. *)
Definition robot_parts2 (num : nat) (rows : list (list A)) : outcome (sh2 * list sh2) :=
  do ps <- load2 num rows [];
  do b <- idx ps 0;
  Ok (b, tl ps).
(** loadPreDefinedQuaternions, lines 85-106: a row is (x, y, z, w), unchecked.  [None]: the file
    name is "0"; the base keeps its (empty) list of samples. *)
Definition quat_samples (rows : option (list (list A))) : outcome (list (A * A * A * A)) :=
  match rows with
  | None => Ok []
  | Some qs => omap (fun s => do w <- idx s 3; do x <- idx s 0; do y <- idx s 1; do z <- idx s 2; Ok (w, x, y, z)) qs
  end.
(** loadRobotMultiBody3D, lines 66-83: the samples are given to robotParts[0] before the tree is
    built. *)
Definition robot_parts3 (num : nat) (rows : list (list A)) (qrows : option (list (list A))) : outcome (sh3 * list sh3 * list (A * A * A * A)) :=
  do ps <- load3 num rows [];
  do b <- idx ps 0;
  do qs <- quat_samples qrows;
  Ok (b, tl ps, qs).
End Load.
Arguments Sh2 {A}. Arguments h_axes {A}. Arguments h_eps {A}. Arguments h_pos {A}. Arguments h_angle {A}. Arguments h_num {A}.
Arguments Sh3 {A}. Arguments g_axes {A}. Arguments g_eps {A}. Arguments g_pos {A}. Arguments g_quat {A}. Arguments g_num {A}.
Arguments shape_row2 {A}. Arguments load2 {A}. Arguments shape_row3 {A}. Arguments load3 {A}.
Arguments robot_parts2 {A}. Arguments quat_samples {A}. Arguments robot_parts3 {A}.

(** The overloads taking a file name, lines 18-25 and 41-48; a file that cannot be opened is [None]. *)
Section Files.
Variable stof : list ascii -> stof_result.
Definition load2_file (num : nat) (file : option (list ascii)) (object : list (sh2 f64)) : outcome (list (sh2 f64)) :=
  do rows <- parse_csv stof file; load2 num rows object.
Definition load3_file (num : nat) (file : option (list ascii)) (object : list (sh3 f64)) : outcome (list (sh3 f64)) :=
  do rows <- parse_csv stof file; load3 num rows object.
(** PlannerSetting::loadEnvironment, ParsePlanningSettings.h:143-156: arena, obstacles, end points.  [files]: the
    contents of the file of a name. *)
Definition load_environment2 (num : nat) (files : string -> option (list ascii)) (prefix : string) : outcome (list (sh2 f64) * list (sh2 f64) * list (list f64)) :=
  do ar <- load2_file num (files (prefix ++ "arena_config_2D.csv")%string) [];
  do ob <- load2_file num (files (prefix ++ "obstacle_config_2D.csv")%string) [];
  do ep <- parse_csv stof (files (prefix ++ "end_points_2D.csv")%string);
  Ok (ar, ob, ep).
Definition load_environment3 (num : nat) (files : string -> option (list ascii)) (prefix : string) : outcome (list (sh3 f64) * list (sh3 f64) * list (list f64)) :=
  do ar <- load3_file num (files (prefix ++ "arena_config_3D.csv")%string) [];
  do ob <- load3_file num (files (prefix ++ "obstacle_config_3D.csv")%string) [];
  do ep <- parse_csv stof (files (prefix ++ "end_points_3D.csv")%string);
  Ok (ar, ob, ep).
End Files.

Local Open Scope R_scope.
(** The shape objects, with exact numbers. *)
Definition se_of (s : sh2 R) : sellipse := SE (h_axes s) (h_eps s) (h_pos s) (h_angle s) (h_num s).
Definition sq_of (s : sh3 R) : squad :=
  let '(w, x, y, z) := g_quat s in SQ (g_axes s) (g_eps s) (g_pos s) (Q w x y z) (g_num s).

(** ---- parameters ---- *)
(** The fields of PlannerParameter (PlanningRequest.h:13-36) that are set. *)
Record params : Type := Params { r_limits : list R; r_numSlice : Z; r_numLineX : Z; r_numLineY : Z }.

(** computeObstacleMinSize, ParsePlanningSettings.h:76-89. *)
Definition smaller (m : R) (l : list R) : R := fold_left (fun m a => if Rlt_dec a m then a else m) l m.
Definition min_size (obs : list (list R)) : outcome R :=
  do o <- at_ obs 0;
  do a <- at_ o 0;
  Ok (fold_left smaller obs a).

(** Conversion of a quotient of doubles: dividing by zero gives an infinity or NaN, whose conversion
    is undefined, as is that of a value out of range. *)
Definition trunc (x : R) : Z := if Rle_dec 0 x then Int_part x else (- Int_part (- x))%Z.
(** [static_cast<int>(x / y)], then conversion to size_t. *)
Definition int_quot (x y : R) : outcome Z :=
  if Req_EM_T y 0 then UB else
  let n := trunc (x / y) in
  if (Z.leb (- 2 ^ 31) n && Z.ltb n (2 ^ 31))%bool then Ok (n mod 2 ^ 64)%Z else UB.
(** [floor(x / y)] converted to size_t. *)
Definition floor_quot (x y : R) : outcome Z :=
  if Req_EM_T y 0 then UB else
  let n := Int_part (x / y) in
  if (Z.leb 0 n && Z.ltb n (2 ^ 64))%bool then Ok n else UB.

(** defineParameters for MultiBodyTree2D, ParsePlanningSettings.cpp:108-129.  The limits are
    set even if the count throws; after an exception the parameters are not tracked.  [arena] and [obs]: the
    lists of shapes. *)
Definition define_params2 (base : sellipse) (arena obs : list sellipse) (p : params) : outcome params :=
  do ar <- at_ arena 0;
  do a0 <- at_ (se_axes ar) 0; do r <- at_ (se_axes base) 0; do a1 <- at_ (se_axes ar) 1;
  let b0 := a0 - 3 / 2 * r in let b1 := a1 - 3 / 2 * r in
  do x <- at_ (se_pos ar) 0; do y <- at_ (se_pos ar) 1;
  let lim := [x - b0; x + b0; y - b1; y + b1] in
  if Z.eqb (r_numLineY p) 0 then
    do m <- min_size (map se_axes obs);
    do n <- int_quot b1 m;
    Ok (Params lim (r_numSlice p) (r_numLineX p) n)
  else Ok (Params lim (r_numSlice p) (r_numLineX p) (r_numLineY p)).
(** defineParameters for MultiBodyTree3D, lines 131-160; [nq]: number of quaternion samples of the
    robot's base. *)
Definition define_params3 (base : squad) (nq : nat) (arena obs : list squad) (p : params) : outcome params :=
  do ar <- at_ arena 0;
  do a0 <- at_ (sq_axes ar) 0; do r <- at_ (sq_axes base) 0; do a1 <- at_ (sq_axes ar) 1; do a2 <- at_ (sq_axes ar) 2;
  let b0 := a0 - 6 / 5 * r in let b1 := a1 - 6 / 5 * r in let b2 := a2 - 6 / 5 * r in
  do x <- at_ (sq_pos ar) 0; do y <- at_ (sq_pos ar) 1; do z <- at_ (sq_pos ar) 2;
  let lim := [x - b0; x + b0; y - b1; y + b1; z - b2; z + b2] in
  if (Z.eqb (r_numLineX p) 0 || Z.eqb (r_numLineY p) 0)%bool then
    do m <- min_size (map sq_axes obs);
    do nx <- floor_quot b0 m;
    do ny <- floor_quot b1 m;
    Ok (Params lim (Z.of_nat nq) nx ny)
  else Ok (Params lim (Z.of_nat nq) (r_numLineX p) (r_numLineY p)).

(** ---- resource files to configuration files ---- *)
(** [axis.normalize()]: Eigen leaves a zero vector as it is. *)
Definition normalize (v : v3) : v3 :=
  let z := dot3 v v in if Rlt_dec 0 z then V3r (x3 v / sqrt z) (y3 v / sqrt z) (z3 v / sqrt z) else v.
(** [Eigen::Quaterniond(Eigen::AngleAxisd(t, axis))]. *)
Definition angle_axis (t : R) (u : v3) : quat :=
  Q (cos (t / 2)) (sin (t / 2) * x3 u) (sin (t / 2) * y3 u) (sin (t / 2) * z3 u).

(** parseGeometricModel, lines 187-216, from the rows read to the rows written (the loop of line 210
    runs to [size() - 1], which wraps for an empty row, so that [at(0)] throws). *)
Definition convert_row (o : list R) : outcome (list R) :=
  if Nat.eqb (List.length o) 12 then
    do u <- at_ o 8; do v <- at_ o 9; do w <- at_ o 10; do t <- at_ o 11;
    let q := angle_axis t (normalize (V3r u v w)) in
    Ok (firstn 8 o ++ [qw q; qx q; qy q; qz q])
  else match o with [] => Throw OutOfRange | _ => Ok o end.
Definition convert_model (objects : list (list R)) : outcome (list (list R)) := omap convert_row objects.

(** parseStartGoalConfig, lines 218-264; any other dimension writes nothing. *)
Definition num_dof (robotType : string) : nat :=
  if String.eqb robotType "snake" then 9 else if String.eqb robotType "tree" then 12 else 6.
Definition convert_goal3 (robotType : string) (c : list R) : outcome (list R) :=
  do u <- at_ c 3; do v <- at_ c 4; do w <- at_ c 5; do t <- at_ c 6;
  let q := angle_axis t (normalize (V3r u v w)) in
  do c1 <- set_at c 3 (qw q); do c2 <- set_at c1 4 (qx q); do c3 <- set_at c2 5 (qy q); do c4 <- set_at c3 6 (qz q);
  omap (at_ c4) (seq 0 (S (num_dof robotType))).
Definition convert_goals (robotType dim : string) (configs : list (list R)) : outcome (list (list R)) :=
  do rs <- omap (fun c =>
    if String.eqb dim "2D" then do x <- at_ c 0; do y <- at_ c 1; do t <- at_ c 2; Ok [[x; y; t]]
    else if String.eqb dim "3D" then do r <- convert_goal3 robotType c; Ok [r]
    else Ok []) configs;
  Ok (List.concat rs).
