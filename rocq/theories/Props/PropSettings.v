(** C85-C88: scene files, conversion of resource files, planning parameters
    (src/test/util/ParsePlanningSettings.cpp, include/hrm/test/util/ParsePlanningSettings.h). *)
From Coq Require Import List Reals ZArith Arith Bool Ascii String Lia Lra Psatz.
From Verif.Base Require Import Outcome Float64.
From Verif.Model Require Import MGeom MMultiBody MCsv MSettings MHRM2D MHRM3D.
From Verif.Spec Require Import SGeom SRigid SUtil SSettings.
From Verif.Proofs Require Import PGeom PRot PGeom3 PUtil PSettings PSettingsP PSettingsX.
Import ListNotations.
Local Open Scope R_scope.

(** ---- C85: scene and robot files ---- *)
(** One shape per data line, in order, from its first six (twelve) numbers; whatever the list held
    before is gone. *)
Theorem C85_planar_file : forall stof num text old r, readable stof text ->
  (load2_file stof num (Some text) old = Ok r <-> Forall2 (fun l => row_is2 num (numbers_of stof l)) (data_lines text) r).
Proof. exact file2_iff. Qed.
Print Assumptions C85_planar_file.
Theorem C85_spatial_file : forall stof num text old r, readable stof text ->
  (load3_file stof num (Some text) old = Ok r <-> Forall2 (fun l => row_is3 num (numbers_of stof l)) (data_lines text) r).
Proof. exact file3_iff. Qed.
Print Assumptions C85_spatial_file.

(** A line with too few numbers, in particular an empty line, is undefined behaviour. *)
Theorem C85_short_line_undefined : forall stof num text l, readable stof text -> In l (data_lines text) ->
  ((List.length (numbers_of stof l) < 6)%nat -> forall old, load2_file stof num (Some text) old = UB) /\
  ((List.length (numbers_of stof l) < 12)%nat -> forall old, load3_file stof num (Some text) old = UB).
Proof. intros stof num text l R I. split; intros L old; [exact (file2_short stof num text old l R I L)|exact (file3_short stof num text old l R I L)]. Qed.
Print Assumptions C85_short_line_undefined.
Theorem C85_empty_line_undefined : forall stof num text, readable stof text -> In [] (data_lines text) ->
  (forall old, load2_file stof num (Some text) old = UB) /\ (forall old, load3_file stof num (Some text) old = UB).
Proof.
  intros stof num text R I. destruct (C85_short_line_undefined stof num text [] R I) as [H1 H2]. rewrite (blank_numbers stof (proj1 R)) in *. cbn [List.length] in *.
  split; [apply H1|apply H2]; lia.
Qed.
Print Assumptions C85_empty_line_undefined.
(** A file that cannot be opened is an exception. *)
Theorem C85_missing_file_throws : forall stof num, (forall old, load2_file stof num None old = Throw InvalidArgument) /\ (forall old, load3_file stof num None old = Throw InvalidArgument).
Proof. intros stof num. split; intros old; reflexivity. Qed.
Print Assumptions C85_missing_file_throws.

(** A scene: arena, obstacles and end points of the three files. *)
Theorem C85_planar_scene : forall stof num files pre fa fo fe ar ob ep,
  files (pre ++ "arena_config_2D.csv")%string = Some fa -> files (pre ++ "obstacle_config_2D.csv")%string = Some fo -> files (pre ++ "end_points_2D.csv")%string = Some fe ->
  readable stof fa -> readable stof fo -> readable stof fe ->
  (load_environment2 stof num files pre = Ok (ar, ob, ep) <->
   Forall2 (fun l => row_is2 num (numbers_of stof l)) (data_lines fa) ar /\
   Forall2 (fun l => row_is2 num (numbers_of stof l)) (data_lines fo) ob /\ ep = map (numbers_of stof) (data_lines fe)).
Proof. exact env2_iff. Qed.
Print Assumptions C85_planar_scene.
Theorem C85_spatial_scene : forall stof num files pre fa fo fe ar ob ep,
  files (pre ++ "arena_config_3D.csv")%string = Some fa -> files (pre ++ "obstacle_config_3D.csv")%string = Some fo -> files (pre ++ "end_points_3D.csv")%string = Some fe ->
  readable stof fa -> readable stof fo -> readable stof fe ->
  (load_environment3 stof num files pre = Ok (ar, ob, ep) <->
   Forall2 (fun l => row_is3 num (numbers_of stof l)) (data_lines fa) ar /\
   Forall2 (fun l => row_is3 num (numbers_of stof l)) (data_lines fo) ob /\ ep = map (numbers_of stof) (data_lines fe)).
Proof. exact env3_iff. Qed.
Print Assumptions C85_spatial_scene.

(** Robots: the first row is the base, the others are the links in order; without rows, undefined. *)
Theorem C85_planar_robot : forall (A : Type) num (rows : list (list A)),
  (forall b ls, robot_parts2 num rows = Ok (b, ls) <-> robot_rows (row_is2 num) rows b ls) /\ (rows = [] -> robot_parts2 num rows = UB).
Proof. intros A num rows. split; [intros b ls; apply robot2_iff|intros ->; reflexivity]. Qed.
Print Assumptions C85_planar_robot.
(** Orientation samples are given as (x, y, z, w), the orientations of bodies as (w, x, y, z). *)
Theorem C85_spatial_robot : forall (A : Type) num (rows : list (list A)) qrows,
  (forall b ls qs, robot_parts3 num rows qrows = Ok (b, ls, qs) <->
     robot_rows (row_is3 num) rows b ls /\ match qrows with None => qs = [] | Some qr => Forall2 sample_is qr qs end) /\
  (rows = [] -> robot_parts3 num rows qrows = UB).
Proof. intros A num rows qrows. split; [intros b ls qs; apply robot3_iff|intros ->; reflexivity]. Qed.
Print Assumptions C85_spatial_robot.

(** A field that is not a number does not stay in its column: the shape may be made of the
    numbers of later fields. *)
Definition one_stof (g : list ascii) : stof_result :=
  match g with [c] => if Ascii.eqb c (ascii_of_nat 120) then Invalid else Value (fofZ (Z.of_nat (nat_of_ascii c))) | _ => Invalid end.
(* "a,x,b,c,d,e,f" *)
Definition shifted_line : list ascii := map ascii_of_nat [97; 44; 120; 44; 98; 44; 99; 44; 100; 44; 101; 44; 102]%nat.
Theorem C85_columns_by_field_refuted :
  ~ (forall stof num text l s, readable stof text -> data_lines text = [l] -> load2_file stof num (Some text) [] = Ok [s] ->
       forall g x, nth_error (line_fields l) 2 = Some g -> stof g = Value x -> h_eps s = x).
Proof.
  intros H. assert (R : readable one_stof shifted_line).
  { split; [reflexivity|]. intros l g _ _. unfold one_stof. destruct g as [|c [|? ?]]; try discriminate. destruct (Ascii.eqb c (ascii_of_nat 120)); discriminate. }
  assert (D : data_lines shifted_line = [shifted_line]) by (vm_compute; reflexivity).
  assert (F : line_fields shifted_line = map (fun n => [ascii_of_nat n]) [97; 120; 98; 99; 100; 101; 102]%nat) by (vm_compute; reflexivity).
  assert (V : forall n, n = 97%nat \/ n = 98%nat \/ n = 99%nat \/ n = 100%nat \/ n = 101%nat \/ n = 102%nat -> one_stof [ascii_of_nat n] = Value (fofZ (Z.of_nat n))).
  { intros n Hn. unfold one_stof. assert (Q : Ascii.eqb (ascii_of_nat n) (ascii_of_nat 120) = false /\ nat_of_ascii (ascii_of_nat n) = n) by (decompose [or] Hn; subst; split; reflexivity).
    destruct Q as [-> ->]. reflexivity. }
  assert (N : numbers_of one_stof shifted_line = [fofZ (Z.of_nat 97); fofZ (Z.of_nat 98); fofZ (Z.of_nat 99); fofZ (Z.of_nat 100); fofZ (Z.of_nat 101); fofZ (Z.of_nat 102)]).
  { unfold numbers_of. rewrite F. cbn [map flat_map]. rewrite !V by tauto. reflexivity. }
  assert (L : load2_file one_stof 0 (Some shifted_line) [] =
    Ok [Sh2 [fofZ (Z.of_nat 97); fofZ (Z.of_nat 98)] (fofZ (Z.of_nat 99)) [fofZ (Z.of_nat 100); fofZ (Z.of_nat 101)] (fofZ (Z.of_nat 102)) 0%nat]).
  { apply (file2_iff _ _ _ _ _ R). rewrite D. constructor; [|constructor]. rewrite N. do 7 eexists. split; reflexivity. }
  specialize (H one_stof 0%nat shifted_line shifted_line _ R D L [ascii_of_nat 98] (fofZ (Z.of_nat 98))). cbn [h_eps] in H.
  rewrite F in H. specialize (H eq_refl (V 98%nat (or_intror (or_introl eq_refl)))).
  assert (C : feqb (fofZ (Z.of_nat 99)) (fofZ (Z.of_nat 98)) = false) by (vm_compute; reflexivity). rewrite H in C.
  assert (C' : feqb (fofZ (Z.of_nat 98)) (fofZ (Z.of_nat 98)) = true) by (vm_compute; reflexivity). rewrite C' in C. discriminate C.
Qed.
Print Assumptions C85_columns_by_field_refuted.

(** Non-vacuity: the line above is readable and loads; an empty line is a data line; a robot of two
    rows. *)
Example C85_witness : readable one_stof shifted_line /\ (exists s, load2_file one_stof 5 (Some shifted_line) [] = Ok [s]) /\
  In [] (data_lines (map ascii_of_nat [49; 10; 10; 50]%nat)) /\
  robot_parts2 3 [[1; 2; 3; 4; 5; 6; 7]; [10; 20; 30; 40; 50; 60]]%nat = Ok (Sh2 [1; 2] 3 [4; 5] 6 3, [Sh2 [10; 20] 30 [40; 50] 60 3])%nat /\
  quat_samples (Some [[1; 2; 3; 4]])%nat = Ok [(4, 1, 2, 3)]%nat.
Proof.
  assert (R : readable one_stof shifted_line).
  { split; [reflexivity|]. intros l g _ _. unfold one_stof. destruct g as [|c [|? ?]]; try discriminate. destruct (Ascii.eqb c (ascii_of_nat 120)); discriminate. }
  split; [exact R|]. split; [|split; [vm_compute; tauto|split; reflexivity]].
  assert (D : data_lines shifted_line = [shifted_line]) by (vm_compute; reflexivity).
  assert (L : List.length (numbers_of one_stof shifted_line) = 6%nat) by (vm_compute; reflexivity).
  destruct (numbers_of one_stof shifted_line) as [|a [|b [|e [|x [|y [|t [|? ?]]]]]]] eqn:N; try discriminate L.
  exists (Sh2 [a; b] e [x; y] t 5%nat). apply (file2_iff _ _ _ _ _ R). rewrite D. constructor; [|constructor]. rewrite N. do 7 eexists. split; reflexivity.
Qed.

(** ---- C86: conversion of resource files ---- *)
(** A row with axis and angle gives, once converted and loaded, the body turned by that angle about
    that axis. *)
Theorem C86_turned_about_the_axis : forall num a b d e1 e2 x y z w t, w <> V3r 0 0 0 ->
  exists o s u, convert_row [a; b; d; e1; e2; x; y; z; x3 w; y3 w; z3 w; t] = Ok o /\ shape_row3 num o = Ok s /\ direction w u /\
    g_axes s = [a; b; d] /\ g_eps s = [e1; e2] /\ g_pos s = [x; y; z] /\
    unit_quat (sq_quat (sq_of s)) /\ forall v, turn (sq_quat (sq_of s)) v = turned u t v.
Proof.
  intros num a b d e1 e2 x y z w t N. rewrite convert12. cbv zeta. replace (V3r (x3 w) (y3 w) (z3 w)) with w by (destruct w; reflexivity).
  pose proof (normalize_dir w N) as D. set (u := normalize w) in *. clearbody u. pose proof (angle_axis_unit t u (proj1 D)) as U.
  eexists. exists (Sh3 [a; b; d] [e1; e2] [x; y; z] (qw (angle_axis t u), qx (angle_axis t u), qy (angle_axis t u), qz (angle_axis t u)) num), u.
  split; [reflexivity|]. split; [reflexivity|]. split; [exact D|]. split; [reflexivity|]. split; [reflexivity|]. split; [reflexivity|].
  unfold sq_of. cbn [g_quat sq_quat]. change (Q (qw (angle_axis t u)) (qx (angle_axis t u)) (qy (angle_axis t u)) (qz (angle_axis t u))) with (angle_axis t u).
  split; [exact U|]. intros v. rewrite (turn_rotm _ v U). exact (angle_axis_turned t u v (proj1 D)).
Qed.
Print Assumptions C86_turned_about_the_axis.
(** The file is written with six digits: a point of the body whose coordinates are at most m is off
    by at most 3/10000 of m in each coordinate. *)
Theorem C86_six_digits : forall rt num a b d e1 e2 x y z w t o, six_digits rt -> w <> V3r 0 0 0 ->
  convert_row [a; b; d; e1; e2; x; y; z; x3 w; y3 w; z3 w; t] = Ok o ->
  exists s u, shape_row3 num (map rt o) = Ok s /\ direction w u /\
    forall v m, Rabs (x3 v) <= m -> Rabs (y3 v) <= m -> Rabs (z3 v) <= m ->
      let e := sub3 (app3 (rotm (sq_quat (sq_of s))) v) (turned u t v) in
      Rabs (x3 e) <= 3 / 10000 * m /\ Rabs (y3 e) <= 3 / 10000 * m /\ Rabs (z3 e) <= 3 / 10000 * m.
Proof.
  intros rt num a b d e1 e2 x y z w t o S N H. rewrite convert12 in H. cbv zeta in H. replace (V3r (x3 w) (y3 w) (z3 w)) with w in H by (destruct w; reflexivity).
  apply ok_inj_ in H. pose proof (normalize_dir w N) as D. set (u := normalize w) in *. clearbody u. pose proof (angle_axis_unit t u (proj1 D)) as U.
  subst o. cbn [map]. eexists. exists u. split; [reflexivity|]. split; [exact D|]. intros v m X Y Z. cbv zeta. unfold sq_of. cbn [g_quat sq_quat].
  rewrite <- (angle_axis_turned t u v (proj1 D)). exact (rounded_turn rt _ v m S U X Y Z).
Qed.
Print Assumptions C86_six_digits.
(** A zero axis is converted to "not turned", whatever the angle. *)
Theorem C86_zero_axis_not_turned : forall num a b d e1 e2 x y z t,
  exists o s, convert_row [a; b; d; e1; e2; x; y; z; 0; 0; 0; t] = Ok o /\ shape_row3 num o = Ok s /\ forall v, app3 (rotm (sq_quat (sq_of s))) v = v.
Proof.
  intros num a b d e1 e2 x y z t. rewrite convert12. cbv zeta. do 2 eexists. split; [reflexivity|]. split; [reflexivity|]. intros v. unfold sq_of. cbn [g_quat sq_quat].
  change (Q (qw (angle_axis t (normalize (V3r 0 0 0)))) (qx (angle_axis t (normalize (V3r 0 0 0)))) (qy (angle_axis t (normalize (V3r 0 0 0)))) (qz (angle_axis t (normalize (V3r 0 0 0)))))
    with (angle_axis t (normalize (V3r 0 0 0))). rewrite (zero_axis_identity t). unfold app3, id3, dot3. destruct v as [p q r]. cbn [r0 r1 r2 x3 y3 z3]. f_equal; ring.
Qed.
Print Assumptions C86_zero_axis_not_turned.
(** Only rows of exactly twelve numbers are converted; others are copied: with one more column the
    axis and angle themselves are read as the quaternion. *)
Theorem C86_other_rows_copied : forall o, o <> [] -> List.length o <> 12%nat -> convert_row o = Ok o.
Proof. intros o N L. exact (convert_other o L N). Qed.
Print Assumptions C86_other_rows_copied.
Theorem C86_extra_column_not_converted : forall num a b d e1 e2 x y z u v w t c rest,
  exists s, (exists o, convert_row ([a; b; d; e1; e2; x; y; z; u; v; w; t] ++ c :: rest) = Ok o /\ shape_row3 num o = Ok s) /\ sq_quat (sq_of s) = Q u v w t.
Proof.
  intros num a b d e1 e2 x y z u v w t c rest. eexists. split.
  - eexists. split; [apply convert_other; [cbn [app List.length]; lia|discriminate]|]. reflexivity.
  - reflexivity.
Qed.
Print Assumptions C86_extra_column_not_converted.
(** An empty row throws. *)
Theorem C86_empty_row_throws : forall rows, In [] rows -> convert_model rows = Throw OutOfRange.
Proof. exact convert_blank. Qed.
Print Assumptions C86_empty_row_throws.
Theorem C86_one_row_per_row : forall rows, ~ In [] rows -> exists os, convert_model rows = Ok os /\ Forall2 (fun r o => convert_row r = Ok o) rows os.
Proof.
  intros rows N. assert (X : exists os, Forall2 (fun r o => convert_row r = Ok o) rows os).
  { induction rows as [|r rows IH]; [exists []; constructor|]. destruct IH as [os F]; [intros I; apply N; right; exact I|].
    destruct (convert_row_ok r) as [o E]; [intros ->; apply N; left; reflexivity|]. exists (o :: os). constructor; assumption. }
  destruct X as [os F]. exists os. split; [apply omap_ok_f2; exact F|exact F].
Qed.
Print Assumptions C86_one_row_per_row.
(** Converting a converted file changes the orientation. *)
Theorem C86_converting_twice_refuted :
  ~ (forall r o o' s s', List.length r = 12%nat -> convert_row r = Ok o -> convert_row o = Ok o' -> shape_row3 0 o = Ok s -> shape_row3 0 o' = Ok s' ->
       forall v, app3 (rotm (sq_quat (sq_of s))) v = app3 (rotm (sq_quat (sq_of s'))) v).
Proof.
  intros H. assert (N : V3r 0 0 1 <> V3r 0 0 0) by (intros E; injection E; lra).
  assert (Z : normalize (V3r 0 0 1) = V3r 0 0 1).
  { unfold normalize, dot3. cbn [x3 y3 z3]. destruct (Rlt_dec 0 _) as [_|L]; [|exfalso; apply L; lra]. replace (0 * 0 + 0 * 0 + 1 * 1) with 1 by ring. rewrite sqrt_1. f_equal; field. }
  assert (C1' : convert_row [1; 1; 1; 1; 1; 0; 0; 0; 0; 0; 1; PI] = Ok [1; 1; 1; 1; 1; 0; 0; 0; 0; 0; 0; 1]).
  { rewrite convert12. cbv zeta. rewrite Z. unfold angle_axis. cbn [qw qx qy qz x3 y3 z3]. rewrite cos_PI2, sin_PI2. do 9 f_equal. repeat f_equal; ring. }
  destruct (C86_zero_axis_not_turned 0 1 1 1 1 1 0 0 0 1) as (o' & s' & C2 & S2 & I2).
  specialize (H [1; 1; 1; 1; 1; 0; 0; 0; 0; 0; 1; PI] _ _ _ _ eq_refl C1' C2 eq_refl S2 (V3r 1 0 0)). rewrite I2 in H. unfold sq_of in H. cbn [g_quat sq_quat] in H. unfold app3, rotm, dot3 in H. cbn [qw qx qy qz r0 r1 r2 x3 y3 z3] in H.
  injection H as H _ _. lra.
Qed.
Print Assumptions C86_converting_twice_refuted.

(** Start and goal: position, the quaternion of axis and angle, then the joints; the number of joints
    is chosen by the name of the robot: three for "snake", six for "tree", none for all others. *)
Theorem C86_goals_converted : forall ty cs,
  (forall rs, convert_goals ty "3D" cs = Ok rs -> Forall2 (goal_is3 (joints_of ty)) cs rs) /\
  (Forall (fun c => 7 + joints_of ty <= List.length c)%nat cs -> exists rs, convert_goals ty "3D" cs = Ok rs) /\
  (forall c, In c cs -> (List.length c < 7 + joints_of ty)%nat -> convert_goals ty "3D" cs = Throw OutOfRange).
Proof. intros ty cs. split; [intros rs; apply goals3_spec|]. split; [apply goals3_ok|intros c; apply goals3_short]. Qed.
Print Assumptions C86_goals_converted.
Theorem C86_planar_goals : forall ty cs rs, convert_goals ty "2D" cs = Ok rs <-> Forall2 goal_is2 cs rs.
Proof. exact goals2_iff. Qed.
Print Assumptions C86_planar_goals.
(** Another dimension: an empty file and no error. *)
Theorem C86_other_dimension_writes_nothing : forall ty dim cs, dim <> "2D"%string -> dim <> "3D"%string -> convert_goals ty dim cs = Ok [].
Proof.
  intros ty dim cs N2 N3. unfold convert_goals. apply String.eqb_neq in N2. apply String.eqb_neq in N3. rewrite N2, N3. induction cs as [|c cs IH]; [reflexivity|].
  cbn [omap]. destruct (omap _ cs) as [rs| |]; cbn [obind] in *; try discriminate IH. injection IH as IH. cbn [List.concat app]. rewrite IH. reflexivity.
Qed.
Print Assumptions C86_other_dimension_writes_nothing.
Example C86_witness : V3r 0 0 1 <> V3r 0 0 0 /\ six_digits (fun x => x) /\ (6 <= List.length [0; 0; 0; 0; 0; 0])%nat /\ joints_of "tree" = 6%nat /\ joints_of "rigid" = 0%nat.
Proof.
  split; [intros E; injection E; lra|]. split; [intros x; rewrite Rminus_diag_eq by reflexivity; rewrite Rabs_R0; pose proof (Rabs_pos x); lra|]. split; [cbn; lia|split; reflexivity].
Qed.

(** ---- C87: limits ---- *)
(** The limits are the arena's box shrunk by 3/2 (planar) or 6/5 (spatial) of the base's FIRST
    semi-axis. *)
Theorem C87_limits : forall base ar rest obs p p' r b A0 A1 X Y x y, se_axes base = r :: b -> se_axes ar = [A0; A1] -> se_pos ar = [X; Y] ->
  define_params2 base (ar :: rest) obs p = Ok p' ->
  (within2 p' x y <-> Rabs (x - X) <= A0 - 3 / 2 * r /\ Rabs (y - Y) <= A1 - 3 / 2 * r).
Proof. exact within2_iff. Qed.
Print Assumptions C87_limits.
Theorem C87_spatial_limits : forall base nq ar rest obs p p' r b A0 A1 A2 X Y Z v, sq_axes base = r :: b -> sq_axes ar = [A0; A1; A2] -> sq_pos ar = [X; Y; Z] ->
  define_params3 base nq (ar :: rest) obs p = Ok p' ->
  (within3 p' v <-> Rabs (x3 v - X) <= A0 - 6 / 5 * r /\ Rabs (y3 v - Y) <= A1 - 6 / 5 * r /\ Rabs (z3 v - Z) <= A2 - 6 / 5 * r).
Proof. exact within3_iff. Qed.
Print Assumptions C87_spatial_limits.
(** They keep the robot's base in the arena's box in every orientation exactly if no other semi-axis
    exceeds 3/2 (6/5) of the first. *)
Theorem C87_base_stays_in_box : forall m ar rest obs p p' a b A0 A1 X Y,
  se_axes (mb2_base m) = [a; b] -> se_eps (mb2_base m) = 1 -> 0 < a -> 0 < b -> se_axes ar = [A0; A1] -> se_pos ar = [X; Y] ->
  define_params2 (mb2_base m) (ar :: rest) obs p = Ok p' -> 3 / 2 * a <= A0 -> 3 / 2 * a <= A1 ->
  ((forall g q, rigid2 g -> within2 p' (x2 (snd g)) (y2 (snd g)) -> in2 (body_of2 (mb2_base (robot_tf2 m g))) q -> in_box2 ar q) <-> b <= 3 / 2 * a).
Proof. exact robot2_in_box. Qed.
Print Assumptions C87_base_stays_in_box.
Theorem C87_spatial_base_stays_in_box : forall base nq ar rest obs p p' a b c A0 A1 A2 X Y Z,
  sq_axes base = [a; b; c] -> 0 < a -> 0 < b -> 0 < c -> sq_axes ar = [A0; A1; A2] -> sq_pos ar = [X; Y; Z] ->
  define_params3 base nq (ar :: rest) obs p = Ok p' -> 6 / 5 * a <= A0 -> 6 / 5 * a <= A1 -> 6 / 5 * a <= A2 ->
  ((forall v o q, within3 p' v -> unit_quat o -> in3 (ellipsoid_at a b c o v) q -> in_box3 ar q) <-> b <= 6 / 5 * a /\ c <= 6 / 5 * a).
Proof. exact base3_iff. Qed.
Print Assumptions C87_spatial_base_stays_in_box.
(** If the arena is narrower than that, no position is within the limits. *)
Theorem C87_limits_can_be_empty : forall base ar rest obs p p' r b A0 A1 X Y, se_axes base = r :: b -> se_axes ar = [A0; A1] -> se_pos ar = [X; Y] ->
  define_params2 base (ar :: rest) obs p = Ok p' -> ((exists x y, within2 p' x y) <-> 3 / 2 * r <= A0 /\ 3 / 2 * r <= A1).
Proof.
  intros base ar rest obs p p' r b A0 A1 X Y E1 E2 E3 H. pose proof (fun x y => within2_iff _ _ _ _ _ _ _ _ _ _ _ _ x y E1 E2 E3 H) as W. split.
  - intros (x & y & I). apply W in I. pose proof (Rabs_pos (x - X)). pose proof (Rabs_pos (y - Y)). lra.
  - intros [L M]. exists X, Y. apply W. rewrite !abs_le. lra.
Qed.
Print Assumptions C87_limits_can_be_empty.

Definition disc (r x y : R) : sellipse := SE [r; r] 1 [x; y] 0 10.
Definition asked : params := Params [] 10 0 5.
Definition got : params := Params [0 - (10 - 3 / 2 * 1); 0 + (10 - 3 / 2 * 1); 0 - (10 - 3 / 2 * 1); 0 + (10 - 3 / 2 * 1)] 10 0 5.
Lemma got_eq : define_params2 (disc 1 0 0) [disc 10 0 0] [] asked = Ok got.
Proof. reflexivity. Qed.
Lemma got_within x y : - (17 / 2) <= x <= 17 / 2 -> - (17 / 2) <= y <= 17 / 2 -> within2 got x y.
Proof. intros X Y. do 4 eexists. split; [reflexivity|]. lra. Qed.
(** Links are not taken into account. *)
Theorem C87_links_stay_in_box_refuted :
  ~ (forall base link m ar obs p p', robot_ellipse base -> robot_ellipse link -> add_body2 (new_mb2 base) link = Ok m ->
       define_params2 (mb2_base m) [ar] obs p = Ok p' ->
       forall g s q, rigid2 g -> within2 p' (x2 (snd g)) (y2 (snd g)) -> In s (bodies2 (robot_tf2 m g)) -> in2 (body_of2 s) q -> in_box2 ar q).
Proof.
  intros H. assert (RE : forall x y, robot_ellipse (disc 1 x y)) by (intros x y; split; [reflexivity|]; exists 1, 1, x, y; split; [reflexivity|]; split; [lra|]; split; [lra|reflexivity]).
  assert (I2 : rigid2 (id2, V2 (17 / 2) 0)).
  { unfold rigid2, rotation2, orthogonal2, mul2, tr2, id2, determinant2. cbn [fst m00 m01 m10 m11]. repeat split; try (f_equal; ring); ring. }
  specialize (H (disc 1 0 0) (disc 1 3 0) _ (disc 10 0 0) [] asked got (RE _ _) (RE _ _) eq_refl got_eq (id2, V2 (17 / 2) 0)).
  specialize (H (pose2 (disc 1 3 0) (comp2 (id2, V2 (17 / 2) 0) (rot2 0, V2 3 0))) (V2 (23 / 2) 0) I2 (got_within (17 / 2) 0 ltac:(lra) ltac:(lra))).
  specialize (H (or_intror (or_introl eq_refl))). rewrite (posed_body (disc 1 3 0) _ 1 1 eq_refl eq_refl) in H.
  unfold comp2, id2, app2, add2 in H. cbn [fst snd m00 m01 m10 m11 x2 y2] in H.
  match type of H with in2 (ellipse_at 1 1 ?t ?c) _ -> _ => assert (I : in2 (ellipse_at 1 1 t c) (V2 (23 / 2) 0)); [|specialize (H I)] end.
  { unfold in2, level2, ellipse_at. cbn [ba bb be]. replace (2 / 1) with 2 by field. rewrite !ppow_2. unfold along, across. cbn [bc bt x2 y2].
    match goal with |- ?l <= 1 => replace l with 0; [lra|field] end. }
  unfold in_box2, disc in H. cbn [x2 y2 se_axes se_pos nth] in H. destruct H as [H _]. rewrite abs_le in H. lra.
Qed.
Print Assumptions C87_links_stay_in_box_refuted.
(** In an elliptical arena a position within the limits can be outside the arena. *)
Theorem C87_within_limits_in_arena_refuted :
  ~ (forall base ar obs p p' x y, robot_ellipse base -> robot_ellipse ar -> define_params2 base [ar] obs p = Ok p' -> within2 p' x y -> in2 (body_of2 ar) (V2 x y)).
Proof.
  intros H. assert (RE : forall r, 0 < r -> robot_ellipse (disc r 0 0)) by (intros r P; split; [reflexivity|]; exists r, r, 0, 0; repeat split; assumption).
  specialize (H _ _ _ _ _ (17 / 2) (17 / 2) (RE 1 ltac:(lra)) (RE 10 ltac:(lra)) got_eq (got_within (17 / 2) (17 / 2) ltac:(lra) ltac:(lra))).
  unfold in2, level2, body_of2, disc in H. cbn [ba bb be se_axes se_eps se_pos se_angle nth] in H. replace (2 / 1) with 2 in H by field. rewrite !ppow_2 in H. unfold along, across in H. cbn [bc bt x2 y2] in H.
  rewrite cos_0, sin_0 in H. lra.
Qed.
Print Assumptions C87_within_limits_in_arena_refuted.
Example C87_witness : define_params2 (disc 1 0 0) [disc 10 0 0] [] asked = Ok got /\ 1 <= 3 / 2 * 1 /\ 3 / 2 * 1 <= 10 /\
  (exists p', define_params3 (SQ [1; 1; 1] [1; 1] [0; 0; 0] (Q 1 0 0 0) 5) 60 [SQ [10; 10; 10] [1; 1] [0; 0; 0] (Q 1 0 0 0) 5] [] (Params [] 0 4 4) = Ok p').
Proof. split; [exact got_eq|]. split; [lra|]. split; [lra|]. eexists. reflexivity. Qed.

(** ---- C88: line counts ---- *)
(** A given count is kept; with none given, and h the half-height of the limits and m the smallest
    semi-axis of any obstacle: n m <= h < (n + 1) m. *)
Theorem C88_planar_count : forall base ar rest obs p p' r b A0 A1 X Y, se_axes base = r :: b -> se_axes ar = [A0; A1] -> se_pos ar = [X; Y] ->
  define_params2 base (ar :: rest) obs p = Ok p' ->
  r_numSlice p' = r_numSlice p /\ r_numLineX p' = r_numLineX p /\
  (r_numLineY p <> 0%Z -> r_numLineY p' = r_numLineY p) /\
  (r_numLineY p = 0%Z -> exists m, smallest (map se_axes obs) m /\
     (0 < m -> 3 / 2 * r <= A1 -> (0 <= r_numLineY p' < 2 ^ 31)%Z /\ IZR (r_numLineY p') * m <= A1 - 3 / 2 * r < (IZR (r_numLineY p') + 1) * m)).
Proof.
  intros base ar rest obs p p' r b A0 A1 X Y E1 E2 E3 H. destruct (params2_inv _ _ _ _ _ _ _ _ _ _ _ _ E1 E2 E3 H) as (_ & S & LX & K & C).
  split; [exact S|]. split; [exact LX|]. split; [exact K|]. intros Z0. destruct (C Z0) as (m & M & Q0). exists m. split; [apply min_size_spec; exact M|].
  intros P L. destruct (int_quot_pos (A1 - 3 / 2 * r) m _ P ltac:(lra) Q0) as [A B]. split; [exact B|exact A].
Qed.
Print Assumptions C88_planar_count.
(** The sweep lines of that count are more than 2 m apart: the thinnest obstacle fits between any two
    neighbouring lines without touching them; *)
Theorem C88_thin_obstacles_between_lines : forall base ar rest obs p p' r b A0 A1 X Y m i, se_axes base = r :: b -> se_axes ar = [A0; A1] -> se_pos ar = [X; Y] ->
  define_params2 base (ar :: rest) obs p = Ok p' -> r_numLineY p = 0%Z -> smallest (map se_axes obs) m -> 0 < m -> 3 / 2 * r <= A1 ->
  (2 <= r_numLineY p')%Z -> (0 <= i < r_numLineY p' - 1)%Z ->
  let line := sweep_at (Y - (A1 - 3 / 2 * r)) (Y + (A1 - 3 / 2 * r)) (r_numLineY p') in
  exists y, line i < y - m /\ y + m < line (i + 1)%Z.
Proof.
  intros base ar rest obs p p' r b A0 A1 X Y m i E1 E2 E3 H Z0 SM P L N I line. destruct (C88_planar_count _ _ _ _ _ _ _ _ _ _ _ _ E1 E2 E3 H) as (_ & _ & _ & C).
  destruct (C Z0) as (m' & SM' & K). rewrite (smallest_unique _ _ _ SM' SM) in K. destruct (K P L) as (_ & B1' & _). pose proof (wide_gap Y (A1 - 3 / 2 * r) m _ i P N B1') as G.
  fold line in G. exists ((line i + line (i + 1)%Z) / 2). lra.
Qed.
Print Assumptions C88_thin_obstacles_between_lines.
(** but a band of half-height m + 2 m / (n - 1) that begins within the limits contains a line. *)
Theorem C88_taller_bands_are_swept : forall base ar rest obs p p' r b A0 A1 X Y m y g, se_axes base = r :: b -> se_axes ar = [A0; A1] -> se_pos ar = [X; Y] ->
  define_params2 base (ar :: rest) obs p = Ok p' -> r_numLineY p = 0%Z -> smallest (map se_axes obs) m -> 0 < m -> 3 / 2 * r <= A1 ->
  (2 <= r_numLineY p')%Z -> m + 2 * m / (IZR (r_numLineY p') - 1) <= g ->
  let lo := Y - (A1 - 3 / 2 * r) in let hi := Y + (A1 - 3 / 2 * r) in
  lo <= y - g <= hi -> exists i, (0 <= i < r_numLineY p')%Z /\ y - g <= sweep_at lo hi (r_numLineY p') i <= y + g.
Proof.
  intros base ar rest obs p p' r b A0 A1 X Y m y g E1 E2 E3 H Z0 SM P L N G lo hi B. destruct (C88_planar_count _ _ _ _ _ _ _ _ _ _ _ _ E1 E2 E3 H) as (_ & _ & _ & C).
  destruct (C Z0) as (m' & SM' & K). rewrite (smallest_unique _ _ _ SM' SM) in K. destruct (K P L) as (_ & B1'). exact (band_swept Y _ m _ y g P N B1' G B).
Qed.
Print Assumptions C88_taller_bands_are_swept.
(** Arenas too small for the robot: a count of no lines, with which planning is undefined, or a
    negative count converted to an unsigned number beyond 2^63. *)
Theorem C88_small_arena_no_lines : forall base ar rest obs p r b A0 A1 X Y m, se_axes base = r :: b -> se_axes ar = [A0; A1] -> se_pos ar = [X; Y] ->
  r_numLineY p = 0%Z -> min_size (map se_axes obs) = Ok m -> 0 < m ->
  (- m < A1 - 3 / 2 * r < m -> exists p', define_params2 base (ar :: rest) obs p = Ok p' /\ r_numLineY p' = 0%Z) /\
  (A1 - 3 / 2 * r <= - m -> forall p', define_params2 base (ar :: rest) obs p = Ok p' -> (2 ^ 64 - 2 ^ 31 <= r_numLineY p' < 2 ^ 64)%Z).
Proof.
  intros base ar rest obs p r b A0 A1 X Y m E1 E2 E3 Z0 M P. split.
  - intros B. unfold define_params2. cbn [at_ nth_error obind]. rewrite E1, E2, E3. cbn [at_ nth_error obind]. cbv zeta. rewrite Z0. cbn [Z.eqb]. rewrite M. cbn [obind].
    rewrite (int_quot_small (A1 - 3 / 2 * r) m P B). cbn [obind]. eexists. split; [reflexivity|reflexivity].
  - intros B p' H. destruct (params2_inv _ _ _ _ _ _ _ _ _ _ _ _ E1 E2 E3 H) as (_ & _ & _ & _ & C). destruct (C Z0) as (m' & M' & Q0). rewrite M in M'. apply ok_inj_ in M'. subst m'.
    exact (int_quot_neg _ m _ P B Q0).
Qed.
Print Assumptions C88_small_arena_no_lines.
Theorem C88_no_lines_undefined : forall (E : env) connect rounds robot fsr nx nA nO (s : MHRM2D.state E),
  construct E robot fsr nx 0 nA nO = Ok s -> (0 < e_numSlice E)%nat -> plan E connect rounds s = UB.
Proof. exact planar_no_lines. Qed.
Print Assumptions C88_no_lines_undefined.
(** No obstacles: std::out_of_range if a count has to be computed, although limits and counts could
    be given. *)
Theorem C88_no_obstacles : forall base ar rest p r b A0 A1 X Y, se_axes base = r :: b -> se_axes ar = [A0; A1] -> se_pos ar = [X; Y] ->
  (r_numLineY p = 0%Z -> define_params2 base (ar :: rest) [] p = Throw OutOfRange) /\
  (r_numLineY p <> 0%Z -> exists p', define_params2 base (ar :: rest) [] p = Ok p').
Proof.
  intros base ar rest p r b A0 A1 X Y E1 E2 E3. unfold define_params2. cbn [at_ nth_error obind]. rewrite E1, E2, E3. cbn [at_ nth_error obind]. cbv zeta. split.
  - intros ->. reflexivity.
  - intros N. apply Z.eqb_neq in N. rewrite N. eexists. reflexivity.
Qed.
Print Assumptions C88_no_obstacles.
(** Space: both counts are computed if either is missing (a given one is overwritten), and the number
    of slices is the number of orientation samples. *)
Theorem C88_spatial_counts : forall base nq ar rest obs p p' r b A0 A1 A2 X Y Z, sq_axes base = r :: b -> sq_axes ar = [A0; A1; A2] -> sq_pos ar = [X; Y; Z] ->
  define_params3 base nq (ar :: rest) obs p = Ok p' ->
  r_numSlice p' = Z.of_nat nq /\
  (r_numLineX p <> 0%Z /\ r_numLineY p <> 0%Z -> r_numLineX p' = r_numLineX p /\ r_numLineY p' = r_numLineY p) /\
  (r_numLineX p = 0%Z \/ r_numLineY p = 0%Z -> exists m, smallest (map sq_axes obs) m /\
     (0 < m -> 6 / 5 * r <= A0 /\ 6 / 5 * r <= A1 /\
        IZR (r_numLineX p') * m <= A0 - 6 / 5 * r < (IZR (r_numLineX p') + 1) * m /\ IZR (r_numLineY p') * m <= A1 - 6 / 5 * r < (IZR (r_numLineY p') + 1) * m)).
Proof.
  intros base nq ar rest obs p p' r b A0 A1 A2 X Y Z E1 E2 E3 H. destruct (params3_inv _ _ _ _ _ _ _ _ _ _ _ _ _ _ _ E1 E2 E3 H) as (_ & S & K & C).
  split; [exact S|]. split; [exact K|]. intros Z0. destruct (C Z0) as (m & M & Q1 & Q2). exists m. split; [apply min_size_spec; exact M|].
  intros P. destruct (floor_quot_pos _ _ _ P Q1) as (N1 & B1' & _). destruct (floor_quot_pos _ _ _ P Q2) as (N2 & B2' & _). repeat split; lra.
Qed.
Print Assumptions C88_spatial_counts.
(** With no orientation samples (file name "0", announced as "uniform random rotations") the number of
    slices becomes 0 whatever was asked for, and HRM3D::plan with it never returns a result. *)
Theorem C88_random_orientations_never_plan : forall base ar obs p p' (E : env3) rq rounds (s s' : state3 E) res,
  define_params3 base 0 ar obs p = Ok p' -> m_samples E = [] -> Z.of_nat (q_numSlice s) = r_numSlice p' -> plan3 E rq rounds s <> Ok (s', res).
Proof.
  intros base ar obs p p' E rq rounds s s' res H M N. apply spatial_no_slices; [exact M|].
  assert (S : r_numSlice p' = 0%Z).
  { unfold define_params3 in H. cbv zeta in H.
    repeat match type of H with
    | obind ?x _ = _ => let X := fresh in destruct x as [X| |]; cbn [obind] in H; try discriminate H
    | (if ?c then _ else _) = _ => destruct c
    end; injection H as <-; reflexivity. }
  rewrite S in N. lia.
Qed.
Print Assumptions C88_random_orientations_never_plan.
(** A spatial arena smaller than the robot: conversion of a negative number to an unsigned one. *)
Theorem C88_spatial_small_arena_undefined : forall base nq ar rest obs p r b A0 A1 A2 X Y Z m, sq_axes base = r :: b -> sq_axes ar = [A0; A1; A2] -> sq_pos ar = [X; Y; Z] ->
  (r_numLineX p = 0%Z \/ r_numLineY p = 0%Z) -> min_size (map sq_axes obs) = Ok m -> 0 < m -> A0 < 6 / 5 * r -> define_params3 base nq (ar :: rest) obs p = UB.
Proof.
  intros base nq ar rest obs p r b A0 A1 A2 X Y Z m E1 E2 E3 Z0 M P L. unfold define_params3. cbn [at_ nth_error obind]. rewrite E1, E2, E3. cbn [at_ nth_error obind]. cbv zeta.
  assert (B : (Z.eqb (r_numLineX p) 0 || Z.eqb (r_numLineY p) 0)%bool = true) by (destruct Z0 as [-> | ->]; [reflexivity|apply orb_true_r]).
  rewrite B, M. cbn [obind]. rewrite (floor_quot_neg (A0 - 6 / 5 * r) m P ltac:(lra)). reflexivity.
Qed.
Print Assumptions C88_spatial_small_arena_undefined.

(** Non-vacuity: a 20 x 20 arena, a robot of size 2/3, obstacles of size 1 and 3: nine lines. *)
Definition none_asked : params := Params [] 10 0 0.
Lemma int_part_9 : Int_part (9 / 1) = 9%Z.
Proof. pose proof (int_part (9 / 1)) as [L U]. assert (Int_part (9 / 1) < 10)%Z by (apply lt_IZR; lra). assert (8 < Int_part (9 / 1))%Z by (apply lt_IZR; lra). lia. Qed.
Example C88_witness : exists p', define_params2 (disc (2 / 3) 0 0) [disc 10 0 0] [disc 3 0 0; disc 1 5 5] none_asked = Ok p' /\ r_numLineY p' = 9%Z /\ smallest (map se_axes [disc 3 0 0; disc 1 5 5]) 1.
Proof.
  assert (M : min_size (map se_axes [disc 3 0 0; disc 1 5 5]) = Ok 1).
  { unfold min_size, disc. cbn [map se_axes at_ nth_error obind fold_left]. unfold smaller. cbn [fold_left].
    destruct (Rlt_dec 3 3) as [L|_]; [lra|]. destruct (Rlt_dec 3 3) as [L|_]; [lra|]. destruct (Rlt_dec 1 3) as [_|L]; [|lra]. destruct (Rlt_dec 1 1) as [L|_]; [lra|]. reflexivity. }
  assert (I : int_quot (10 - 3 / 2 * (2 / 3)) 1 = Ok 9%Z).
  { replace (10 - 3 / 2 * (2 / 3)) with 9 by field. unfold int_quot. destruct (Req_EM_T 1 0) as [Z0|_]; [lra|]. unfold trunc. destruct (Rle_dec 0 (9 / 1)) as [_|N]; [|lra]. rewrite int_part_9. reflexivity. }
  unfold define_params2. cbn [at_ nth_error obind disc se_axes se_pos]. cbv zeta. cbn [none_asked r_numLineY Z.eqb]. rewrite M. cbn [obind]. rewrite I. cbn [obind].
  eexists. split; [reflexivity|]. split; [reflexivity|apply min_size_spec; exact M].
Qed.
