(** Model of include/hrm/datastructure/MultiBodyTree.h, src/datastructure/MultiBodyTree2D.cpp
    and src/datastructure/MultiBodyTree3D.cpp, in exact real arithmetic.

    link_, tf_ and numLinks_ change only in addBody, which extends all three by one: they are
    one list of pairs (shape, transform).  A homogeneous transform is its rotation block and
    its translation; the bottom row, which addBody sets to (0 .. 0 1) and no function reads, is
    left out, so a product of transforms is [comp2] / [comp3]. *)
From Coq Require Import List Reals ZArith Arith Bool.
From Verif.Base Require Import Outcome.
From Verif.Model Require Import MGeom.
Import ListNotations.
Local Open Scope outcome_scope.
Local Open Scope R_scope.

(** std::atan2, used by Eigen::Rotation2D::fromRotationMatrix. *)
Definition ratan2 (y x : R) : R :=
  if Rlt_dec 0 x then atan (y / x)
  else if Rlt_dec x 0 then (if Rle_dec 0 y then atan (y / x) + PI else atan (y / x) - PI)
  else if Rlt_dec 0 y then PI / 2 else if Rlt_dec y 0 then - (PI / 2) else 0.
(** Eigen::Rotation2Dd(M).angle(). *)
Definition heading (M : m2) : R := ratan2 (m10 M) (m00 M).

Definition tf2 : Type := (m2 * v2)%type.
Definition comp2 (g h : tf2) : tf2 := (mul2 (fst g) (fst h), add2 (app2 (fst g) (snd h)) (snd g)).
Record mb2 : Type := MB2 { mb2_base : sellipse; mb2_links : list (sellipse * tf2) }.
(** MultiBodyTree(base), MultiBodyTree.h:17. *)
Definition new_mb2 (base : sellipse) : mb2 := MB2 base [].
(** addBody, MultiBodyTree2D.cpp:10-22; [Point2D(position.data())] reads two coordinates
    unchecked. *)
Definition add_body2 (m : mb2) (link : sellipse) : outcome mb2 :=
  do x <- idx (se_pos link) 0; do y <- idx (se_pos link) 1;
  Ok (MB2 (mb2_base m) (mb2_links m ++ [(link, (rot2 (se_angle link), V2 x y))])).
(** robotTF, MultiBodyTree2D.cpp:24-41. *)
Definition pose2 (s : sellipse) (g : tf2) : sellipse :=
  se_set_angle (se_set_pos s [x2 (snd g); y2 (snd g)]) (heading (fst g)).
Definition robot_tf2 (m : mb2) (g : tf2) : mb2 :=
  MB2 (pose2 (mb2_base m) g) (map (fun lt => (pose2 (fst lt) (comp2 g (snd lt)), snd lt)) (mb2_links m)).
(** minkSum, MultiBodyTree2D.cpp:43-65. *)
Definition mink_sum2 (m : mb2) (s1 : sellipse) (k : Z) : outcome (list (list (option v2))) :=
  do b <- mink2 s1 (mb2_base m) k;
  let RB := rot2 (se_angle (mb2_base m)) in
  do ls <- omap (fun lt : sellipse * tf2 =>
      let '(l, t) := lt in
      do p <- mink2 s1 (se_set_angle l (heading (mul2 RB (fst t)))) k;
      Ok (map (option_map (fun v => sub2 v (app2 RB (snd t)))) p)) (mb2_links m);
  Ok (b :: ls).

(** ---- space ---- *)
Definition tf3 : Type := (m3 * v3)%type.
Definition comp3 (g h : tf3) : tf3 := (mul3 (fst g) (fst h), add3 (app3 (fst g) (snd h)) (snd g)).
(** Eigen::Quaterniond(M) (Eigen/src/Geometry/Quaternion.h, quaternionbase_assign_impl):
    [None] when the square root is not of a positive number (NaN or infinite components). *)
Definition from_root (t : R) : option (R * R) :=
  if Rlt_dec 0 t then Some (sqrt t / 2, 1 / 2 / sqrt t) else None.
Definition quat_of (M : m3) : option quat :=
  let tr := x3 (r0 M) + y3 (r1 M) + z3 (r2 M) in
  if Rlt_dec 0 tr then
    obnd (from_root (tr + 1)) (fun wt => let '(w, t) := wt in
      Some (Q w ((y3 (r2 M) - z3 (r1 M)) * t) ((z3 (r0 M) - x3 (r2 M)) * t) ((x3 (r1 M) - y3 (r0 M)) * t)))
  else
    let big1 := if Rlt_dec (x3 (r0 M)) (y3 (r1 M)) then true else false in
    let big2 := if Rlt_dec (if big1 then y3 (r1 M) else x3 (r0 M)) (z3 (r2 M)) then true else false in
    if big2 then (* i = 2, j = 0, k = 1 *)
      obnd (from_root (z3 (r2 M) - x3 (r0 M) - y3 (r1 M) + 1)) (fun vt => let '(v, t) := vt in
        Some (Q ((x3 (r1 M) - y3 (r0 M)) * t) ((z3 (r0 M) + x3 (r2 M)) * t) ((z3 (r1 M) + y3 (r2 M)) * t) v))
    else if big1 then (* i = 1, j = 2, k = 0 *)
      obnd (from_root (y3 (r1 M) - z3 (r2 M) - x3 (r0 M) + 1)) (fun vt => let '(v, t) := vt in
        Some (Q ((z3 (r0 M) - x3 (r2 M)) * t) ((y3 (r0 M) + x3 (r1 M)) * t) v ((y3 (r2 M) + z3 (r1 M)) * t)))
    else (* i = 0, j = 1, k = 2 *)
      obnd (from_root (x3 (r0 M) - y3 (r1 M) - z3 (r2 M) + 1)) (fun vt => let '(v, t) := vt in
        Some (Q ((y3 (r2 M) - z3 (r1 M)) * t) v ((x3 (r1 M) + y3 (r0 M)) * t) ((x3 (r2 M) + z3 (r0 M)) * t))).

Record mb3 : Type := MB3 { mb3_base : squad; mb3_links : list (squad * tf3) }.
Definition new_mb3 (base : squad) : mb3 := MB3 base [].
(** getBodyShapes, MultiBodyTree3D.cpp:10-19. *)
Definition body_shapes (m : mb3) : list squad := mb3_base m :: map fst (mb3_links m).
(** addBody, MultiBodyTree3D.cpp:21-32. *)
Definition add_body3 (m : mb3) (link : squad) : outcome mb3 :=
  do x <- idx (sq_pos link) 0; do y <- idx (sq_pos link) 1; do z <- idx (sq_pos link) 2;
  Ok (MB3 (mb3_base m) (mb3_links m ++ [(link, (rotm (sq_quat link), V3r x y z))])).
(** robotTF, MultiBodyTree3D.cpp:34-53, and with a kinematic chain, lines 63-91: [kdl i] is the
    transform kdl.getTransform(jointConfig, "body<i+1>"); [None]: an orientation is not a
    number. *)
Definition pose3 (s : squad) (g : tf3) : option squad :=
  obnd (quat_of (fst g)) (fun q => Some (sq_set_quat (sq_set_pos s [x3 (snd g); y3 (snd g); z3 (snd g)]) q)).
Fixpoint pose_links (g : tf3) (kdl : nat -> option tf3) (i : nat) (ls : list (squad * tf3)) : option (list (squad * tf3)) :=
  match ls with
  | [] => Some []
  | lt :: rest =>
      let gi := match kdl i with Some h => comp3 g h | None => g end in
      obnd (pose3 (fst lt) (comp3 gi (snd lt))) (fun s =>
      obnd (pose_links g kdl (i + 1) rest) (fun r => Some ((s, snd lt) :: r)))
  end.
Definition robot_tf3_kdl (m : mb3) (g : tf3) (kdl : nat -> option tf3) : option mb3 :=
  obnd (pose3 (mb3_base m) g) (fun b => obnd (pose_links g kdl 0 (mb3_links m)) (fun ls => Some (MB3 b ls))).
Definition robot_tf3 (m : mb3) (g : tf3) : option mb3 := robot_tf3_kdl m g (fun _ => None).
(** minkSum, MultiBodyTree3D.cpp:93-108. *)
Definition mink_sum3 (m : mb3) (s1 : squad) (k : Z) : outcome (list (list (option v3))) :=
  do b <- mink3 s1 (mb3_base m) k;
  do ls <- omap (fun lt : squad * tf3 =>
      let l := fst lt in
      do p <- mink3 s1 l k;
      do x <- idx (sq_pos l) 0; do y <- idx (sq_pos l) 1; do z <- idx (sq_pos l) 2;
      Ok (map (option_map (fun v => sub3 v (V3r x y z))) p)) (mb3_links m);
  Ok (b :: ls).
