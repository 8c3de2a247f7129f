(** Model of src/util/ParseURDF.cpp and of the part of kdl_parser it uses
    (src/util/external/kdl_parser/src/kdl_parser/kdl_parser.cpp:52-96, 130-158, 181-205), in exact real
    arithmetic, and of MultiBodyTree3D::robotTF with a URDF file.

    What is read of orocos KDL (not part of the repository) is modelled from its sources:
    Rotation::Quaternion, Rotation::Rot2, Rotation::GetQuaternion, Joint, Segment,
    Tree::addSegment, TreeFkSolverPos_recursive::JntToCart.
    Simplifications: the XML text and urdfdom's parser are not modelled: the start is the
    tree of links it delivers, with joint->parent_link_name the name of the link whose child it
    is; inertias are left out (no kinematic function reads them); messages are left out. *)
From Coq Require Import List Reals ZArith Arith Bool Ascii String.
From Verif.Base Require Import Outcome.
From Verif.Model Require Import MGeom MMultiBody MTightFit MStore MCollision.
Import ListNotations.
Local Open Scope outcome_scope.
Local Open Scope R_scope.

Definition name : Type := list ascii.
Definition same_name (m n : name) : bool := if list_eq_dec ascii_dec m n then true else false.

(** urdf::Joint: type, parent_to_joint_origin_transform, axis. *)
Inductive jtype : Type := Fixed | Revolute | Continuous | Prismatic | Floating | PlanarJ.
Record ujoint : Type := UJ { uj_type : jtype; uj_rot : quat; uj_pos : v3; uj_axis : v3 }.
(** The child_links of a link, in order: a link with its name, its parent joint and its own
    child links, followed by the remaining ones. *)
Inductive links : Type := NoLink | Link (n : name) (j : ujoint) (children rest : links).

(** ---- KDL ---- *)
(** KDL::Rotation::Quaternion(x, y, z, w). *)
Definition kdl_rotation (q : quat) : m3 :=
  let x := qx q in let y := qy q in let z := qz q in let w := qw q in
  M3 (V3r (w * w + x * x - y * y - z * z) (2 * x * y - 2 * w * z) (2 * x * z + 2 * w * y))
     (V3r (2 * x * y + 2 * w * z) (w * w - x * x + y * y - z * z) (2 * y * z - 2 * w * x))
     (V3r (2 * x * z - 2 * w * y) (2 * y * z + 2 * w * x) (w * w - x * x - y * y + z * z)).
(** KDL::Rotation::Rot2(axis, angle). *)
Definition kdl_rot2 (a : v3) (t : R) : m3 :=
  let ct := cos t in let st := sin t in let vt := 1 - ct in
  M3 (V3r (ct + vt * x3 a * x3 a) (- (z3 a * st) + vt * x3 a * y3 a) (y3 a * st + vt * x3 a * z3 a))
     (V3r (z3 a * st + vt * x3 a * y3 a) (ct + vt * y3 a * y3 a) (- (x3 a * st) + vt * y3 a * z3 a))
     (V3r (- (y3 a * st) + vt * x3 a * z3 a) (x3 a * st + vt * y3 a * z3 a) (ct + vt * z3 a * z3 a)).
(** KDL::Rotation::GetQuaternion, epsilon 1e-12; [None]: not a number. *)
Definition kdl_quaternion (M : m3) : option quat :=
  let tr := x3 (r0 M) + y3 (r1 M) + z3 (r2 M) in
  if Rlt_dec (1 / 1000000000000) tr then
    obnd (from_root (tr + 1)) (fun wt => let '(w, t) := wt in
      Some (Q w ((y3 (r2 M) - z3 (r1 M)) * t) ((z3 (r0 M) - x3 (r2 M)) * t) ((x3 (r1 M) - y3 (r0 M)) * t)))
  else
    let first := if Rlt_dec (y3 (r1 M)) (x3 (r0 M)) then (if Rlt_dec (z3 (r2 M)) (x3 (r0 M)) then true else false) else false in
    if first then
      obnd (from_root (1 + x3 (r0 M) - y3 (r1 M) - z3 (r2 M))) (fun vt => let '(v, t) := vt in
        Some (Q ((y3 (r2 M) - z3 (r1 M)) * t) v ((x3 (r1 M) + y3 (r0 M)) * t) ((x3 (r2 M) + z3 (r0 M)) * t)))
    else if Rlt_dec (z3 (r2 M)) (y3 (r1 M)) then
      obnd (from_root (1 + y3 (r1 M) - x3 (r0 M) - z3 (r2 M))) (fun vt => let '(v, t) := vt in
        Some (Q ((z3 (r0 M) - x3 (r2 M)) * t) ((y3 (r0 M) + x3 (r1 M)) * t) v ((y3 (r2 M) + z3 (r1 M)) * t)))
    else
      obnd (from_root (1 + z3 (r2 M) - x3 (r0 M) - y3 (r1 M))) (fun vt => let '(v, t) := vt in
        Some (Q ((x3 (r1 M) - y3 (r0 M)) * t) ((z3 (r0 M) + x3 (r2 M)) * t) ((z3 (r1 M) + y3 (r2 M)) * t) v)).
(** KDL::Frame::Inverse. *)
Definition frame_inv (g : tf3) : tf3 := (tr3 (fst g), scale3 (-1) (app3 (tr3 (fst g)) (snd g))).
Definition frame_id : tf3 := (diag3 1 1 1, V3r 0 0 0).
(** axis / axis.Norm(); [None]: not a number. *)
Definition unit_axis (v : v3) : option v3 :=
  let n := sqrt (dot3 v v) in if Req_EM_T n 0 then None else Some (V3r (x3 v / n) (y3 v / n) (z3 v / n)).
(** KDL::Joint: None, RotAxis, TransAxis (origin, axis); pose(q) with scale 1 and offset 0. *)
Inductive kjoint : Type := KNone | KRot (o : v3) (a : option v3) | KTrans (o : v3) (a : option v3).
Definition kpose (j : kjoint) (q : R) : option tf3 :=
  match j with
  | KNone => Some frame_id
  | KRot o a => obnd a (fun a => Some (kdl_rot2 a q, o))
  | KTrans o a => obnd a (fun a => Some (diag3 1 1 1, add3 o (scale3 q a)))
  end.
(** KDL::Segment: f_tip is joint.pose(0).Inverse() * f_tip; pose(q) is joint.pose(q) * f_tip. *)
Record kseg : Type := KSeg { ks_joint : kjoint; ks_tip : option tf3 }.
Definition new_seg (j : kjoint) (f_tip : tf3) : kseg :=
  KSeg j (obnd (kpose j 0) (fun p => Some (comp3 (frame_inv p) f_tip))).
Definition seg_pose (s : kseg) (q : R) : option tf3 :=
  obnd (kpose (ks_joint s) q) (fun p => obnd (ks_tip s) (fun t => Some (comp3 p t))).
(** KDL::Tree: the map from names to elements (segment, parent, q_nr) and the number of
    joints; the root has no parent. *)
Record kelem : Type := KElem { ke_seg : kseg; ke_parent : option name; ke_q : nat }.
Record ktree : Type := KTree { kt_map : list (name * kelem); kt_joints : nat }.
Definition new_tree (root : name) : ktree := KTree [(root, KElem (KSeg KNone (Some frame_id)) None 0)] 0.
Fixpoint lookup (n : name) (m : list (name * kelem)) : option kelem :=
  match m with [] => None | (k, e) :: r => if same_name k n then Some e else lookup n r end.
(** Tree::addSegment: nothing happens if the parent is unknown or the name is taken. *)
Definition moving (j : kjoint) : bool := match j with KNone => false | _ => true end.
Definition add_segment (n : name) (s : kseg) (hook : name) (t : ktree) : ktree :=
  match lookup hook (kt_map t), lookup n (kt_map t) with
  | Some _, None =>
      KTree (kt_map t ++ [(n, KElem s (Some hook) (if moving (ks_joint s) then kt_joints t else 0))])
        (if moving (ks_joint s) then kt_joints t + 1 else kt_joints t)
  | _, _ => t
  end.
(** TreeFkSolverPos_recursive::recursiveFk: q_in(q_nr) is read unchecked, also for a segment
    without a joint (q_nr 0); the recursion ends at the root.  [fuel] exceeds the number of
    segments (a chain of parents has no repetition: theorem C100). *)
Fixpoint recursive_fk (fuel : nat) (t : ktree) (q : list R) (n : name) : outcome (option tf3) :=
  match fuel with
  | O => UB
  | S fuel =>
      match lookup n (kt_map t) with
      | None => UB
      | Some e =>
          do x <- idx q (ke_q e);
          let cur := seg_pose (ke_seg e) x in
          match ke_parent e with
          | None => Ok cur
          | Some p => do g <- recursive_fk fuel t q p; Ok (obnd g (fun g => obnd cur (fun c => Some (comp3 g c))))
          end
      end
  end.
(** JntToCart: -1 for a wrong number of joint values, -2 for an unknown segment; the frame is then
    left alone. *)
Inductive fk_result : Type := FkSize | FkUnknown | FkFrame (f : option tf3).
Definition jnt_to_cart (t : ktree) (q : list R) (n : name) : outcome fk_result :=
  if Nat.eqb (List.length q) (kt_joints t) then
    match lookup n (kt_map t) with
    | None => Ok FkUnknown
    | Some _ => do f <- recursive_fk (List.length (kt_map t)) t q n; Ok (FkFrame f)
    end
  else Ok FkSize.

(** ---- kdl_parser.cpp ---- *)
(** toKdl(Joint), lines 66-96: a joint that is neither fixed, revolute, continuous nor
    prismatic becomes a fixed one. *)
Definition origin_frame (j : ujoint) : tf3 := (kdl_rotation (uj_rot j), uj_pos j).
Definition joint_of (j : ujoint) : kjoint :=
  let F := origin_frame j in
  match uj_type j with
  | Revolute | Continuous => KRot (snd F) (unit_axis (app3 (fst F) (uj_axis j)))
  | Prismatic => KTrans (snd F) (unit_axis (app3 (fst F) (uj_axis j)))
  | _ => KNone
  end.
(** addChildrenToTree, lines 130-158, for all the child links in order; the result of addSegment
    is not looked at. *)
Fixpoint add_children (parent : name) (ls : links) (t : ktree) : ktree :=
  match ls with
  | NoLink => t
  | Link n j cs rest => add_children parent rest (add_children n cs (add_segment n (new_seg (joint_of j) (origin_frame j)) parent t))
  end.
(** treeFromUrdfModel, lines 181-205. *)
Definition tree_of (root : name) (ls : links) : ktree := add_children root ls (new_tree root).

(** ---- ParseURDF.cpp ---- *)
(** getTransform, lines 16-34: after an error the frame is the identity it was initialised with. *)
Definition get_transform (t : ktree) (q : list R) (n : name) : outcome (option tf3) :=
  do r <- jnt_to_cart t q n;
  let frame := match r with FkFrame f => f | _ => Some frame_id end in
  Ok (obnd frame (fun f => obnd (kdl_quaternion (fst f)) (fun u => Some (rotm u, snd f)))).

(** ---- MultiBodyTree3D.cpp:55-91 ---- *)
Definition body_name (i : nat) : name := list_ascii_of_string "body" ++ dec (Z.of_nat (i + 1)).
(** The links in turn; [None]: an orientation is not a number. *)
Definition all_some {A} (l : list (option A)) : option (list A) :=
  fold_right (fun o r => obnd o (fun a => obnd r (fun r => Some (a :: r)))) (Some []) l.
Definition link_transforms (t : ktree) (q : list R) (n : nat) : outcome (option (list tf3)) :=
  do ts <- omap (fun i => get_transform t q (body_name i)) (seq 0 n); Ok (all_some ts).
(** The constructor, ParseURDF.cpp:10-14: a file that cannot be read or is not a robot ([None]) leaves
    KDL's empty tree, whose root is called "root". *)
Definition parse_urdf (file : option (name * links)) : ktree :=
  match file with Some (root, ls) => tree_of root ls | None => new_tree (list_ascii_of_string "root") end.
(** robotTF(urdfFile, gBase, jointConfig); the inner [None]: an orientation is not a number. *)
Definition robot_tf3_urdf (file : option (name * links)) (m : mb3) (g : tf3) (q : list R) : outcome (option mb3) :=
  do ts <- link_transforms (parse_urdf file) q (List.length (mb3_links m));
  Ok (obnd ts (fun ts => robot_tf3_kdl m g (nth_error ts))).
(** OMPL3DArticulated::transformRobot, OMPL3DArticulated.cpp:57-80, and isStateValid, for a state with
    the base's position and orientation and the joint values (MCollision.state_valid3). *)
Definition articulated_valid (collide : collider) (objs : list geom * list geom) (obs : list squad) (robot : mb3)
    (file : option (name * links)) (p : v3) (u : quat) (q : list R) : outcome bool :=
  do r <- robot_tf3_urdf file robot (rotm u, p) q;
  match r with Some r => is_separated3 collide objs obs r | None => UB end.
