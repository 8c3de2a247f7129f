(** C100-C102: articulated robots described by a URDF file. *)
From Coq Require Import List Reals ZArith Arith Bool Ascii String Lia Lra.
From Verif.Base Require Import Outcome.
From Verif.Model Require Import MGeom MMultiBody MStore MCollision MUrdf.
From Verif.Spec Require Import SGeom SRigid SCollision SUrdf.
From Verif.Proofs Require Import PMulti PCollision PUrdf PUrdfX.
Import ListNotations.
Local Open Scope R_scope.

(** C100: getTransform is the forward kinematics of the description: a point of the link is where
    the joints on the way from the root put it, with the joint values numbered depth first. *)
Theorem C100_chain root ls q n p : proper_robot root ls -> leads 0 ls n p -> List.length q = variables ls -> (0 < variables ls)%nat ->
  exists T, get_transform (parse_urdf (Some (root, ls))) q n = Ok (Some T) /\ rigid3 T /\ forall v, move3 T v = chain_point q p v.
Proof. exact (transform_chain root ls q n p). Qed.
Print Assumptions C100_chain.
(** Every link is reached by exactly one chain of joints; the root does not move. *)
Theorem C100_every_link root ls n : proper_robot root ls -> In n (link_names ls) -> exists p, leads 0 ls n p /\ forall p', leads 0 ls n p' -> p' = p.
Proof. exact (unique_chain root ls n). Qed.
Print Assumptions C100_every_link.
Theorem C100_root root ls q : proper_robot root ls -> List.length q = variables ls -> (0 < variables ls)%nat ->
  exists T, get_transform (parse_urdf (Some (root, ls))) q root = Ok (Some T) /\ forall v, move3 T v = v.
Proof. exact (root_still root ls q). Qed.
Print Assumptions C100_root.
(** Joints that are not on the way to the link do not move it. *)
Theorem C100_other_joints root ls q q' n p : proper_robot root ls -> leads 0 ls n p -> List.length q = variables ls -> List.length q' = variables ls -> (0 < variables ls)%nat ->
  (forall j k, In (j, k) p -> has_variable j = 1%nat -> nth k q 0 = nth k q' 0) ->
  get_transform (parse_urdf (Some (root, ls))) q n = get_transform (parse_urdf (Some (root, ls))) q' n.
Proof. exact (other_joints root ls q q' n p). Qed.
Print Assumptions C100_other_joints.
(** Every joint has a value of its own, and they are all used. *)
Theorem C100_joint_numbers root ls : proper_robot root ls -> forall i, (i < variables ls)%nat ->
  exists n p j, leads 0 ls n (p ++ [(j, i)]) /\ has_variable j = 1%nat /\
    forall n' p' j', leads 0 ls n' (p' ++ [(j', i)]) -> has_variable j' = 1%nat -> n' = n.
Proof. exact (joint_numbers root ls). Qed.
Print Assumptions C100_joint_numbers.
(** robotTF with a description puts the base at g and the k-th body added where its link is. *)
Theorem C100_robot_placement base cs m root ls g q : calls3 (new_mb3 base) cs = Ok (Some m) -> Forall (fun l => unit_quat (sq_quat l)) (added3 cs) ->
  proper_robot root ls -> List.length q = variables ls -> (0 < variables ls)%nat ->
  has_bodies ls (List.length (added3 cs)) -> rigid3 g ->
  exists m', robot_tf3_urdf (Some (root, ls)) m g q = Ok (Some m') /\ List.length (mb3_links m') = List.length (added3 cs) /\
    same_shape3 (mb3_base m') base /\ (forall v, in3 (body_of3 (mb3_base m')) (move3 g v) <-> base_points base v) /\
    forall k l0 n p, nth_error (added3 cs) k = Some l0 -> names_body n k -> leads 0 ls n p ->
      exists l, nth_error (map fst (mb3_links m')) k = Some l /\ same_shape3 l l0 /\
        forall v, in3 (body_of3 l) (move3 g (chain_point q p v)) <-> in3 (body_of3 l0) v.
Proof. exact (robot_placement base cs m root ls g q). Qed.
Print Assumptions C100_robot_placement.

(** C101: the validity check of the sampling planners for articulated robots is exact for
    ellipsoids: a state is accepted iff no point of the robot in that configuration is in an
    obstacle. *)
Theorem C101_articulated_valid_exact collide cgal n base cs m obs root ls p u q : exact_fcl collide -> calls3 (new_mb3 base) cs = Ok (Some m) ->
  Forall robot_ellipsoid (base :: added3 cs) -> Forall robot_ellipsoid obs -> unit_quat u ->
  proper_robot root ls -> List.length q = variables ls -> (0 < variables ls)%nat ->
  has_bodies ls (List.length (added3 cs)) ->
  exists objs b, setups3 cgal m obs (S n) = Ok objs /\ articulated_valid collide objs obs m (Some (root, ls)) p u q = Ok b /\
    (b = true <-> forall o x, In o obs -> articulated_points base (added3 cs) ls q (rotm u, p) x -> ~ in3 (body_of3 o) x).
Proof. exact (articulated_exact collide cgal n base cs m obs root ls p u q). Qed.
Print Assumptions C101_articulated_valid_exact.

(** C102: a description that cannot be used is not reported to the caller: with an unreadable file
    or the wrong number of joint values the robot is placed as a rigid one; a body without a link of
    its name moves with the base. *)
Theorem C102_reported_refuted :
  (forall m g q, robot_tf3_urdf None m g q = Ok (robot_tf3 m g)) /\
  (forall root ls m g q, proper_robot root ls -> List.length q <> variables ls -> robot_tf3_urdf (Some (root, ls)) m g q = Ok (robot_tf3 m g)) /\
  (forall root ls q n, proper_robot root ls -> n <> root -> ~ In n (link_names ls) ->
     exists T, get_transform (parse_urdf (Some (root, ls))) q n = Ok (Some T) /\ forall v, move3 T v = v).
Proof. exact not_reported. Qed.
Print Assumptions C102_reported_refuted.
(** A description without movable joints has undefined behaviour: the value of joint 0 is read from an
    empty array. *)
Theorem C102_no_joints root ls n : proper_robot root ls -> variables ls = 0%nat -> n = root \/ In n (link_names ls) ->
  get_transform (parse_urdf (Some (root, ls))) [] n = UB.
Proof. exact (no_joints root ls n). Qed.
Print Assumptions C102_no_joints.

(** The first two links of resources/3D/urdf/snake.urdf. *)
Definition snake_joint (x : R) (a : v3) : ujoint := UJ Revolute (Q 1 0 0 0) (V3r x 0 0) a.
Definition link_name (s : string) : name := list_ascii_of_string s.
Definition snake : links :=
  Link (link_name "body1") (snake_joint 7 (V3r 0 1 0)) (Link (link_name "body2") (snake_joint (41 / 5) (V3r 0 0 1)) NoLink NoLink) NoLink.
Definition snake_root : name := link_name "base".
Example C100_hyp : proper_robot snake_root snake /\ variables snake = 2%nat /\
  has_bodies snake 2 /\
  (exists p, leads 0 snake (link_name "body2") p /\ chain_point [PI / 2; 0] p (V3r 0 0 0) = V3r 7 0 (- (41 / 5))).
Proof.
  split; [split|split; [|split]].
  - assert (U : unit_quat (Q 1 0 0 0)) by (unfold unit_quat; cbn; ring).
    cbn [snake proper_joints snake_joint uj_rot uj_axis uj_type has_variable]. 
    split; [exact U|]. split; [intros _ E; injection E as E; lra|]. split; [|exact I].
    split; [exact U|]. split; [intros _ E; injection E as E; lra|]. split; exact I.
  - assert (N : link_names snake = [link_name "body1"; link_name "body2"]) by reflexivity. rewrite N. unfold snake_root.
    assert (D : forall a b, same_name a b = false -> a <> b) by (intros a b E F; subst; rewrite same_name_r in E; discriminate E).
    apply NoDup_cons; [intros [H|[H|[]]]; revert H; apply D; vm_compute; reflexivity|].
    apply NoDup_cons; [intros [H|[]]; revert H; apply D; vm_compute; reflexivity|]. apply NoDup_cons; [intros []|apply NoDup_nil].
  - reflexivity.
  - intros k K. exists (body_name k). split; [apply names_iff; reflexivity|]. assert (N : link_names snake = [link_name "body1"; link_name "body2"]) by reflexivity. rewrite N.
    destruct k as [|[|k]]; [left; reflexivity|right; left; reflexivity|lia].
  - eexists. split; [unfold snake; apply leads_below; apply leads_here|].
    cbn [chain_point snake_joint uj_pos uj_rot nth joint_moves uj_type uj_axis has_variable Nat.add]. unfold joint_moves, snake_joint. cbn [uj_type uj_axis].
    assert (T0 : forall u, turn u (V3r 0 0 0) = V3r 0 0 0) by (intros u; unfold turn, hmul, hconj; cbn [qw qx qy qz x3 y3 z3]; f_equal; ring).
    assert (T1 : forall v, turn (Q 1 0 0 0) v = v) by (intros [a b c]; unfold turn, hmul, hconj; cbn [qw qx qy qz x3 y3 z3]; f_equal; ring).
    rewrite T0, !T1. unfold about. replace (sqrt (dot3 (V3r 0 1 0) (V3r 0 1 0))) with 1 by (unfold dot3; cbn [x3 y3 z3]; replace (0 * 0 + 1 * 1 + 0 * 0) with 1 by ring; symmetry; apply sqrt_1).
    destruct (half_angle (PI / 2)) as (C & S & H). rewrite cos_PI2 in C. rewrite sin_PI2 in S.
    generalize dependent (cos (PI / 2 / 2)). generalize dependent (sin (PI / 2 / 2)). intros s c C S H.
    assert (S' : s * c = 1 / 2) by lra. unfold turn, hmul, hconj, add3. cbn [qw qx qy qz x3 y3 z3]. f_equal.
    + transitivity (7 + 41 / 5 * (c * c - s * s)); [field|]. rewrite <- C. ring.
    + field.
    + transitivity (- (2 * (41 / 5) * (s * c))); [field|]. rewrite S'. field.
Qed.
(** A robot with two bodies for the two links. *)
Definition snake_body (x : R) : squad := SQ [4; 3; 2] [1; 1] [x; 0; 0] (Q 1 0 0 0) 10.
Example C101_hyp : exists m, calls3 (new_mb3 (snake_body 0)) [AddBody3 (snake_body 4); AddBody3 (snake_body 4)] = Ok (Some m) /\
  Forall robot_ellipsoid (snake_body 0 :: added3 [AddBody3 (snake_body 4); AddBody3 (snake_body 4)]).
Proof.
  eexists. split; [reflexivity|].
  assert (E : forall x, robot_ellipsoid (snake_body x)).
  { intros x. split; [reflexivity|]. split; [unfold unit_quat; cbn; ring|]. exists 4, 3, 2, x, 0, 0. cbn. split; [reflexivity|]. split; [lra|]. split; [lra|]. split; [lra|reflexivity]. }
  repeat constructor; apply E.
Qed.
(** A link welded to the root. *)
Example C102_hyp : proper_robot snake_root (Link (link_name "body1") (UJ Fixed (Q 1 0 0 0) (V3r 1 0 0) (V3r 0 0 0)) NoLink NoLink) /\
  variables (Link (link_name "body1") (UJ Fixed (Q 1 0 0 0) (V3r 1 0 0) (V3r 0 0 0)) NoLink NoLink) = 0%nat.
Proof.
  split; [split|reflexivity].
  - split; [unfold unit_quat; cbn; ring|]. split; [intros E; discriminate E|]. split; exact I.
  - apply NoDup_cons; [intros [H|[]]; vm_compute in H; discriminate H|]. apply NoDup_cons; [intros []|apply NoDup_nil].
Qed.
