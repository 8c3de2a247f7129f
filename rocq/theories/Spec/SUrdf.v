(** Specification of forward kinematics: where a point of a link is, by the meaning of URDF
    joints. *)
From Coq Require Import List Reals Arith ZArith Ascii String.
From Verif.Model Require Import MGeom MMultiBody MUrdf.
From Verif.Spec Require Import SGeom SRigid SStore.
Import ListNotations.
Local Open Scope R_scope.

(** Joints with a joint variable. *)
Definition has_variable (j : ujoint) : nat :=
  match uj_type j with Revolute | Continuous | Prismatic => 1 | _ => 0 end.
Fixpoint variables (ls : links) : nat :=
  match ls with NoLink => 0 | Link _ j cs rest => has_variable j + variables cs + variables rest end.
Fixpoint link_names (ls : links) : list name :=
  match ls with NoLink => [] | Link n _ cs rest => n :: link_names cs ++ link_names rest end.
(** The joints from the root to the link n, with the numbers of their variables: variables are
    numbered depth first, a link before its children, children in order, from k. *)
Inductive leads : nat -> links -> name -> list (ujoint * nat) -> Prop :=
| leads_here k n j cs rest : leads k (Link n j cs rest) n [(j, k)]
| leads_below k m j cs rest n p : leads (k + has_variable j) cs n p -> leads k (Link m j cs rest) n ((j, k) :: p)
| leads_beside k m j cs rest n p : leads (k + has_variable j + variables cs) rest n p -> leads k (Link m j cs rest) n p.
(** Turning by the angle t about the direction of a: the quaternion (cos t/2, sin t/2 a/|a|). *)
Definition about (a : v3) (t : R) : quat :=
  let n := sqrt (dot3 a a) in
  Q (cos (t / 2)) (sin (t / 2) * (x3 a / n)) (sin (t / 2) * (y3 a / n)) (sin (t / 2) * (z3 a / n)).
(** What a joint variable of value x does to a point of the child link. *)
Definition joint_moves (j : ujoint) (x : R) (v : v3) : v3 :=
  match uj_type j with
  | Revolute | Continuous => turn (about (uj_axis j) x) v
  | Prismatic => let a := uj_axis j in let n := sqrt (dot3 a a) in add3 (V3r (x * (x3 a / n)) (x * (y3 a / n)) (x * (z3 a / n))) v
  | _ => v
  end.
(** The point v of the last link of a chain, seen from the root: each joint moves it and puts it
    at the joint's origin in the parent. *)
Fixpoint chain_point (q : list R) (p : list (ujoint * nat)) (v : v3) : v3 :=
  match p with
  | [] => v
  | (j, k) :: r => add3 (uj_pos j) (turn (uj_rot j) (joint_moves j (nth k q 0) (chain_point q r v)))
  end.
(** A proper description: unit quaternions, axes that are not zero, no name twice. *)
Fixpoint proper_joints (ls : links) : Prop :=
  match ls with
  | NoLink => True
  | Link _ j cs rest => unit_quat (uj_rot j) /\ (has_variable j = 1%nat -> uj_axis j <> V3r 0 0 0) /\ proper_joints cs /\ proper_joints rest
  end.
Definition proper_robot (root : name) (ls : links) : Prop := proper_joints ls /\ NoDup (root :: link_names ls).

(** The link the (k+1)-st body added is fixed to: "body" and k+1 in decimal, as in "body12". *)
Definition names_body (n : name) (k : nat) : Prop :=
  exists t, n = list_ascii_of_string "body" ++ t /\ whole t = Some (Z.of_nat k + 1)%Z /\ hd_error t <> Some "0"%char.
Definition has_bodies (ls : links) (count : nat) : Prop :=
  forall k, (k < count)%nat -> exists n, names_body n k /\ In n (link_names ls).
(** The points of an articulated robot whose base is placed by g: the base is centred at the base
    frame, the k-th body added is fixed to the link with its name, in its given pose. *)
Definition base_points (base : squad) : v3 -> Prop :=
  in3 (Body3 (nth 0 (sq_axes base) 0) (nth 1 (sq_axes base) 0) (nth 2 (sq_axes base) 0) (nth 0 (sq_eps base) 0) (nth 1 (sq_eps base) 0)
         (V3r 0 0 0) (Q 1 0 0 0)).
Definition articulated_points (base : squad) (bodies : list squad) (ls : links) (q : list R) (g : tf3) (x : v3) : Prop :=
  (exists v, base_points base v /\ x = move3 g v) \/
  (exists k l0 n p v, nth_error bodies k = Some l0 /\ names_body n k /\ leads 0 ls n p /\ in3 (body_of3 l0) v /\ x = move3 g (chain_point q p v)).
