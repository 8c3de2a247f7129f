(** Witnesses for the spatial intersection properties. *)
From Coq Require Import List Bool Reals Lra Lia ZArith Arith.
From Verif.Base Require Import Outcome Float64 FloatFacts.
From Verif.Model Require Import MScalar MLine2D MLine3D.
From Verif.Spec Require Import SLine3D.
From Verif.Proofs Require Import PLine2D PLine3D.
Import ListNotations.

Definition vsame (a b : vec3 F64) : bool :=
  fsame (vx a) (vx b) && fsame (vy a) (vy b) && fsame (vz a) (vz b).
Lemma vsame_eq a b : vsame a b = true <-> a = b.
Proof.
  unfold vsame. rewrite !andb_true_iff, !fsame_eq. destruct a, b; simpl. split; [intros [[-> ->] ->]; auto|].
  intros [= -> -> ->]; auto.
Qed.
Definition fv (x y z : Z) : vec3 F64 := @V3 F64 (fofZ x) (fofZ y) (fofZ z).

(** A thin triangle: corners (0,0,0), (1,0,0), (1,1e-9,0); the vertical line at
    (100, 0). *)
Definition sliver_v : vec3 F64 := @V3 F64 (fofZ 1) (fdec 1 9) (fofZ 0).
Definition far_line : line3 F64 := @L3 F64 (fv 100 0 0) (fv 0 0 1).
Lemma sliver_hit_b : match line_triangle F64 far_line (fv 0 0 0) (fv 1 0 0) sliver_v with
  | Some p => vsame p (fv 100 0 0) | None => false end = true.
Proof. vm_compute. reflexivity. Qed.
Lemma sliver_hit : line_triangle F64 far_line (fv 0 0 0) (fv 1 0 0) sliver_v = Some (fv 100 0 0).
Proof.
  pose proof sliver_hit_b as H. destruct (line_triangle _ _ _ _ _) as [p|]; [|discriminate].
  apply vsame_eq in H. subst; reflexivity.
Qed.

(** The octahedron |x|+|y|+|z| <= 1. *)
Definition octa : mesh F64 := @Mesh F64
  [fv 0 0 1; fv 1 0 0; fv 0 1 0; fv (-1) 0 0; fv 0 (-1) 0; fv 0 0 (-1)]
  [(0,1,2); (0,2,3); (0,3,4); (0,4,1); (5,1,2); (5,2,3); (5,3,4); (5,4,1)]%nat.
Definition z_axis : line3 F64 := @L3 F64 (fv 0 0 0) (fv 0 0 1).
Lemma octa_b : match vertical_line_mesh F64 z_axis octa with
  | Ok [p; q] => vsame p (fv 0 0 1) && vsame q (fv 0 0 1) | _ => false end = true.
Proof. vm_compute. reflexivity. Qed.
Lemma octa_hits : vertical_line_mesh F64 z_axis octa = Ok [fv 0 0 1; fv 0 0 1].
Proof.
  pose proof octa_b as H. destruct (vertical_line_mesh _ _ _) as [[|p [|q [|]]]| |]; try discriminate.
  apply andb_true_iff in H. rewrite !vsame_eq in H. destruct H as [-> ->]. reflexivity.
Qed.
Lemma octa_bottom_b : match face_hit F64 z_axis (fv 0 0 (-1), fv 1 0 0, fv 0 1 0) with
  | Some p => vsame p (fv 0 0 (-1)) | None => false end = true.
Proof. vm_compute. reflexivity. Qed.
Lemma octa_bottom : face_hit F64 z_axis (fv 0 0 (-1), fv 1 0 0, fv 0 1 0) = Some (fv 0 0 (-1)).
Proof.
  pose proof octa_bottom_b as H. destruct (face_hit _ _ _) as [p|]; [|discriminate].
  apply vsame_eq in H. subst; reflexivity.
Qed.

(** A nearly vertical line, direction (1e-7, 0, 1), starting at x = -1 and hitting
    a horizontal triangle at height 1e7. *)
Definition tilted : line3 F64 := @L3 F64 (fv (-1) 0 0) (@V3 F64 (fdec 1 7) (fofZ 0) (fofZ 1)).
Definition plate : mesh F64 := @Mesh F64
  [@V3 F64 (fdec (-5) 1) (fofZ (-1)) (fofZ 10000000); @V3 F64 (fdec 5 1) (fofZ (-1)) (fofZ 10000000);
   @V3 F64 (fofZ 0) (fofZ 1) (fofZ 10000000)] [(0,1,2)]%nat.
Lemma tilted_b : match line_mesh F64 tilted plate with Ok [] => true | _ => false end &&
  match face_pts F64 plate (0,1,2)%nat with Ok abc =>
    match face_hit F64 tilted abc with Some p => vsame p (fv 0 0 10000000) | None => false end | _ => false end = true.
Proof. vm_compute. reflexivity. Qed.
Lemma tilted_lost : line_mesh F64 tilted plate = Ok [] /\
  exists abc, face_pts F64 plate (0,1,2)%nat = Ok abc /\ face_hit F64 tilted abc = Some (fv 0 0 10000000).
Proof.
  pose proof tilted_b as H. apply andb_true_iff in H. destruct H as [H1 H2]. split.
  - clear H2. destruct (line_mesh _ _ _) as [[|]| |]; try discriminate H1; reflexivity.
  - clear H1. destruct (face_pts _ _ _) as [abc| |]; try discriminate H2. exists abc. split; [reflexivity|].
    destruct (face_hit _ _ _) as [p|]; [|discriminate H2]. apply vsame_eq in H2. subst; reflexivity.
Qed.
