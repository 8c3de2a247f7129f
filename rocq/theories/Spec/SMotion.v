(** Specification vocabulary for the collision tests of the planners. *)
From Coq Require Import List Bool Arith ZArith Reals.
From Verif.Base Require Import Outcome Float64.
From Verif.Model Require Import MScalar MFreeSpace MLine2D MLine3D MInterp MGraph MHRM2D MHRM3D.
From Verif.Spec Require Import SLine2D SLine3D.
Import ListNotations.

(** ---- binary64: what is tested ---- *)
(** Coordinate-wise (1 - t) a + t b. *)
Definition blended (t : f64) (v1 v2 v : pose) : Prop :=
  length v = length v1 /\ length v1 <= length v2 /\
  forall j a b, nth_error v1 j = Some a -> nth_error v2 j = Some b ->
    nth_error v j = Some (fadd (fmul (fsub fone t) a) (fmul t b)).
(** [x] is not strictly between the first two of the abscissae (none is enough). *)
Definition not_between (x : f64) (hits : list f64) : Prop :=
  hits = [] \/ exists h0 h1 rest, hits = h0 :: h1 :: rest /\ (fltb (ffmin h0 h1) x && fltb x (ffmax h0 h1))%bool = false.
(** A body centre clear of a planar boundary / a mesh, by ray casting. *)
Definition clear_of (c : f64 * f64) (b : poly64) : Prop :=
  exists hits, hline_polygon F64 (snd c) b = Ok hits /\ not_between (fst c) hits.
Definition clear_of3 (c : pt3) (m : mesh64) : Prop :=
  let '(x, y, z) := c in
  exists hits, vertical_line_mesh F64 (L3 (S := F64) (V3 (S := F64) x y z) (V3 (S := F64) (fofZ 0) (fofZ 0) (fofZ 1))) m = Ok hits /\
    not_between z (map vz hits).
(** Every body (base first, then links) clear of all boundaries listed for it. *)
Definition bodies_clear {C B : Type} (clear : C -> B -> Prop) (bridge : list (list B)) (bodies : C * list C) : Prop :=
  forall k c, nth_error (fst bodies :: snd bodies) k = Some c ->
    exists bs, nth_error bridge k = Some bs /\ forall b, In b bs -> clear c b.

(** ---- exact reals: what the tests mean ---- *)
Local Open Scope R_scope.
(** Strictly between the end points of a segment. *)
Definition strictly_inside (t1 t2 p : rvec) : Prop := exists k, 0 < k < 1 /\ p = radd t1 (rscale k (rsub t2 t1)).
(** A mesh given by real vertices and faces, all faces with existing vertices. *)
Definition rmesh : Type := (list rvec * list (nat * nat * nat))%type.
Definition mesh_ok (m : rmesh) : Prop := fst m <> [] /\ Forall (face_ok (length (fst m))) (snd m).
Definition lift_rmesh (m : rmesh) : mesh XR := lift_mesh (fst m) (snd m).
(** Unit direction. *)
Definition direction (t1 t2 : rvec) : rvec := rscale (/ rnorm (rsub t2 t1)) (rsub t2 t1).
(** The line meets at most two faces (tolerance included). *)
Definition two_faces (o d : rvec) (m : rmesh) : Prop :=
  forall ps, pick (good_face (fst m) o d) (snd m) ps -> (length ps <= 2)%nat.
(** No component of the direction is small without being zero. *)
Definition not_tiny (x : R) : Prop := x = 0 \/ / 10 ^ 6 <= Rabs x.
