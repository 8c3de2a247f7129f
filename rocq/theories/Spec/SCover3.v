(** Specification vocabulary: meshes through the boundary points getMinkSum3D returns, read in the
    exact-arithmetic scalars. *)
From Coq Require Import List Reals.
From Verif.Base Require Import Float64.
From Verif.Model Require Import MScalar MLine3D MGeom.
From Verif.Spec Require Import SLine3D SGeom.
Import ListNotations.
Local Open Scope R_scope.

(** The mesh with the returned points as vertices. *)
Definition sampled_vertex (o : option v3) : vec3 XR :=
  match o with Some p => @V3 XR (Some (x3 p)) (Some (y3 p)) (Some (z3 p)) | None => @V3 XR None None None end.
Definition sampled_mesh (bd : list (option v3)) (fs : list (nat * nat * nat)) : mesh XR := @Mesh XR (map sampled_vertex bd) fs.
(** The vertical line through (x, y). *)
Definition vertical_at (x y : R) : line3 XR := lift_line (RV x y 0) (RV 0 0 1).
(** The number [h] is the height of one of the hits. *)
Definition height_of (h : R) (hits : list (vec3 XR)) : Prop := exists p, In p hits /\ vz p = Some h.
(** No coordinates of two returned points differ by more than [D]. *)
Definition spread (bd : list (option v3)) (D : R) : Prop :=
  forall u v, In (Some u) bd -> In (Some v) bd ->
    Rabs (x3 u - x3 v) <= D /\ Rabs (y3 u - y3 v) <= D /\ Rabs (z3 u - z3 v) <= D.
(** No coordinate of the two positions differs by more than [e]. *)
Definition near3 (e : R) (u v : v3) : Prop := Rabs (x3 u - x3 v) <= e /\ Rabs (y3 u - y3 v) <= e /\ Rabs (z3 u - z3 v) <= e.
Definition dist3 (u v : v3) : R :=
  sqrt ((x3 u - x3 v) * (x3 u - x3 v) + (y3 u - y3 v) * (y3 u - y3 v) + (z3 u - z3 v) * (z3 u - z3 v)).
(** The double-precision mesh [m] has the returned points as vertices, each coordinate up to [eps]. *)
Definition mesh_near (eps : R) (m : mesh F64) (bd : list (option v3)) : Prop :=
  Forall2 (fun (w : vec3 F64) (o : option v3) => exists p : v3, o = Some p /\ Rabs (fval (vx w) - x3 p) <= eps /\ Rabs (fval (vy w) - y3 p) <= eps /\ Rabs (fval (vz w) - z3 p) <= eps) (mverts m) bd.
