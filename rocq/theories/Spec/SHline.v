(** Specification vocabulary: polygons given by doubles read as polygons of the real plane, and how
    far a computed crossing may be from the exact one. *)
From Coq Require Import List Reals ZArith.
From Flocq Require Import Core.Core.
From Verif.Base Require Import Float64.
From Verif.Model Require Import MScalar MLine2D.
From Verif.Spec Require Import SLine2D SCover.
Import ListNotations.
Local Open Scope R_scope.

(** The point, the polygon of the real plane with the given coordinates. *)
Definition real_pt (p : f64 * f64) : rpoint := (fval (fst p), fval (snd p)).
Definition real_poly (P : list (f64 * f64)) : list rpoint := map real_pt P.
(** A finite double of magnitude at most 2^1021: sums and differences of two such numbers do not
    overflow. *)
Definition moderate (x : f64) : Prop := fisfin x = true /\ Rabs (fval x) <= bpow radix2 1021.
Definition moderate_poly (P : list (f64 * f64)) : Prop := forall p, In p P -> moderate (fst p) /\ moderate (snd p).
(** No vertex has an abscissa of magnitude above [M]. *)
Definition reach (P : list (f64 * f64)) (M : R) : Prop := forall p, In p P -> Rabs (fval (fst p)) <= M.
(** The error of a computed crossing: sixteen roundings of the largest abscissa. *)
Definition hit_error (M : R) : R := bpow radix2 (-49) * M + bpow radix2 (-1073).
(** (x, y) is inside the polygon by more than the error of the crossings: so are the points that far
    to its left and to its right. *)
Definition deep_inside (P : list (f64 * f64)) (M x y : R) : Prop :=
  strictly_inside (real_poly P) (x - hit_error M, y) /\ strictly_inside (real_poly P) (x + hit_error M, y).
(** No vertex of the polygon has the height [y]. *)
Definition between_vertices (P : list (f64 * f64)) (y : R) : Prop := forall v, In v P -> fval (snd v) <> y.
(** A limit of the workspace: a finite double of magnitude at most 2^898. *)
Definition limit_ok (l : f64) : Prop := fisfin l = true /\ Rabs (fval l) <= bpow radix2 898.

From Verif.Base Require Import Outcome.
From Verif.Model Require Import MHRM2D.
(** The heading read back from the robot, in whatever placement, after it was set to that of a slice
    is a finite double of magnitude at most 4. *)
Definition plain_headings (E : env) : Prop := forall r k, (k < e_numSlice E)%nat ->
  fisfin (e_angle E (e_move E r (fofZ 0) (fofZ 0) (heading E k))) = true /\ Rabs (fval (e_angle E (e_move E r (fofZ 0) (fofZ 0) (heading E k)))) <= 4.
(** The workspace and the arena's boundaries have coordinates of magnitude at most [M] (abscissae)
    and [L] (the limits of the ordinate), with at least two and at most 2^53 sweep lines. *)
Definition plain_workspace (E : env) (B : bound) (ny : nat) (l0 l1 l2 l3 : f64) (M L : R) : Prop :=
  e_limits E = [l0; l1; l2; l3] /\ (2 <= ny)%nat /\ (Z.of_nat ny <= 2 ^ 53)%Z /\ limit_ok l0 /\ limit_ok l1 /\ limit_ok l2 /\ limit_ok l3 /\ fval l2 <= fval l3 /\ Rabs (fval l0) <= M /\ Rabs (fval l1) <= M /\ Rabs (fval l2) <= L /\ Rabs (fval l3) <= L /\ (forall P, In P (barena B) -> moderate_poly P /\ reach P M).

(** ---- round robots and obstacles ---- *)
From Verif.Base Require Import Outcome.
From Verif.Model Require Import MGeom.
(** A disc: radius, centre, the heading and the number of samples of its boundary. *)
Record disc : Type := Disc { d_r : R; d_x : R; d_y : R; d_t : R; d_n : nat }.
(** The polygon [P] differs in no coordinate by more than [eps] from the boundary that getMinkSum2D
    returns, in exact arithmetic, for the obstacle [o] and a round robot of radius [A]. *)
Definition accurate_boundary (eps A : R) (P : list (f64 * f64)) (o : disc) : Prop :=
  exists bd, mink2 (SE [d_r o; d_r o] 1 [d_x o; d_y o] (d_t o) (d_n o)) (SE [A; A] 1 [0; 0] 0 (d_n o)) 1 = Ok bd /\
    Forall2 (fun p q => exists v, q = Some v /\ Rabs (fval (fst p) - x2 v) <= eps /\ Rabs (fval (snd p) - y2 v) <= eps) P bd.
