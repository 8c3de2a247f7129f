(** Specification vocabulary for roadmap graphs. *)
From Coq Require Import List Arith.
From Verif.Base Require Import Outcome Float64.
From Verif.Model Require Import MScalar MDistance MFreeSpace MGraph.
Import ListNotations.

(** Every edge has a weight; endpoints are vertices; the weight is the library's
    Euclidean distance of the endpoints. *)
Definition well_formed (g : graph) : Prop :=
  length (gweight g) = length (gedge g) /\
  forall k a b, nth_error (gedge g) k = Some (a, b) ->
    exists v1 v2 w, nth_error (gvert g) a = Some v1 /\ nth_error (gvert g) b = Some v2 /\
      nth_error (gweight g) k = Some w /\ vec_euclid F64 v1 v2 = Ok w.

(** [g'] only appends to [g]. *)
Definition extends (g g' : graph) : Prop :=
  (exists vs, gvert g' = gvert g ++ vs) /\
  (exists es, gedge g' = gedge g ++ es) /\
  (exists ws, gweight g' = gweight g ++ ws).

(** Every edge of [g'] that [g] does not have (position beyond the old list) joins
    vertices [a], [b] with poses related by [J]. *)
Definition new_edges (g g' : graph) (J : nat -> nat -> pose -> pose -> Prop) : Prop :=
  forall k a b, length (gedge g) <= k -> nth_error (gedge g') k = Some (a, b) ->
    exists v1 v2, nth_error (gvert g') a = Some v1 /\ nth_error (gvert g') b = Some v2 /\ J a b v1 v2.

(** Position of free segment [j] of line [i] of a slice: vertex [plane[i] + j]. *)
Definition seg_vertex (plane : list nat) (seg : freeseg) (i j a : nat) : Prop :=
  exists n xm, nth_error plane i = Some n /\ nth_error (fxM seg) i = Some xm /\ j < length xm /\ a = n + j.

(** Segments [j] and [j+1] of line [i] touch (gap below 1e-6). *)
Definition touching (seg : freeseg) (i j : nat) : Prop :=
  exists ru rl xu xl, nth_error (fxU seg) i = Some ru /\ nth_error ru j = Some xu /\
    nth_error (fxL seg) i = Some rl /\ nth_error rl (j + 1) = Some xl /\
    fltb (fabs (fsub xu xl)) cEPS = true.

(** The per-line vertices in order. *)
Definition line_vertices (mk : f64 -> f64 -> pose) (ty : list f64) (xms : list (list f64)) : list (list pose) :=
  map (fun p => map (mk (fst p)) (snd p)) (combine ty xms).
