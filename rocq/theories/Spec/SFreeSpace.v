(** Specification vocabulary for the sweep-line free-space computation. *)
From Coq Require Import List Reals Bool.
From Flocq Require Import Core.Core.
From Verif.Base Require Import Outcome Float64.
From Verif.Model Require Import MInterval MFreeSpace.
From Verif.Spec Require Import SInterval.
Import ListNotations.
Local Open Scope R_scope.

(** A recorded (low, upp) pair that is not NaN-marked. *)
Definition numeric (p : f64 * f64) : Prop := fisnan (fst p) = false /\ fisnan (snd p) = false.

(** [x] is in the (topological) interior of the union of the recorded obstacle
    intervals: every point close enough to [x] lies in some obstacle interval.
    Being strictly inside one obstacle interval is the typical case; the common
    end of two touching obstacle intervals is the other one. *)
Definition obstructed (O : list (f64 * f64)) (x : R) : Prop :=
  exists d, 0 < d /\ forall y, Rabs (y - x) < d ->
    exists p, In p O /\ numeric p /\ fval (fst p) <= y <= fval (snd p).

(** A point of the sweep line is free w.r.t. the recorded arena pairs [A] and
    obstacle pairs [O]: there is an arena, the point is in every arena interval,
    and it is not in the interior of the obstacles. *)
Definition free_on_line (A O : list (f64 * f64)) (x : R) : Prop :=
  (exists p, In p A /\ numeric p) /\
  (forall p, In p A -> numeric p -> fval (fst p) <= x <= fval (snd p)) /\
  ~ obstructed O x.

(** A sweep line's three lists as triples. *)
Definition triple_ok (l m u : f64) : Prop :=
  fisnan l = false /\ fisnan m = false /\ fisnan u = false /\ fval l <= fval m <= fval u.

(** The segments of a line before enhancement: same number of lows, mids and
    highs, each triple ordered, segments increasing (possibly touching). *)
Fixpoint triples (ls ms us : list f64) : list (f64 * f64 * f64) :=
  match ls, ms, us with
  | l :: ls', m :: ms', u :: us' => (l, m, u) :: triples ls' ms' us'
  | _, _, _ => []
  end.
Fixpoint inc_triples (t : list (f64 * f64 * f64)) : Prop :=
  match t with
  | (_, _, u) :: (((l', _, _) :: _) as t') => fval u <= fval l' /\ inc_triples t'
  | _ => True
  end.
Definition row_ok (r : row) : Prop :=
  length (rL r) = length (rM r) /\ length (rU r) = length (rM r) /\
  Forall (fun '(l, m, u) => triple_ok l m u) (triples (rL r) (rM r) (rU r)) /\
  inc_triples (triples (rL r) (rM r) (rU r)).

(** [p] is a point of some segment of the line [r]. *)
Definition in_segment_of (r : row) (p : f64) : Prop :=
  exists k l u, nth_error (rL r) k = Some l /\ nth_error (rU r) k = Some u /\
    fisnan p = false /\ fval l <= fval p <= fval u.

(** -- intersection tables -- *)
(** The pair recorded for an arena / obstacle boundary whose sweep-line
    intersection list is [hits]: no hit = the default, otherwise built from the
    first two hits (later ones are ignored). *)
Definition arena_pair (low upp : f64) (hits : list f64) : f64 * f64 :=
  match hits with
  | h0 :: h1 :: _ => (ffmin low (ffmin h0 h1), ffmax upp (ffmax h0 h1))
  | _ => (low, upp)
  end.
Definition obstacle_pair (hits : list f64) : f64 * f64 :=
  match hits with
  | h0 :: h1 :: _ => (ffmin h0 h1, ffmax h0 h1)
  | _ => (fnan, fnan)
  end.

(** Tables with [n] lines, [na] arena and [no] obstacle columns. *)
Definition shape (n w : nat) (tbl : list (list f64)) : Prop :=
  length tbl = n /\ Forall (fun r => length r = w) tbl.
Definition tables_shape (n na no : nat) (t : tables) : Prop :=
  shape n na (arenaLow t) /\ shape n na (arenaUpp t) /\
  shape n no (obstacleLow t) /\ shape n no (obstacleUpp t).

(** Line [i] of the tables holds exactly these pairs. *)
Definition line_holds (t : tables) (i : nat) (A O : list (f64 * f64)) : Prop :=
  nth_error (arenaLow t) i = Some (map fst A) /\ nth_error (arenaUpp t) i = Some (map snd A) /\
  nth_error (obstacleLow t) i = Some (map fst O) /\ nth_error (obstacleUpp t) i = Some (map snd O).

(** Recorded arena bounds are numbers of magnitude at most 2^1022 (so that the
    midpoint computation cannot overflow). *)
Definition arena_moderate (A : list (f64 * f64)) : Prop :=
  forall p, In p A -> numeric p -> Rabs (fval (fst p)) <= bpow radix2 1022 /\
                                   Rabs (fval (snd p)) <= bpow radix2 1022.
Definition obstacle_ordered (O : list (f64 * f64)) : Prop :=
  forall p, In p O -> numeric p -> fval (fst p) <= fval (snd p).

(** The lows, mids and highs of a line give, entry by entry, an ordered triple
    whose whole segment [low, high] consists of free points. *)
Definition segments_free (A O : list (f64 * f64)) (ls ms us : list f64) : Prop :=
  length ls = length ms /\ length us = length ms /\
  forall k l m u, nth_error ls k = Some l -> nth_error ms k = Some m -> nth_error us k = Some u ->
    triple_ok l m u /\ (forall x, fval l <= x <= fval u -> free_on_line A O x).

(** The distance-1 overlap-free order of the segments of a line. *)
Definition covered_by (ls us : list f64) (x : R) : Prop :=
  exists k l u, nth_error ls k = Some l /\ nth_error us k = Some u /\ fval l <= x <= fval u.
