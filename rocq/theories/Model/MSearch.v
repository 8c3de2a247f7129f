(** Model of the graph search and path extraction of
    include/hrm/planners/HighwayRoadMap-inl.h. *)
From Coq Require Import List Bool Arith ZArith.
From Verif.Base Require Import Outcome Float64.
From Verif.Model Require Import MScalar MDistance MFreeSpace MGraph.
Import ListNotations.
Local Open Scope outcome_scope.

(** The [while] loop, HighwayRoadMap-inl.h:151-159.  [k] is the number of
    iterations still allowed by [num <= num_vtx], i.e. num_vtx + 1 - num. *)
Fixpoint walk (p : list nat) (weight : list f64) (s : nat) (k num : nat) (path : list nat) (cost : f64)
  : outcome (list nat * f64 * nat) :=
  do x <- idx path num;
  if Nat.eqb x s then Ok (path, cost, num) else
  match k with
  | 0 => Ok (path, cost, num)
  | S k' =>
      do y <- idx p x;
      do w <- idx weight x;
      walk p weight s k' (num + 1) (path ++ [y]) (fadd cost w)
  end.

(** What search leaves in the planning result: solved, PathId, cost. *)
Record sol : Type := Sol { s_solved : bool; s_path : list nat; s_cost : f64 }.

Section Search.
(** boost::astar_search from [s] with a visitor that stops at [t]: [Some p] when
    the goal is reached (exception AStarFoundGoal), with predecessor map [p];
    [None] when the search ends without reaching it.  The library itself is not
    modelled here (see Model/MAStar.v). *)
Variable astar : graph -> nat -> nat -> option (list nat).

(** Body of the double loop, lines 130-173: returns the updated result and whether
    [return] was executed. *)
Definition try_pair (g : graph) (s t : nat) (r : sol) : outcome (sol * bool) :=
  match astar g s t with
  | None => Ok (r, false)
  | Some p =>
      let n := length (gvert g) in
      do w <- walk p (gweight g) s (n + 1) 0 (s_path r ++ [t]) (fofZ 0);
      let '(path, cost, num) := w in
      if Nat.eqb num (n + 1) then Ok (Sol (s_solved r) [] finf, false)
      else Ok (Sol true (rev path) cost, true)
  end.

Fixpoint try_pairs (g : graph) (ps : list (nat * nat)) (r : sol) : outcome sol :=
  match ps with
  | [] => Ok r
  | (s, t) :: rest =>
      do x <- try_pair g s t r;
      if snd x then Ok (fst x) else try_pairs g rest (fst x)
  end.

(** search, HighwayRoadMap-inl.h:109-175; [ss], [ts] are the neighbours of start
    and goal.  The loop that builds the boost graph (lines 115-119) reads
    weight[i] for every edge.  Simplification: an edge endpoint beyond the vertex
    list would enlarge the boost graph; the graphs built by the planners have none
    (C18). *)
Definition search (g : graph) (ss ts : list nat) (r : sol) : outcome sol :=
  if Nat.ltb (length (gweight g)) (length (gedge g)) then UB else
  try_pairs g (list_prod ss ts) r.
End Search.

(** [v.resize(n)] pads with zeros. *)
Definition resize_pose (v : pose) (n : nat) : pose := resize v n fzero.

(** getSolutionPath, HighwayRoadMap-inl.h:263-283. *)
Definition solution_path (g : graph) (start goal : pose) (path : list nat) : outcome (list pose) :=
  do v0 <- at_ (gvert g) 0;
  do mid <- omap (fun i => at_ (gvert g) i) path;
  Ok (resize_pose start (length v0) :: mid ++ [resize_pose goal (length v0)]).

(** getInterpolatedSolutionPath of the base class, HighwayRoadMap-inl.h:285-291: a
    copy of the solved path; [num] is not used. *)
Definition interpolated_path (solved : list pose) (num : nat) : list pose := solved.
