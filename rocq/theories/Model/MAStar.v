(** Model of the boost::astar_search call of HighwayRoadMap-inl.h:130-146: boost's
    generic algorithm (boost/graph/astar_search.hpp, breadth_first_search.hpp,
    relax.hpp) on the undirected roadmap graph with the visitor that throws
    AStarFoundGoal when the goal is examined.  The d-ary heap is abstracted to
    "some queued vertex of least cost" ([top]).  Simplifications: the second
    comparison in relax (a guard against x87 extra precision) and the
    negative_edge check (weights are square roots) are dropped. *)
From Coq Require Import List Bool Arith ZArith.
From Verif.Base Require Import Outcome Float64.
From Verif.Model Require Import MScalar MDistance MGraph.
Import ListNotations.

Inductive color : Type := White | Gray | Black.
Definition set {A} (f : nat -> A) (k : nat) (a : A) : nat -> A := fun x => if Nat.eqb x k then a else f x.

Section AStar.
(** Distances: comparison, closed_plus, infinity, zero. *)
Variable W : Type.
Variable wlt : W -> W -> bool.
Variable wplus : W -> W -> W.
Variables winf wzero : W.
(** Out-edges of a vertex with their weights; heuristic; heap. *)
Variable out : nat -> list (nat * W).
Variable h : nat -> W.
Variable top : (nat -> W) -> list nat -> nat.

Record ast : Type := Ast {
  a_dist : nat -> W; a_cost : nat -> W; a_pred : nat -> nat; a_col : nat -> color; a_queue : list nat
}.

(** relax, boost/graph/relax.hpp (undirected version). *)
Definition relax (u v : nat) (w : W) (s : ast) : ast * bool :=
  let c := wplus (a_dist s u) w in
  if wlt c (a_dist s v) then
    (Ast (set (a_dist s) v c) (a_cost s) (set (a_pred s) v u) (a_col s) (a_queue s), true)
  else
    let c' := wplus (a_dist s v) w in
    if wlt c' (a_dist s u) then
      (Ast (set (a_dist s) u c') (a_cost s) (set (a_pred s) u v) (a_col s) (a_queue s), true)
    else (s, false).
(** relax, then the cost update of tree_edge / gray_target / black_target. *)
Definition relax_cost (u v : nat) (w : W) (s : ast) : ast * bool :=
  let '(s1, b) := relax u v w s in
  if b then (Ast (a_dist s1) (set (a_cost s1) v (wplus (a_dist s1 v) (h v))) (a_pred s1) (a_col s1) (a_queue s1), true)
  else (s1, false).
Definition push (v : nat) (s : ast) : ast :=
  Ast (a_dist s) (a_cost s) (a_pred s) (set (a_col s) v Gray) (a_queue s ++ [v]).
(** One out-edge, breadth_first_search.hpp (breadth_first_visit) with
    astar_bfs_visitor. *)
Definition edge_step (u : nat) (s : ast) (e : nat * W) : ast :=
  let '(v, w) := e in
  match a_col s v with
  | White => push v (fst (relax_cost u v w s))
  | Gray => fst (relax_cost u v w s)
  | Black => let '(s1, b) := relax_cost u v w s in if b then push v s1 else s1
  end.
Definition pop (u : nat) (s : ast) : ast :=
  Ast (a_dist s) (a_cost s) (a_pred s) (a_col s) (remove Nat.eq_dec u (a_queue s)).
Definition blacken (u : nat) (s : ast) : ast :=
  Ast (a_dist s) (a_cost s) (a_pred s) (set (a_col s) u Black) (a_queue s).
Definition examine (u : nat) (s : ast) : ast :=
  blacken u (fold_left (edge_step u) (out u) (pop u s)).

(** The [while] loop; [None]: out of fuel, [Some None]: the queue is empty,
    [Some (Some s)]: the goal was examined (AStarFoundGoal). *)
Fixpoint astar_loop (fuel : nat) (t : nat) (s : ast) : option (option ast) :=
  match a_queue s with
  | [] => Some None
  | _ =>
      let u := top (a_cost s) (a_queue s) in
      if Nat.eqb u t then Some (Some s) else
      match fuel with
      | 0 => None
      | S f => astar_loop f t (examine u s)
      end
  end.
(** astar_search: initialisation. *)
Definition astar_init (src : nat) : ast :=
  Ast (set (fun _ => winf) src wzero) (set (fun _ => winf) src (h src)) (fun v => v)
      (set (fun _ => White) src Gray) [src].
End AStar.
Arguments a_dist {W}. Arguments a_cost {W}. Arguments a_pred {W}. Arguments a_col {W}. Arguments a_queue {W}.
Arguments Ast {W}.

(** The adjacency of the boost graph: out-edges in insertion order, each edge seen
    from both ends (HighwayRoadMap-inl.h:113-119; vecS, undirectedS). *)
Definition out_edges {W} (es : list ((nat * nat) * W)) (u : nat) : list (nat * W) :=
  flat_map (fun '((a, b), w) =>
    (if Nat.eqb a u then [(b, w)] else []) ++ (if Nat.eqb b u then [(a, w)] else [])) es.

(** boost's closed_plus<double> with infinity = numeric_limits<double>::max(). *)
Definition closed_plus (a b : f64) : f64 :=
  if feqb a fdblmax then fdblmax else if feqb b fdblmax then fdblmax else fadd a b.

(** The heuristic, HighwayRoadMap-inl.h:133-138 (unchecked reads of valid ids). *)
Definition heuristic (g : graph) (t v : nat) : f64 :=
  match nth_error (gvert g) v, nth_error (gvert g) t with
  | Some a, Some b => match vec_euclid F64 a b with Ok d => d | _ => fnan end
  | _, _ => fnan
  end.

(** The whole call: the predecessor map of the final state. *)
Definition boost_astar (top : (nat -> f64) -> list nat -> nat) (fuel : nat) (g : graph) (s t : nat)
  : option (option (list nat)) :=
  match astar_loop f64 fltb closed_plus (out_edges (combine (gedge g) (gweight g))) (heuristic g t) top fuel t
          (astar_init f64 fdblmax fzero (heuristic g t) s) with
  | None => None
  | Some None => Some None
  | Some (Some st) => Some (Some (map (a_pred st) (seq 0 (length (gvert g)))))
  end.

(** A heap returns a queued vertex of least cost. *)
Definition heap_ok {W} (wlt : W -> W -> bool) (top : (nat -> W) -> list nat -> nat) : Prop :=
  forall cost q, q <> [] -> In (top cost q) q /\ forall x, In x q -> wlt (cost x) (cost (top cost q)) = false.
(** The first least element, to run the model. *)
Definition first_top (cost : nat -> f64) (q : list nat) : nat :=
  match q with
  | [] => 0
  | x :: r => fold_left (fun b y => if fltb (cost y) (cost b) then y else b) r x
  end.
