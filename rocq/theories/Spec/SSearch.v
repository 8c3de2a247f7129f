(** Specification vocabulary for graph search. *)
From Coq Require Import List Arith Bool ZArith Reals.
From Verif.Base Require Import Outcome Float64.
From Verif.Model Require Import MGraph MSearch MAStar.
Import ListNotations.

(** The roadmap is undirected. *)
Definition adj (g : graph) (a b : nat) : Prop := In (a, b) (gedge g) \/ In (b, a) (gedge g).

(** [l] lists the vertices of a walk of the roadmap from [a] to [b]. *)
Inductive walk_between (g : graph) (b : nat) : nat -> list nat -> Prop :=
| wb_end : walk_between g b b [b]
| wb_step a c l : adj g a c -> walk_between g b c l -> walk_between g b a (a :: l).
Definition connected (g : graph) (a b : nat) : Prop := exists l, walk_between g b a l.

(** Following the predecessor map [p] from [x] visits exactly [l], along roadmap
    edges, until [s] is met for the first time. *)
Inductive pred_chain (g : graph) (p : list nat) (s : nat) : nat -> list nat -> Prop :=
| pc_end : pred_chain g p s s [s]
| pc_step x y l : x <> s -> nth_error p x = Some y -> adj g x y -> pred_chain g p s y l ->
    pred_chain g p s x (x :: l).

(** What is used of boost::astar_search (proved of the model of it in C51): a
    reported goal has a predecessor chain to the source, without repetition. *)
Definition astar_sound (g : graph) (astar : graph -> nat -> nat -> option (list nat)) : Prop :=
  forall s t p, s < length (gvert g) -> t < length (gvert g) -> astar g s t = Some p ->
    exists l, pred_chain g p s t l /\ length l <= length (gvert g).
Definition astar_complete (g : graph) (astar : graph -> nat -> nat -> option (list nat)) : Prop :=
  forall s t, s < length (gvert g) -> t < length (gvert g) -> astar g s t = None -> ~ connected g s t.

(** The sum the code reports as cost: the weights at the positions given by the
    vertex ids of the chain, last vertex (the start) excluded. *)
Fixpoint id_cost (weight : list f64) (acc : f64) (l : list nat) : outcome f64 :=
  match l with
  | x :: ((_ :: _) as r) => obind (idx weight x) (fun w => id_cost weight (fadd acc w) r)
  | _ => Ok acc
  end.

(** The length of a path: the weights of its edges (first matching edge). *)
Fixpoint edge_weight (es : list (nat * nat)) (ws : list f64) (a b : nat) : option f64 :=
  match es, ws with
  | (x, y) :: es', w :: ws' =>
      if (Nat.eqb x a && Nat.eqb y b) || (Nat.eqb x b && Nat.eqb y a) then Some w else edge_weight es' ws' a b
  | _, _ => None
  end.
Fixpoint path_length (g : graph) (acc : f64) (l : list nat) : option f64 :=
  match l with
  | x :: ((y :: _) as r) =>
      match edge_weight (gedge g) (gweight g) x y with
      | Some w => path_length g (fadd acc w) r
      | None => None
      end
  | _ => Some acc
  end.

(** A roadmap whose numbers cannot overflow: finite coordinates of size at most 2^300,
    at most 2^53 vertices and coordinates per vertex. *)
Definition tame (g : graph) : Prop :=
  (Z.of_nat (length (gvert g)) <= 2 ^ 53)%Z /\
  forall v, In v (gvert g) -> (Z.of_nat (length v) <= 2 ^ 53)%Z /\
    forall x, In x v -> fisfin x = true /\ (Rabs (fval x) <= IZR (2 ^ 300))%R.

(** On the roadmap [g] the search function [astar] is boost's A*: some heap and
    enough iterations give its answer. *)
Definition astar_is_boost (g : graph) (astar : graph -> nat -> nat -> option (list nat)) : Prop :=
  forall s t, s < length (gvert g) -> t < length (gvert g) ->
    exists top fuel, heap_ok fltb top /\ boost_astar top fuel g s t = Some (astar g s t).

(** Every success reported by the search function is one of boost's A*. *)
Definition astar_from_boost (astar : graph -> nat -> nat -> option (list nat)) : Prop :=
  forall g s t p, astar g s t = Some p -> exists top fuel, heap_ok fltb top /\ boost_astar top fuel g s t = Some (Some p).
