(** Specification for C84: exact lengths of walks in a roadmap. *)
From Coq Require Import List Arith Reals.
From Verif.Base Require Import Outcome Float64 FloatFacts.
From Verif.Model Require Import MGraph.
From Verif.Spec Require Import SSearch.
Import ListNotations.
Local Open Scope R_scope.

(** Squared Euclidean distance of two vertices of the same dimension, in exact arithmetic. *)
Fixpoint sqdist (a b : list f64) : R :=
  match a, b with x :: a', y :: b' => (fval x - fval y) * (fval x - fval y) + sqdist a' b' | _, _ => 0 end.
Definition apart (g : graph) (a b : nat) : R :=
  match nth_error (gvert g) a, nth_error (gvert g) b with Some v, Some w => sqrt (sqdist v w) | _, _ => 0 end.
(** The exact length of a walk given by its vertices. *)
Fixpoint walk_length (g : graph) (l : list nat) : R :=
  match l with a :: ((b :: _) as r) => apart g a b + walk_length g r | _ => 0 end.
(** All vertices have m coordinates. *)
Definition dimension (g : graph) (m : nat) : Prop := forall v, In v (gvert g) -> length v = m.
(** The rounding errors of a search in a roadmap with n vertices of m coordinates. *)
Definition excess (g : graph) (m : nat) : R := INR (length (gvert g)) * (INR m + 4) / 2 ^ 46.
Definition speck (g : graph) : R := INR (length (gvert g)) / 2 ^ 500.
(** [ids] leads from a to b in the roadmap and no walk from a to b is shorter, up to rounding. *)
Definition nearly_shortest (g : graph) (m : nat) (a b : nat) (ids : list nat) : Prop :=
  walk_between g b a ids /\ forall l, walk_between g b a l -> walk_length g ids <= (1 + excess g m) * walk_length g l + speck g.
