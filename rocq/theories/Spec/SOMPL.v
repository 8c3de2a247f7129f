(** Specification for C77-C79 and C83: what a history of calls amounts to. *)
From Coq Require Import List Bool Arith Reals.
From Verif.Base Require Import Outcome Float64.
From Verif.Model Require Import MOMPL.
Import ListNotations.

(** The bounds given are long enough and every lower bound is less than the upper one. *)
Definition good_bounds (k : kind) (lo hi : list f64) : Prop :=
  forall i, (i < dims k)%nat -> exists l h, nth_error lo i = Some l /\ nth_error hi i = Some h /\ fleb h l = false.
(** The number of entries a configuration must have. *)
Definition entries (k : kind) : nat := match k with Planar => 3 | Spatial => 7 | Articulated n => 7 + n end.
Definition articulated (k : kind) : Prop := match k with Articulated _ => True | _ => False end.
(** setup was called successfully, or the object is an articulated one. *)
Definition is_ready (k : kind) (cs : list call) : Prop := articulated k \/ exists lo hi, In (Setup lo hi) cs /\ good_bounds k lo hi.
(** The configurations are long enough. *)
Definition long_enough (k : kind) (s g : config) : Prop := (entries k <= length s)%nat /\ (entries k <= length g)%nat.
(** OMPL reported a solution, and within the time limit. *)
Definition reported (t : f64) (r : reply) : Prop := r_status r = Some true /\ fltb (r_time r) t = true.

(** [contributions k cs l]: l are the replies of the calls of plan that were solved and whose path
    could be simplified, in order. *)
Inductive contributions (k : kind) : list call -> list reply -> Prop :=
| co_nil : contributions k [] []
| co_setup : forall cs l lo hi, contributions k cs l -> contributions k (cs ++ [Setup lo hi]) l
| co_solved : forall cs l s g t r, contributions k cs l -> is_ready k cs -> long_enough k s g -> reported t r -> r_simple r <> None ->
    contributions k (cs ++ [Plan s g t r]) (l ++ [r])
| co_not : forall cs l s g t r, contributions k cs l -> ~ (is_ready k cs /\ long_enough k s g /\ reported t r /\ r_simple r <> None) ->
    contributions k (cs ++ [Plan s g t r]) l.
Definition states_of (r : reply) : list config := match r_simple r with Some p => p | None => [] end.

(** A call of plan in the planar case comes to its end unless the simplification throws. *)
Definition completes (k : kind) (cs : list call) (s g : config) (t : f64) (r : reply) : Prop :=
  is_ready k cs /\ long_enough k s g /\ (k = Planar -> reported t r -> r_simple r <> None).
(** [motions k cs n]: n is the number of valid motions OMPL reported in the last call of plan that
    came to its end, 0 before. *)
Inductive motions (k : kind) : list call -> nat -> Prop :=
| mo_nil : motions k [] 0
| mo_setup : forall cs n lo hi, motions k cs n -> motions k (cs ++ [Setup lo hi]) n
| mo_plan : forall cs n s g t r, motions k cs n -> completes k cs s g t r -> motions k (cs ++ [Plan s g t r]) (r_motions r)
| mo_not : forall cs n s g t r, motions k cs n -> ~ completes k cs s g t r -> motions k (cs ++ [Plan s g t r]) n.

(** All edges of the planner data. *)
Definition data_edge (r : reply) (i j : nat) : Prop := exists out, nth_error (r_out r) i = Some out /\ In j out.

(** What one solved call adds to the two paths. *)
Definition path_of (k : kind) (r : reply) : list config := match k with Planar => r_interp r | _ => states_of r end.
Definition interp_of (k : kind) (r : reply) : list config := match k with Planar => [] | _ => r_interp r end.
(** setup was called successfully. *)
Definition set_up (k : kind) (cs : list call) : Prop := exists lo hi, In (Setup lo hi) cs /\ good_bounds k lo hi.
(** The bounds of the state space are those of the last successful setup, or of the constructor. *)
Inductive bounds_of (k : kind) (lo0 hi0 : list f64) : list call -> list f64 -> list f64 -> Prop :=
| bo_first : forall cs, ~ set_up k cs -> bounds_of k lo0 hi0 cs (firstn (dims k) lo0) (firstn (dims k) hi0)
| bo_setup : forall cs rest lo hi, good_bounds k lo hi -> ~ set_up k rest -> bounds_of k lo0 hi0 (cs ++ Setup lo hi :: rest) (firstn (dims k) lo) (firstn (dims k) hi).

(** [a] is [x] if that is between [l] and [h], else the nearer of the two (for numbers). *)
Definition pulled (l h x a : f64) : Prop :=
  fisnan l = false -> fisnan h = false -> fisnan x = false ->
  (fval l <= fval x <= fval h -> a = x)%R /\ (fval h < fval x -> a = h)%R /\ (fval x < fval l -> a = l)%R.
