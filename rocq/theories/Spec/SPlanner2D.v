(** Specification vocabulary for the planar planners. *)
From Coq Require Import List Arith Bool ZArith.
From Verif.Base Require Import Outcome Float64.
From Verif.Model Require Import MScalar MDistance MFreeSpace MLine2D MPointInPoly MGraph MSearch MHRM2D.
From Verif.Spec Require Import SGraph.
Import ListNotations.

(** A planner a user can hold: constructed, then [plan] called any number of times
    (each call returning normally), with HRM2D's or HRM2DKC's slice connection. *)
Inductive reachable (E : env) : state E -> Prop :=
| reach_new robot fsr nx ny nA nO s : construct E robot fsr nx ny nA nO = Ok s -> reachable E s
| reach_plan s rounds s' r : reachable E s -> plan E (connect_multi E) rounds s = Ok (s', r) -> reachable E s'
| reach_plan_kc s rnd rounds s' r : reachable E s ->
    plan E (kc_connect E [] rnd) rounds s = Ok (s', r) -> reachable E s'.

(** Two poses on one sweep line of one slice: same height and heading. *)
Definition same_sweep_line (v1 v2 : pose) : Prop :=
  exists x1 x2 y h, v1 = [x1; y; h] /\ v2 = [x2; y; h].

(** Heights within two sweep-line gaps (2 |l3 - l2| / n), as compared in binary64. *)
Definition heights_near (E : env) (n : nat) (v1 v2 : pose) : Prop :=
  exists y1 y2 l2 l3, nth_error v1 1 = Some y1 /\ nth_error v2 1 = Some y2 /\
    nth_error (e_limits E) 2 = Some l2 /\ nth_error (e_limits E) 3 = Some l3 /\
    fltb (fdiv (fmul ftwo (fabs (fsub l3 l2))) (fofnat n)) (fabs (fsub y1 y2)) = false.

(** The ways an edge of a planar roadmap may have been justified: it joins
    neighbours of a sweep line, or its straight motion was tested against the slice
    boundary, or its interpolated motion was tested against a bridge boundary. *)
Definition justified (E : env) (s : state E) (a b : nat) (v1 v2 : pose) : Prop :=
  (b = a + 1 /\ same_sweep_line v1 v2) \/
  (exists bd, In bd (p_sliceAll s) /\ same_slice_free E bd v1 v2 = Ok true) \/
  (exists r h1 h2 br, In h1 (p_headings s) /\ In h2 (p_headings s) /\ e_tfe E r h1 h2 = Ok br /\
     multi_slice_free E r br v1 v2 = Ok true).

(** Consecutive index ranges: [ranges n l m] means the slices of [l] start where
    the previous one ended, the first at [n] and the last ends at [m]. *)
Inductive ranges : nat -> list vidx -> nat -> Prop :=
| ranges_nil n : ranges n [] n
| ranges_cons n v l m : vstart v = n -> n <= vslice v -> ranges (vslice v) l m -> ranges n (v :: l) m.

(** [seg] is the list of free segments the sweep-line process computes for the slice
    whose construction led from [s] to [s']: the sweep lines are intersected with
    the boundaries [p_fsbound s'] (C07-C15 say what the two steps compute). *)
Definition slice_segments (E : env) (s s' : state E) (seg : freeseg) : Prop :=
  exists l0 l1 l2 l3 t,
    nth_error (e_limits E) 0 = Some l0 /\ nth_error (e_limits E) 1 = Some l1 /\
    nth_error (e_limits E) 2 = Some l2 /\ nth_error (e_limits E) 3 = Some l3 /\
    compute_intersection l0 l1 (fun c => map (hline_polygon F64 c) (barena (p_fsbound s')))
      (fun c => map (hline_polygon F64 c) (bobstacle (p_fsbound s'))) (sweep_heights (p_numLineY s) l2 l3) (p_tables s) = Ok t /\
    compute_free_segment (e_sort E) t (sweep_heights (p_numLineY s) l2 l3) = Ok seg /\
    fty seg = sweep_heights (p_numLineY s) l2 l3.

(** A vertex of slice [k] (slices are numbered over all planning calls): on a sweep
    line, with the heading of the slice. *)
Definition slice_vertex (E : env) (s : state E) (k : nat) (v : pose) : Prop :=
  exists r x y l2 l3,
    v = [x; y; e_angle E (e_move E r (fofZ 0%Z) (fofZ 0%Z) (heading E (k mod e_numSlice E)))] /\
    nth_error (e_limits E) 2 = Some l2 /\ nth_error (e_limits E) 3 = Some l3 /\
    In y (sweep_heights (p_numLineY s) l2 l3).

(** [a] is the [j]-th vertex of sweep line [i] of the slice: its number is the start
    of the line in the per-line table plus [j], and its pose is the [j]-th middle
    point of the line. *)
Definition line_vertex (E : env) (s : state E) (seg : freeseg) (i j a : nat) : Prop :=
  exists n y xm x ang, nth_error (vplane (p_nv s)) i = Some n /\ a = n + j /\
    nth_error (fty seg) i = Some y /\ nth_error (fxM seg) i = Some xm /\ nth_error xm j = Some x /\
    nth_error (gvert (p_graph s)) a = Some [x; y; ang].

(** HRM2DKC: [v] lies, seen from each of the two poses, in one of the polytopes. *)
Definition kc_between (polys : list (list f64)) (v1 v2 v : pose) : Prop :=
  v <> [] /\ length v = length v1 /\ length v1 <= length v2 /\
  is_pt_in_poly F64 polys (map (fun p => fsub (fst p) (snd p)) (combine v v1)) = Ok true /\
  is_pt_in_poly F64 polys (map (fun p => fsub (fst p) (snd p)) (combine v v2)) = Ok true.

(** The choice made for one slice heading. *)
Definition in_slice (vs : list pose) (ang : f64) (j : nat) : Prop :=
  exists v c, nth_error vs j = Some v /\ nth_error v 2 = Some c /\ fltb (fabs (fsub c ang)) cEPS = true.
Definition dist_to (vs : list pose) (q : pose) (j : nat) (d : f64) : Prop :=
  exists v, nth_error vs j = Some v /\ vec_euclid F64 q v = Ok d.
(** The heading closest to the query among the vertices (the first one, in a tie). *)
Definition closest_heading (vs : list pose) (q2 a : f64) : Prop :=
  exists i v, nth_error vs i = Some v /\ nth_error v 2 = Some a /\
    forall j w c, nth_error vs j = Some w -> nth_error w 2 = Some c ->
      fltb (fabs (fsub q2 c)) (fabs (fsub q2 a)) = false /\
      (j < i -> fisnan (fabs (fsub q2 c)) = true \/ fltb (fabs (fsub q2 a)) (fabs (fsub q2 c)) = true).
(** The accepted candidates: in range, height window. *)
Definition in_window (E : env) (s : state E) (q : pose) (radius : f64) (i : nat) : Prop :=
  exists v y q1 l0 l1, nth_error (gvert (p_graph s)) i = Some v /\ nth_error v 1 = Some y /\ nth_error q 1 = Some q1 /\
    nth_error (e_limits E) 0 = Some l0 /\ nth_error (e_limits E) 1 = Some l1 /\
    fltb (fabs (fsub q1 y)) (fdiv (fmul radius (fsub l1 l0)) (fofnat (p_numLineY s))) = true.
(** The sublist of the elements with a property. *)
Inductive kept {A} (P : A -> Prop) : list A -> list A -> Prop :=
| kept_nil : kept P [] []
| kept_yes x l l' : P x -> kept P l l' -> kept P (x :: l) (x :: l')
| kept_no x l l' : ~ P x -> kept P l l' -> kept P (x :: l) l'.
