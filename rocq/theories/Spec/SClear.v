(** Specification vocabulary: poses that are clear of the boundaries swept over. *)
From Coq Require Import List Reals ZArith.
From Flocq Require Import Core.Core.
From Verif.Base Require Import Outcome Float64.
From Verif.Model Require Import MScalar MLine2D MHRM2D.
Import ListNotations.
Local Open Scope R_scope.

(** The crossings of the horizontal line of height [y] with the polygon [P], as computed, begin
    with the numbers [h0] and [h1]. *)
Definition crosses2 (P : poly64) (y h0 h1 : f64) : Prop :=
  exists rest, hline_polygon F64 y P = Ok (h0 :: h1 :: rest) /\ fisnan h0 = false /\ fisnan h1 = false.
(** (x, y) is not strictly between the two crossings of an obstacle boundary. *)
Definition clear2 (B : bound) (x y : f64) : Prop :=
  forall P h0 h1, In P (bobstacle B) -> crosses2 P y h0 h1 ->
    ~ (Rmin (fval h0) (fval h1) < fval x < Rmax (fval h0) (fval h1)).
(** (x, y) is between the limits of the arena, as extended by the arena boundaries. *)
Definition in_arena2 (B : bound) (l0 l1 x y : f64) : Prop :=
  forall P h0 h1, In P (barena B) -> crosses2 P y h0 h1 ->
    Rmin (fval l0) (Rmin (fval h0) (fval h1)) <= fval x <= Rmax (fval l1) (Rmax (fval h0) (fval h1)).
(** The crossings of the arena boundaries are numbers of magnitude at most 2^1022. *)
Definition moderate_arena2 (B : bound) (y : f64) : Prop :=
  forall P hits h, In P (barena B) -> hline_polygon F64 y P = Ok hits -> In h hits -> fisnan h = false /\ Rabs (fval h) <= bpow radix2 1022.
(** A planner after any number of planning calls. *)
Inductive planned (E : env) (s0 : state E) : state E -> Prop :=
| planned_0 : planned E s0 s0
| planned_plan s rounds s' r : planned E s0 s -> plan E (connect_multi E) rounds s = Ok (s', r) -> planned E s0 s'
| planned_kc s rnd rounds s' r : planned E s0 s -> plan E (kc_connect E [] rnd) rounds s = Ok (s', r) -> planned E s0 s'.

(** ---- space ---- *)
From Verif.Model Require Import MLine3D MInterp MGraph MHRM3D.
(** The heights at which the vertical line through (x, y) meets the mesh, as computed, begin with
    the numbers [h0] and [h1]. *)
Definition heights3 (m : mesh64) (x y : f64) (hs : list f64) : Prop :=
  exists hits, vertical_line_mesh F64 (L3 (S := F64) (V3 (S := F64) x y (fofZ 0)) (V3 (S := F64) (fofZ 0) (fofZ 0) (fofZ 1))) m = Ok hits /\ hs = map vz hits.
Definition crosses3 (m : mesh64) (x y h0 h1 : f64) : Prop :=
  exists rest, heights3 m x y (h0 :: h1 :: rest) /\ fisnan h0 = false /\ fisnan h1 = false.
Definition clear3 (B : bmesh) (x y z : f64) : Prop :=
  forall m h0 h1, In m (mobstacle B) -> crosses3 m x y h0 h1 -> ~ (Rmin (fval h0) (fval h1) < fval z < Rmax (fval h0) (fval h1)).
Definition in_arena3 (B : bmesh) (l4 l5 x y z : f64) : Prop :=
  forall m h0 h1, In m (marena B) -> crosses3 m x y h0 h1 ->
    Rmin (fval l4) (Rmin (fval h0) (fval h1)) <= fval z <= Rmax (fval l5) (Rmax (fval h0) (fval h1)).
Definition moderate_arena3 (B : bmesh) (x y : f64) : Prop :=
  forall m hs h, In m (marena B) -> heights3 m x y hs -> In h hs -> fisnan h = false /\ Rabs (fval h) <= bpow radix2 1022.
(** A corner between two poses: the position of one with the height of the other, both straight
    motions accepted by the test of the slice. *)
Definition corner3 (B : bmesh) (v1 v2 v : pose) : Prop :=
  (exists x1 y1 z1 t1 x2 y2 z2 t2, v1 = x1 :: y1 :: z1 :: t1 /\ v2 = x2 :: y2 :: z2 :: t2 /\
     (v = x1 :: y1 :: z2 :: t1 \/ v = x2 :: y2 :: z1 :: t2)) /\
  same_slice_free3 B v1 v = Ok true /\ same_slice_free3 B v v2 = Ok true.
(** A spatial planner after any number of planning calls and free-space queries. *)
Inductive planned3 (E : env3) (s0 : state3 E) : state3 E -> Prop :=
| planned3_0 : planned3 E s0 s0
| planned3_plan s rq rounds s' r : m_prob E = false -> planned3 E s0 s -> plan3 E rq rounds s = Ok (s', r) -> planned3 E s0 s'
| planned3_prob s d ds s' r : m_prob E = true -> planned3 E s0 s -> plan_prob E d ds s = Ok (s', r) -> planned3 E s0 s'
| planned3_seg s bd s' segs : planned3 E s0 s -> free_segment_one_slice E bd s = Ok (s', segs) -> planned3 E s0 s'.
(** The heights at which the sweep line meets the arena's meshes are numbers of magnitude at most [Z]. *)
Definition bounded_arena3 (B : bmesh) (x y : f64) (Z : R) : Prop :=
  forall m hs h, In m (marena B) -> heights3 m x y hs -> In h hs -> fisnan h = false /\ Rabs (fval h) <= Z.
(** A finite double of magnitude at most 2^300. *)
Definition plain_number (x : f64) : Prop := fisfin x = true /\ Rabs (fval x) <= bpow radix2 300.
(** The orientations that the robot shows in the sampled slices, and (ProbHRM3D) the sampled joint
    values, are such numbers. *)
Definition plain_samples (E : env3) (s : state3 E) : Prop :=
  if m_prob E then
    forall r c, In c (q_confs s) -> Forall plain_number (quat_list (m_quat E (m_move E r c))) /\ Forall plain_number (skipn 7 c)
  else
    forall r q, In q (q_quats s) ->
      Forall plain_number (quat_list (m_quat E (m_move E r ([fofZ 0%Z; fofZ 0%Z; fofZ 0%Z] ++ quat_list q)))).
