(** Specification vocabulary for the spatial planners. *)
From Coq Require Import List Arith Bool ZArith.
From Verif.Base Require Import Outcome Float64.
From Verif.Model Require Import MScalar MDistance MFreeSpace MLine3D MInterp MGraph MSearch MHRM3D.
From Verif.Spec Require Import SGraph SPlanner2D.
Import ListNotations.

(** A planner a user can hold: constructed, then [plan] (HRM3D's or ProbHRM3D's) and
    getFreeSegmentOneSlice called any number of times, each call returning normally. *)
Inductive reachable3 (E : env3) : state3 E -> Prop :=
| reach3_new robot nS nx ny nA nO s : construct3 E robot nS nx ny nA nO = Ok s -> reachable3 E s
| reach3_plan s rq rounds s' r : m_prob E = false -> reachable3 E s -> plan3 E rq rounds s = Ok (s', r) -> reachable3 E s'
| reach3_prob s d ds s' r : m_prob E = true -> reachable3 E s -> plan_prob E d ds s = Ok (s', r) -> reachable3 E s'
| reach3_seg s bd s' segs : reachable3 E s -> free_segment_one_slice E bd s = Ok (s', segs) -> reachable3 E s'.

(** Free segments of a slice: one entry per sweep plane (abscissa, segments of the
    plane's lines).  Vertex [a] belongs to segment [k] of line [j] of plane [i]: the
    line table gives the number of the line's first vertex. *)
Definition plane_vertex (line : list (list nat)) (segs : freeseg3) (i j k a : nat) : Prop :=
  exists p n x seg xm, nth_error line i = Some p /\ nth_error p j = Some n /\
    nth_error segs i = Some (x, seg) /\ nth_error (fxM seg) j = Some xm /\ k < length xm /\ a = n + k.
Definition grid_vertex (line : list (list nat)) (segs : freeseg3) (a : nat) : Prop :=
  exists i j k, plane_vertex line segs i j k a.

(** Neighbouring segments of one line that touch. *)
Definition line_neighbours (line : list (list nat)) (segs : freeseg3) (a b : nat) : Prop :=
  exists i j k x seg, nth_error segs i = Some (x, seg) /\
    plane_vertex line segs i j k a /\ plane_vertex line segs i j (k + 1) b /\ touching seg j k.
(** Segments of adjacent lines of one plane, or of one line index in adjacent planes. *)
Definition grid_neighbours (line : list (list nat)) (segs : freeseg3) (a b : nat) : Prop :=
  exists i j k1 k2, plane_vertex line segs i j k1 a /\
    (plane_vertex line segs i (j + 1) k2 b \/ plane_vertex line segs (i + 1) j k2 b).

(** The free segments computed when slice construction leads from [s] to [s']: the
    planes are the grid abscissae, in order; each plane's segments are those of
    FreeSpace3D for the boundary meshes stored in [s'] (tables are threaded). *)
Inductive plane_segments (E : env3) (s' : state3 E) (ty : list f64) (l4 l5 : f64) : tables -> list f64 -> freeseg3 -> tables -> Prop :=
| ps_nil t : plane_segments E s' ty l4 l5 t [] [] t
| ps_cons t t1 t2 x xs seg segs :
    compute_intersection l4 l5 (zhits x (q_nA s') (marena (q_fsmesh s'))) (zhits x (q_nO s') (mobstacle (q_fsmesh s'))) ty t = Ok t1 ->
    compute_free_segment (m_sort E) t1 ty = Ok seg -> fty seg = ty ->
    plane_segments E s' ty l4 l5 t1 xs segs t2 ->
    plane_segments E s' ty l4 l5 t (x :: xs) ((x, seg) :: segs) t2.
Definition slice_segments3 (E : env3) (s s' : state3 E) (segs : freeseg3) : Prop :=
  exists l0 l1 l2 l3 l4 l5,
    nth_error (m_limits E) 0 = Some l0 /\ nth_error (m_limits E) 1 = Some l1 /\
    nth_error (m_limits E) 2 = Some l2 /\ nth_error (m_limits E) 3 = Some l3 /\
    nth_error (m_limits E) 4 = Some l4 /\ nth_error (m_limits E) 5 = Some l5 /\
    plane_segments E s' (grid (q_numLineY s) l2 l3) l4 l5 (q_tables s) (grid (q_numLineX s) l0 l1) segs (q_tables s').

(** A pose on the sweep grid with the given orientation (and joints). *)
Definition on_grid (E : env3) (nx ny : nat) (q : qt) (js : list f64) (v : pose) : Prop :=
  exists x y z l0 l1 l2 l3, v = [x; y; z] ++ quat_list q ++ js /\
    nth_error (m_limits E) 0 = Some l0 /\ nth_error (m_limits E) 1 = Some l1 /\
    nth_error (m_limits E) 2 = Some l2 /\ nth_error (m_limits E) 3 = Some l3 /\
    In x (grid nx l0 l1) /\ In y (grid ny l2 l3).

(** Two poses that differ in the third coordinate only. *)
Definition same_sweep_line3 (v1 v2 : pose) : Prop :=
  exists x y z1 z2 r, v1 = [x; y; z1] ++ r /\ v2 = [x; y; z2] ++ r.

(** A bridge boundary computed between two sampled orientations (HRM3D) or two
    sampled configurations (ProbHRM3D). *)
Definition bridge_boundary (E : env3) (s : state3 E) (r : robot3 E) (br : list (list mesh64)) : Prop :=
  (m_prob E = false /\ exists q1 q2, In q1 (q_quats s) /\ In q2 (q_quats s) /\ m_tfe_q E r q1 q2 = Ok br) \/
  (m_prob E = true /\ exists c1 c2, In c1 (q_confs s) /\ In c2 (q_confs s) /\ m_tfe_v E r c1 c2 = Ok br).

(** Why an edge of a spatial roadmap may exist. *)
Definition justified3 (E : env3) (s : state3 E) (a b : nat) (v1 v2 : pose) : Prop :=
  (b = a + 1 /\ same_sweep_line3 v1 v2) \/
  (exists bd, In bd (q_sliceAll s) /\ same_slice_free3 bd v1 v2 = Ok true) \/
  (exists r br, bridge_boundary E s r br /\ multi_slice_free3 E r br v1 v2 = Ok true).

(** Within the window of two grid steps in both horizontal coordinates. *)
Definition window_near (E : env3) (nx ny : nat) (v1 v2 : pose) : Prop :=
  exists x1 x2 y1 y2 l0 l1 l2 l3,
    nth_error v1 0 = Some x1 /\ nth_error v2 0 = Some x2 /\ nth_error v1 1 = Some y1 /\ nth_error v2 1 = Some y2 /\
    nth_error (m_limits E) 0 = Some l0 /\ nth_error (m_limits E) 1 = Some l1 /\
    nth_error (m_limits E) 2 = Some l2 /\ nth_error (m_limits E) 3 = Some l3 /\
    fltb (fdiv (fmul ftwo (fsub l1 l0)) (fofnat nx)) (fabs (fsub x1 x2)) = false /\
    fltb (fdiv (fmul ftwo (fsub l3 l2)) (fofnat ny)) (fabs (fsub y1 y2)) = false.

(** [j] is the nearest of the slices [0..m-1] under the distances [d]: the first
    one with a minimal distance; 0 when no distance is a number below infinity. *)
Definition nearest_of (m : nat) (d : nat -> f64) (j : nat) : Prop :=
  (j < m /\ fltb (d j) finf = true /\ (forall i, i < m -> fltb (d i) (d j) = false) /\
     (forall i, i < j -> fltb (d j) (d i) = true \/ fltb (d i) finf = false)) \/
  (j = 0 /\ forall i, i < m -> fltb (d i) finf = false).

(** A vertex of slice [k] whose orientation is that of sample [i]: a grid position;
    the quaternion is the one the robot reports after being moved to the sample
    (HRM3D: the [i]-th orientation; ProbHRM3D: the [i]-th configuration); ProbHRM3D
    appends the joint angles of configuration [k]. *)
Definition slice_vertex3 (E : env3) (s : state3 E) (k i : nat) (p : pose) : Prop :=
  if m_prob E then
    exists r ci ck, nth_error (q_confs s) i = Some ci /\ nth_error (q_confs s) k = Some ck /\
      on_grid E (q_numLineX s) (q_numLineY s) (m_quat E (m_move E r ci)) (skipn 7 ck) p
  else
    exists r q, nth_error (q_quats s) i = Some q /\
      on_grid E (q_numLineX s) (q_numLineY s) (m_quat E (m_move E r ([fofZ 0%Z; fofZ 0%Z; fofZ 0%Z] ++ quat_list q))) [] p.

(** A sampled configuration: zero position, the sampled quaternion, one number per joint. *)
Definition config_of (E : env3) (q : qt) (c : pose) : Prop :=
  exists js, c = [fofZ 0%Z; fofZ 0%Z; fofZ 0%Z] ++ quat_list q ++ js /\ length js = m_dof E.

(** The configuration sampled in step [n] of a call of ProbHRM3D: the orientation and joints of
    the start, then those of the goal, then the random ones; always at the origin. *)
Definition turned_like (E : env3) (v c : pose) : Prop :=
  length c = 7 + m_dof E /\ (forall i, i < 3 -> nth_error c i = Some (fofZ 0%Z)) /\
  forall i, 3 <= i < 7 + m_dof E -> nth_error c i = nth_error v i.
Definition sampled_as (E : env3) (d : draw) (n : nat) (c : pose) : Prop :=
  match n with
  | 0 => turned_like E (m_start E) c
  | 1 => turned_like E (m_goal E) c
  | _ => c = [fofZ 0%Z; fofZ 0%Z; fofZ 0%Z] ++ quat_list (d_quat d) ++ map (d_joint d) (seq 0 (m_dof E))
  end.

(** Distances between sampled orientations / configurations, as the code compares them. *)
Definition orientation_distance (E : env3) (s : state3 E) (q : qt) (k : nat) : f64 :=
  match nth_error (q_quats s) k with Some p => m_qdist E q p | None => fnan end.
Definition configuration_distance (E : env3) (s : state3 E) (c : pose) (k : nat) : f64 :=
  match nth_error (q_confs s) k with
  | Some p => match vec_euclid F64 c p with Ok d => d | _ => fnan end
  | None => fnan
  end.

(** Links between two slices with vertex ranges [v1], [v2]: each joins a vertex of the
    first to one of the second, inside the window and with a free motion; no vertex of
    the first has two, and the order of the second is kept; a pair inside the window with a
    free motion is passed over only for an earlier partner, or because an earlier vertex of the
    first has a later partner. *)
Definition slice_links (E : env3) (s : state3 E) (r : robot3 E) (br : list (list mesh64)) (v1 v2 : vidx) (es : list (nat * nat)) : Prop :=
  (forall a b, In (a, b) es -> vstart v1 <= a < vslice v1 /\ vstart v2 <= b < vslice v2 /\
     exists p1 p2, nth_error (gvert (q_graph s)) a = Some p1 /\ nth_error (gvert (q_graph s)) b = Some p2 /\
       window_near E (q_numLineX s) (q_numLineY s) p1 p2 /\ multi_slice_free3 E r br p1 p2 = Ok true) /\
  (forall k k' e e', k < k' -> nth_error es k = Some e -> nth_error es k' = Some e' -> fst e < fst e' /\ snd e <= snd e') /\
  (forall a b p1 p2, vstart v1 <= a < vslice v1 -> vstart v2 <= b < vslice v2 ->
     nth_error (gvert (q_graph s)) a = Some p1 -> nth_error (gvert (q_graph s)) b = Some p2 ->
     window_near E (q_numLineX s) (q_numLineY s) p1 p2 -> multi_slice_free3 E r br p1 p2 = Ok true ->
     (exists b', In (a, b') es /\ b' <= b) \/ (exists a' b', In (a', b') es /\ a' < a /\ b < b')).

(** Vertex [i] has orientation [q] up to 1e-6; vertex [i] is at distance [d] from [v]. *)
Definition oriented (E : env3) (vs : list pose) (q : qt) (i : nat) : Prop :=
  exists w qw, nth_error vs i = Some w /\ get_quat F64 w = Ok qw /\ fltb (m_qdist E q qw) cEPS = true.
Definition at_distance (vs : list pose) (v : pose) (i : nat) (d : f64) : Prop :=
  exists w, nth_error vs i = Some w /\ vec_euclid F64 v w = Ok d.

(** Horizontal distance below radius * width / lines, in both coordinates. *)
Definition window_of (E : env3) (s : state3 E) (radius : f64) (v w : pose) : Prop :=
  exists x1 x2 y1 y2 l0 l1 l2 l3,
    nth_error v 0 = Some x1 /\ nth_error w 0 = Some x2 /\ nth_error v 1 = Some y1 /\ nth_error w 1 = Some y2 /\
    nth_error (m_limits E) 0 = Some l0 /\ nth_error (m_limits E) 1 = Some l1 /\
    nth_error (m_limits E) 2 = Some l2 /\ nth_error (m_limits E) 3 = Some l3 /\
    fltb (fabs (fsub x1 x2)) (fdiv (fmul radius (fsub l1 l0)) (fofnat (q_numLineX s))) = true /\
    fltb (fabs (fsub y1 y2)) (fdiv (fmul radius (fsub l3 l2)) (fofnat (q_numLineY s))) = true.
(** The first [k] orientations whose distance to [m] is below the radius (for [k] = 0, the first
    orientation if its distance is). *)
Definition first_near (E : env3) (m : qt) (radius : f64) (k : nat) (qs : list qt) : list qt :=
  let near q := fltb (m_qdist E m q) radius in
  match k with 0 => filter near (firstn 1 qs) | _ => firstn k (filter near qs) end.
(** One vertex per orientation of the list, in its order: the nearest one, if it is in the window. *)
Inductive attached (E : env3) (s : state3 E) (radius : f64) (v : pose) : list qt -> list nat -> Prop :=
| att_nil : attached E s radius v [] []
| att_in q qs i w l : nearest_vertex E (gvert (q_graph s)) v q = Ok i -> nth_error (gvert (q_graph s)) i = Some w ->
    window_of E s radius v w -> attached E s radius v qs l -> attached E s radius v (q :: qs) (i :: l)
| att_out q qs i w l : nearest_vertex E (gvert (q_graph s)) v q = Ok i -> nth_error (gvert (q_graph s)) i = Some w ->
    ~ window_of E s radius v w -> attached E s radius v qs l -> attached E s radius v (q :: qs) l.
