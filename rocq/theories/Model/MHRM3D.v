(** Model of the spatial planners: src/planners/HRM3D.cpp, src/planners/ProbHRM3D.cpp
    (with src/datastructure/FreeSpace3D.cpp and the planning loop of
    include/hrm/planners/HighwayRoadMap-inl.h). *)
From Coq Require Import List Bool Arith ZArith.
From Flocq Require Import IEEE754.BinarySingleNaN.
From Verif.Base Require Import Outcome Float64.
From Verif.Model Require Import MScalar MDistance MInterval MFreeSpace MLine3D MInterp MGraph MSearch.
Import ListNotations.
Local Open Scope outcome_scope.

(** Eigen::Quaterniond in the order (w, x, y, z); MeshMatrix; Point3D. *)
Definition qt : Type := quat F64.
Definition mesh64 : Type := mesh F64.
Definition pt3 : Type := (f64 * f64 * f64)%type.
(** struct BoundaryMesh (arena, obstacle), FreeSpace3D.h. *)
Record bmesh : Type := BMesh { marena : list mesh64; mobstacle : list mesh64 }.

(** What a planner never changes: request, geometry kernels and libraries.  [m_prob]
    tells ProbHRM3D (true) from HRM3D (false); [m_dof] is
    kdl_->getKDLTree().getNrOfJoints(). *)
Record env3 : Type := Env3 {
  robot3 : Type;                                        (* MultiBodyTree3D values *)
  m_move : robot3 -> list f64 -> robot3;                (* robotTF for the pose (and joints) given *)
  m_quat : robot3 -> qt;                                (* getBase().getQuaternion() *)
  m_centers : robot3 -> pt3 * list pt3;                 (* base and link positions *)
  m_mink : robot3 -> outcome bmesh;                     (* computeCSpaceBoundary; computeCSpaceBoundaryMesh *)
  m_tfe_q : robot3 -> qt -> qt -> outcome (list (list mesh64));      (* HRM3D::computeTFE; bridgeSlice *)
  m_tfe_v : robot3 -> pose -> pose -> outcome (list (list mesh64));  (* ProbHRM3D::computeTFE; bridgeSlice *)
  m_qdist : qt -> qt -> f64;                            (* Eigen angularDistance *)
  m_slerp : qt -> f64 -> qt -> qt;                      (* Eigen slerp *)
  m_sort : sort_fn;                                     (* std::sort *)
  m_astar : graph -> nat -> nat -> option (list nat);   (* boost::astar_search *)
  m_uninit : graph -> pose -> outcome qt;               (* what an uninitialised quaternion reads as: UB, or any value *)
  m_prob : bool;
  m_dof : nat;
  m_rigid : bool;                                       (* isRobotRigid_ *)
  m_samples : list qt;                                  (* robot_.getBase().getQuatSamples() *)
  m_limits : list f64;
  m_numPoint : nat;
  m_numNeighbor : nat;
  m_radius : f64;
  m_start : pose;
  m_goal : pose
}.

(** The mutable members. *)
Record state3 (E : env3) : Type := State3 {
  q_quats : list qt;                    (* q_ *)
  q_confs : list pose;                  (* v_ *)
  q_numSlice : nat;                     (* param_.numSlice *)
  q_numLineX : nat;                     (* param_.numLineX *)
  q_numLineY : nat;                     (* param_.numLineY *)
  q_robot : robot3 E;                   (* robot_ *)
  q_fsrobot : robot3 E;                 (* freeSpacePtr_->robot_ *)
  q_nA : nat;                           (* freeSpacePtr_->cSpaceBoundary_.arena.size() *)
  q_nO : nat;                           (* freeSpacePtr_->cSpaceBoundary_.obstacle.size() *)
  q_fsmesh : bmesh;                     (* freeSpacePtr_->cSpaceBoundaryMesh_ *)
  q_tables : tables;                    (* freeSpacePtr_->intersect_ *)
  q_slice : bmesh;                      (* sliceBoundMesh_ *)
  q_sliceAll : list bmesh;              (* sliceBoundMeshAll_ *)
  q_graph : graph;                      (* res_.graphStructure *)
  q_nv : vidx;                          (* numVertex_ *)
  q_vidx : list vidx;                   (* vertexIdx_ *)
  q_vidxAll : list (list vidx);         (* vertexIdxAll_ *)
  q_refine : bool;                      (* isRefine_ *)
  q_sol : sol                           (* res_.solved, PathId, cost *)
}.
Arguments State3 {E}.
Arguments q_quats {E}.
Arguments q_confs {E}.
Arguments q_numSlice {E}.
Arguments q_numLineX {E}.
Arguments q_numLineY {E}.
Arguments q_robot {E}.
Arguments q_fsrobot {E}.
Arguments q_nA {E}.
Arguments q_nO {E}.
Arguments q_fsmesh {E}.
Arguments q_tables {E}.
Arguments q_slice {E}.
Arguments q_sliceAll {E}.
Arguments q_graph {E}.
Arguments q_nv {E}.
Arguments q_vidx {E}.
Arguments q_vidxAll {E}.
Arguments q_refine {E}.
Arguments q_sol {E}.

(** static_cast<int>(double): undefined for NaN and outside the int range. *)
Definition f_to_int (x : f64) : outcome Z :=
  if fisfin x then
    let z := Btrunc x in
    if (Z.leb (- 2 ^ 31) z && Z.ltb z (2 ^ 31))%bool then Ok z else UB
  else UB.

(** ---- the geometric part of the two collision tests, generic in the scalar type ---- *)
Section Tests.
Variable S : scalar.
(** The line segment test of isSameSliceTransitionFree, HRM3D.cpp:319-365: the line
    through t1 and t2 against every mesh (std::any_of); intersectObs[1] is unchecked. *)
Definition within (h t1 t2 : vec3 S) : bool := sltb S (dot S (vsub S h t1) (vsub S h t2)) (sofZ S 0).
Fixpoint any_mesh_crossing (l : line3 S) (t1 t2 : vec3 S) (ms : list (mesh S)) : outcome bool :=
  match ms with
  | [] => Ok false
  | m :: rest =>
      do hits <- line_mesh S l m;
      match hits with
      | [] => any_mesh_crossing l t1 t2 rest
      | h0 :: _ =>
          do h1 <- idx hits 1;
          if within h0 t1 t2 || within h1 t1 t2 then Ok true else any_mesh_crossing l t1 t2 rest
      end
  end.
Definition straight_free (ms : list (mesh S)) (t1 t2 : vec3 S) : outcome bool :=
  do c <- any_mesh_crossing (L3 t1 (normalize S (vsub S t2 t1))) t1 t2 ms;
  Ok (negb c).
(** The ray casting of isPtInCFree, HRM3D.cpp:394-425. *)
Fixpoint point_clear3 (p : vec3 S) (ms : list (mesh S)) : outcome bool :=
  match ms with
  | [] => Ok true
  | m :: rest =>
      do hits <- vertical_line_mesh S (L3 p (V3 (sofZ S 0) (sofZ S 0) (sofZ S 1))) m;
      match hits with
      | [] => point_clear3 p rest
      | h0 :: _ =>
          do h1 <- idx hits 1;
          if sltb S (sfmin S (vz h0) (vz h1)) (vz p) && sltb S (vz p) (sfmax S (vz h0) (vz h1)) then Ok false
          else point_clear3 p rest
      end
  end.
End Tests.

Section HRM3D.
Variable E : env3.
Notation st := (state3 E).

Definition lim3 (i : nat) : outcome f64 := idx (m_limits E) i.

(** Record updates. *)
Definition with_graph3 (s : st) (g : graph) : st :=
  State3 (q_quats s) (q_confs s) (q_numSlice s) (q_numLineX s) (q_numLineY s) (q_robot s) (q_fsrobot s) (q_nA s) (q_nO s)
    (q_fsmesh s) (q_tables s) (q_slice s) (q_sliceAll s) g (q_nv s) (q_vidx s) (q_vidxAll s) (q_refine s) (q_sol s).
Definition with_sol3 (s : st) (r : sol) : st :=
  State3 (q_quats s) (q_confs s) (q_numSlice s) (q_numLineX s) (q_numLineY s) (q_robot s) (q_fsrobot s) (q_nA s) (q_nO s)
    (q_fsmesh s) (q_tables s) (q_slice s) (q_sliceAll s) (q_graph s) (q_nv s) (q_vidx s) (q_vidxAll s) (q_refine s) r.
Definition with_samples (s : st) (qs : list qt) (vs : list pose) (n : nat) : st :=
  State3 qs vs n (q_numLineX s) (q_numLineY s) (q_robot s) (q_fsrobot s) (q_nA s) (q_nO s)
    (q_fsmesh s) (q_tables s) (q_slice s) (q_sliceAll s) (q_graph s) (q_nv s) (q_vidx s) (q_vidxAll s) (q_refine s) (q_sol s).

(** Constructor, HRM3D.cpp:10-20, ProbHRM3D.cpp:7-14.  [nA], [nO]: column counts of
    the interval tables, (1 + links) * parts (FreeSpace-inl.h:25-28). *)
Definition construct3 (robot : robot3 E) (numSlice numLineX numLineY nA nO : nat) : outcome st :=
  do l4 <- lim3 4;
  do l5 <- lim3 5;
  Ok (State3 [] [] numSlice numLineX numLineY robot robot 0 0 (BMesh [] []) (setup numLineY l4 l5 nA nO tables0)
        (BMesh [] []) [] graph0 vidx0 [] [] false (Sol false [] (fofZ 0))).

(** setTransform, HRM3D.cpp:510-518 and ProbHRM3D.cpp:198-213 (reads v[0..6], and
    v[7..6+dof] for the articulated robot, unchecked). *)
Definition set_transform3 (r : robot3 E) (v : pose) : outcome (robot3 E) :=
  do c <- omap (idx v) (seq 0 (if m_prob E then 7 + m_dof E else 7));
  Ok (m_move E r c).

(** ---- sweep lines ---- *)
(** The sweep-plane abscissae, HRM3D.cpp:66-67 and 78-79, and heights, 68-73: here
    the unsigned difference is converted ([static_cast<double>(n - 1)]). *)
Definition grid (n : nat) (lo hi : f64) : list f64 :=
  let d := fdiv (fsub hi lo) (fofnat (n - 1)) in
  map (fun i => fadd lo (fmul (fofnat i) d)) (seq 0 n).

(** z-coordinates of the points where the sweep line through (x, y) meets the first
    [n] boundary meshes, FreeSpace3D.cpp:29-68: the number of boundaries comes from
    cSpaceBoundary_, the meshes from cSpaceBoundaryMesh_. *)
Definition zhits (x : f64) (n : nat) (ms : list mesh64) (y : f64) : list (outcome (list f64)) :=
  map (fun j =>
    do m <- at_ ms j;
    do h <- vertical_line_mesh F64 (L3 (S := F64) (V3 (S := F64) x y (fofZ 0)) (V3 (S := F64) (fofZ 0) (fofZ 0) (fofZ 1))) m;
    Ok (map vz h)) (seq 0 n).

(** struct FreeSegment3D (tx, freeSegmentYZ), as a list of planes. *)
Definition freeseg3 : Type := list (f64 * freeseg).

(** sweepLineProcess, HRM3D.cpp:63-91.  lowBound_ and upBound_ hold the limits 4 and 5
    read by the constructor. *)
Definition sweep_process3 (s : st) : outcome (tables * freeseg3) :=
  do l0 <- lim3 0; do l1 <- lim3 1; do l2 <- lim3 2; do l3 <- lim3 3;
  let ty := grid (q_numLineY s) l2 l3 in
  do l4 <- lim3 4; do l5 <- lim3 5;
  ofold (fun '(t, acc) x =>
    do t1 <- compute_intersection l4 l5 (zhits x (q_nA s) (marena (q_fsmesh s)))
               (zhits x (q_nO s) (mobstacle (q_fsmesh s))) ty t;
    do seg <- compute_free_segment (m_sort E) t1 ty;
    Ok (t1, acc ++ [(x, seg)])) (grid (q_numLineX s) l0 l1) (q_tables s, []).

(** ---- collision tests ---- *)
(** isSameSliceTransitionFree, HRM3D.cpp:319-365. *)
Definition vec_of (v : pose) : outcome (vec3 F64) :=
  do x <- idx v 0; do y <- idx v 1; do z <- idx v 2; Ok (V3 (S := F64) x y z).
Definition same_slice_free3 (b : bmesh) (v1 v2 : pose) : outcome bool :=
  do t1 <- vec_of v1;
  do t2 <- vec_of v2;
  straight_free F64 (mobstacle b) t1 t2.

(** isPtInCFree, HRM3D.cpp:394-425. *)
Definition pt_free3 (bridge : list (list mesh64)) (k : nat) (p : pt3) : outcome bool :=
  do ms <- at_ bridge k;
  let '(x, y, z) := p in point_clear3 F64 (V3 (S := F64) x y z) ms.
Definition bodies_free3 (bridge : list (list mesh64)) (r : robot3 E) : outcome bool :=
  let '(base, links) := m_centers E r in
  (fix go k cs := match cs with
   | [] => Ok true
   | c :: rest => do b <- pt_free3 bridge k c; if b then go (k + 1) rest else Ok false
   end) 0 (base :: links).
(** isMultiSliceTransitionFree, HRM3D.cpp:367-392.  Simplification: the robot left in
    robot_ by the last setTransform is not threaded (each later use sets the pose
    again first). *)
Definition multi_slice_free3 (r : robot3 E) (bridge : list (list mesh64)) (v1 v2 : pose) : outcome bool :=
  do steps <- interpolate_compound F64 (m_slerp E) v1 v2 (m_numPoint E);
  (fix go vs := match vs with
   | [] => Ok true
   | v :: rest =>
       do r' <- set_transform3 r v;
       do b <- bodies_free3 bridge r';
       if b then go rest else Ok false
   end) steps.

(** ---- one slice ---- *)
(** generateVertices: HRM3D.cpp:93-113 pushes (tx, ty, xM, quaternion); ProbHRM3D.cpp:
    165-195 adds the joint angles of v_.back() (simplification: the exception for a
    configuration of fewer than 7 numbers, which sampling never produces, does not
    wait for the first vertex). *)
Definition quat_list (q : qt) : list f64 := let '(w, x, y, z) := q in [w; x; y; z].
Definition mk_vertex (q : qt) (joints : list f64) (x y z : f64) : pose := [x; y; z] ++ quat_list q ++ joints.
Definition joints_of (s : st) : outcome (list f64) :=
  if m_prob E then
    do v <- back_ (q_confs s);
    if Nat.ltb (length v) 7 then Throw OutOfRange else Ok (skipn 7 v)
  else Ok [].

(** First loop of connectOneSlice3D, HRM3D.cpp:122-128: vertices and edges plane by
    plane; returns the graph and numVertex_.line. *)
Definition connect_planes (free : pose -> pose -> outcome bool) (q : qt) (joints : list f64) (segs : freeseg3) (g : graph)
  : outcome (graph * list (list nat)) :=
  ofold (fun '(g, line) '(x, seg) =>
    do gp <- gen_vertices (mk_vertex q joints x) seg g;
    do g' <- connect2d free (snd gp) seg (fst gp);
    Ok (g', line ++ [snd gp])) segs (g, []).
(** Second loop, HRM3D.cpp:131-155; an empty list makes [tx.size() - 1] wrap and
    freeSegmentYZ.at(0) throw. *)
Definition between_planes (free : pose -> pose -> outcome bool) (line : list (list nat)) (segs : freeseg3) (g : graph) : outcome graph :=
  match segs with
  | [] => Throw OutOfRange
  | _ =>
    ofold (fun g i =>
      do sg <- at_ segs i;
      ofold (fun g j =>
        do p1 <- idx line i; do n1 <- idx p1 j;
        do p2 <- idx line (i + 1); do n2 <- idx p2 j;
        do xm1 <- idx (fxM (snd sg)) j;
        ofold (fun g k1 =>
          do sg2 <- at_ segs (i + 1);
          do xm2 <- idx (fxM (snd sg2)) j;
          ofold (fun g k2 => try_edge free (n1 + k1) (n2 + k2) g) (seq 0 (length xm2)) g)
        (seq 0 (length xm1)) g)
      (seq 0 (length (fty (snd sg)))) g)
    (seq 0 (length segs - 1)) g
  end.
(** connectOneSlice3D, HRM3D.cpp:116-156. *)
Definition connect3d (free : pose -> pose -> outcome bool) (q : qt) (joints : list f64) (segs : freeseg3) (g : graph)
  : outcome (graph * list (list nat)) :=
  do gl <- connect_planes free q joints segs g;
  do g' <- between_planes free (snd gl) segs (fst gl);
  Ok (g', snd gl).

(** The pose a slice is built at, HRM3D.cpp:26-31. *)
Definition slice_pose (i : nat) (s : st) : outcome pose :=
  if m_rigid E then do q <- at_ (q_quats s) i; Ok ([fofZ 0; fofZ 0; fofZ 0] ++ quat_list q)
  else at_ (q_confs s) i.

(** constructOneSlice, HRM3D.cpp:24-54. *)
Definition construct_slice3 (i : nat) (s : st) : outcome st :=
  do v <- slice_pose i s;
  do rb <- set_transform3 (q_robot s) v;
  do b <- (if q_refine s
           then do b <- at_ (q_sliceAll s) i; Ok (q_nA s, q_nO s, q_fsmesh s, b, q_sliceAll s)
           else do b <- m_mink E (q_fsrobot s);
                Ok (length (marena b), length (mobstacle b), b, b, q_sliceAll s ++ [b]));
  let '(nA, nO, fsm, sb, all) := b in
  let s1 := State3 (q_quats s) (q_confs s) (q_numSlice s) (q_numLineX s) (q_numLineY s) rb (q_fsrobot s) nA nO
    fsm (q_tables s) sb all (q_graph s) (q_nv s) (q_vidx s) (q_vidxAll s) (q_refine s) (q_sol s) in
  do ts <- sweep_process3 s1;
  do joints <- joints_of s1;
  do gl <- connect3d (same_slice_free3 sb) (m_quat E rb) joints (snd ts) (q_graph s);
  Ok (State3 (q_quats s) (q_confs s) (q_numSlice s) (q_numLineX s) (q_numLineY s) rb (q_fsrobot s) nA nO
    fsm (fst ts) sb all (fst gl)
    (VIdx (length (gvert (q_graph s))) (length (gvert (fst gl))) (last (snd gl) (vplane (q_nv s))) (snd gl))
    (q_vidx s) (q_vidxAll s) (q_refine s) (q_sol s)).

(** getFreeSegmentOneSlice, HRM3D.h:36-42: the meshes of [bd] are stored, the number of
    boundaries swept is still that of cSpaceBoundary_. *)
Definition free_segment_one_slice (bd : bmesh) (s : st) : outcome (st * freeseg3) :=
  let s1 := State3 (q_quats s) (q_confs s) (q_numSlice s) (q_numLineX s) (q_numLineY s) (q_robot s) (q_fsrobot s) (q_nA s) (q_nO s)
    bd (q_tables s) bd (q_sliceAll s) (q_graph s) (q_nv s) (q_vidx s) (q_vidxAll s) (q_refine s) (q_sol s) in
  do ts <- sweep_process3 s1;
  Ok (State3 (q_quats s) (q_confs s) (q_numSlice s) (q_numLineX s) (q_numLineY s) (q_robot s) (q_fsrobot s) (q_nA s) (q_nO s)
    bd (fst ts) bd (q_sliceAll s) (q_graph s) (q_nv s) (q_vidx s) (q_vidxAll s) (q_refine s) (q_sol s), snd ts).

(** [numVertex_.slice = vertex.size(); vertexIdx_.push_back(numVertex_)]. *)
Definition record_slice3 (s : st) : st :=
  let nv := VIdx (vstart (q_nv s)) (length (gvert (q_graph s))) (vplane (q_nv s)) (vline (q_nv s)) in
  State3 (q_quats s) (q_confs s) (q_numSlice s) (q_numLineX s) (q_numLineY s) (q_robot s) (q_fsrobot s) (q_nA s) (q_nO s)
    (q_fsmesh s) (q_tables s) (q_slice s) (q_sliceAll s) (q_graph s) nv (q_vidx s ++ [nv]) (q_vidxAll s) (q_refine s) (q_sol s).

(** ---- connecting slices ---- *)
(** The window of HRM3D.cpp:195-206 and ProbHRM3D.cpp:138-149 ([continue] when it is
    exceeded).  [ab]: connectExistSlice (HRM3D.cpp:246-261) takes |l1 - l0|. *)
Definition gap (ab : bool) (lo hi : f64) (n : nat) : f64 :=
  fdiv (fmul ftwo (if ab then fabs (fsub hi lo) else fsub hi lo)) (fofnat n).
Definition near3 (ab : bool) (nx ny : nat) (v1 v2 : pose) : outcome bool :=
  do x1 <- at_ v1 0; do x2 <- at_ v2 0; do l0 <- lim3 0; do l1 <- lim3 1;
  if fltb (gap ab l0 l1 nx) (fabs (fsub x1 x2)) then Ok false else
  do y1 <- at_ v1 1; do y2 <- at_ v2 1; do l2 <- lim3 2; do l3 <- lim3 3;
  Ok (negb (fltb (gap ab l2 l3 ny) (fabs (fsub y1 y2)))).

(** The nearest-slice loops, HRM3D.cpp:165-173 and ProbHRM3D.cpp:111-119: strict
    minimum over the candidates, index 0 when there is none. *)
Definition nearest_slice (d : nat -> outcome f64) (js : list nat) : outcome nat :=
  do r <- ofold (fun '(m, best) j => do e <- d j; Ok (if fltb e m then (e, j) else (m, best))) js (finf, 0);
  Ok (snd r).

(** HRM3D::connectMultiSlice, HRM3D.cpp:158-224.  The loop condition
    [j != i && j < numSlice] admits the slices before [i] only.  Simplification:
    vertex.at(m0) is modelled by the unchecked read of MGraph.link_ranges; the
    recorded ranges never exceed the vertex list. *)
Definition connect_multi3 (s : st) : outcome st :=
  if Nat.eqb (length (q_vidx s)) 1 then Ok s else
  do g <- ofold (fun g i =>
      do j <- nearest_slice (fun j => do a <- at_ (q_quats s) i; do b <- at_ (q_quats s) j; Ok (m_qdist E a b))
                (seq 0 (Nat.min i (q_numSlice s)));
      do vi <- at_ (q_vidx s) i;
      do vj <- at_ (q_vidx s) j;
      do qi <- at_ (q_quats s) i;
      do qj <- at_ (q_quats s) j;
      do br <- m_tfe_q E (q_robot s) qi qj;
      link_ranges (near3 false (q_numLineX s) (q_numLineY s)) (multi_slice_free3 (q_robot s) br)
        (vstart vj) (vslice vj) (vstart vi) (vslice vi) g)
    (seq 0 (length (q_vidx s))) (q_graph s);
  Ok (with_graph3 s g).

(** ProbHRM3D::connectMultiSlice, ProbHRM3D.cpp:105-162: the slice just added against
    the nearest earlier one. *)
Definition connect_last3 (s : st) : outcome st :=
  let n := q_numSlice s in
  if Nat.eqb n 1 then Ok s else
  do j <- nearest_slice (fun i => do a <- back_ (q_confs s); do b <- at_ (q_confs s) i; vec_euclid F64 a b) (seq 0 (n - 1));
  do vn <- at_ (q_vidx s) (n - 1);
  do vj <- at_ (q_vidx s) j;
  do a <- back_ (q_confs s);
  do b <- at_ (q_confs s) j;
  do br <- m_tfe_v E (q_robot s) a b;
  do g <- link_ranges (near3 false (q_numLineX s) (q_numLineY s)) (multi_slice_free3 (q_robot s) br)
            (vstart vj) (vslice vj) (vstart vn) (vslice vn) (q_graph s);
  Ok (with_graph3 s g).

(** connectExistSlice, HRM3D.cpp:226-270. *)
Definition connect_exist3 (i : nat) (s : st) : outcome st :=
  do cur <- at_ (q_vidx s) i;
  do old <- back_ (q_vidxAll s);
  do ex <- at_ old i;
  do g <- link_ranges (near3 true (q_numLineX s) (q_numLineY s)) (same_slice_free3 (q_slice s))
            (vstart cur) (vslice cur) (vstart ex) (vslice ex) (q_graph s);
  Ok (with_graph3 s g).

(** ---- queries ---- *)
(** getNearestNeighborsOnGraph, HRM3D.cpp:443-508. *)
(** Lines 455-462: minQuat is assigned only by a strictly smaller distance than the
    one to q_[0]. *)
Definition closest_quat (qs : list qt) (q0 qq : qt) : option qt :=
  snd (fold_left (fun '(d, best) q => let e := m_qdist E qq q in if fltb e d then (e, Some q) else (d, best))
         qs (m_qdist E qq q0, None)).
(** Lines 465-474. *)
Fixpoint quat_near (m : qt) (radius : f64) (k : nat) (qs acc : list qt) : list qt :=
  match qs with
  | [] => acc
  | q :: rest =>
      let acc' := if fltb (m_qdist E m q) radius then acc ++ [q] else acc in
      if Nat.leb k (length acc') then acc' else quat_near m radius k rest acc'
  end.
(** Lines 479-495. *)
Definition nearest_vertex (vs : list pose) (v : pose) (q : qt) : outcome nat :=
  do r <- ofold (fun '(d, best) '(i, w) =>
            do e <- vec_euclid F64 v w;
            if fltb e d then
              do qw <- get_quat F64 w;
              Ok (if fltb (m_qdist E q qw) cEPS then (e, i) else (d, best))
            else Ok (d, best)) (combine (seq 0 (length vs)) vs) (finf, 0);
  Ok (snd r).
(** Lines 497-504. *)
Definition in_window3 (s : st) (v w : pose) (radius : f64) : outcome bool :=
  do x1 <- idx v 0; do x2 <- idx w 0; do l0 <- lim3 0; do l1 <- lim3 1;
  if fltb (fabs (fsub x1 x2)) (fdiv (fmul radius (fsub l1 l0)) (fofnat (q_numLineX s))) then
    do y1 <- idx v 1; do y2 <- idx w 1; do l2 <- lim3 2; do l3 <- lim3 3;
    Ok (fltb (fabs (fsub y1 y2)) (fdiv (fmul radius (fsub l3 l2)) (fofnat (q_numLineY s))))
  else Ok false.
Definition nearest_neighbors3 (s : st) (v : pose) (k : nat) (radius : f64) : outcome (list nat) :=
  do qq <- get_quat F64 v;
  do q0 <- idx (q_quats s) 0;
  do m <- (match closest_quat (q_quats s) q0 qq with Some q => Ok q | None => m_uninit E (q_graph s) v end);
  ofold (fun acc q =>
    do i <- nearest_vertex (gvert (q_graph s)) v q;
    do w <- idx (gvert (q_graph s)) i;
    do b <- in_window3 s v w radius;
    Ok (if b then acc ++ [i] else acc)) (quat_near m radius k (q_quats s) []) [].

(** search, HighwayRoadMap-inl.h:109-175. *)
Definition do_search3 (s : st) : outcome st :=
  do ss <- nearest_neighbors3 s (m_start E) (m_numNeighbor E) (m_radius E);
  do ts <- nearest_neighbors3 s (m_goal E) (m_numNeighbor E) (m_radius E);
  do r <- search (m_astar E) (q_graph s) ss ts (q_sol s);
  Ok (with_sol3 s r).

(** ---- planning, HRM3D ---- *)
(** sampleSO3, HRM3D.cpp:427-441; [rq i] is the i-th random quaternion of this call.
    Simplification: Eigen::Quaterniond::UnitRandom is the only effect of the seed. *)
Definition sample_so3 (rq : nat -> qt) (s : st) : st :=
  match m_samples E with
  | [] => with_samples s (map rq (seq 0 (q_numSlice s))) (q_confs s) (q_numSlice s)
  | qs => with_samples s qs (q_confs s) (length qs)
  end.

(** buildRoadmap, HighwayRoadMap-inl.h:91-107. *)
Definition build_roadmap3 (rq : nat -> qt) (s : st) : outcome st :=
  let s0 := sample_so3 rq s in
  do s1 <- ofold (fun s i => do s' <- construct_slice3 i s; Ok (record_slice3 s')) (seq 0 (q_numSlice s0)) s0;
  connect_multi3 s1.

(** refineExistRoadmap, HighwayRoadMap-inl.h:177-215; [late]: see Model/MHRM2D.v. *)
Definition refine_begin3 (s : st) : st :=
  State3 (q_quats s) (q_confs s) (q_numSlice s) (2 * q_numLineX s) (2 * q_numLineY s) (q_robot s) (q_fsrobot s) (q_nA s) (q_nO s)
    (q_fsmesh s) (q_tables s) (q_slice s) (q_sliceAll s) (q_graph s) (q_nv s) [] (q_vidxAll s ++ [q_vidx s]) true (q_sol s).
Definition refine_end3 (s : st) : st :=
  State3 (q_quats s) (q_confs s) (q_numSlice s) (q_numLineX s) (q_numLineY s) (q_robot s) (q_fsrobot s) (q_nA s) (q_nO s)
    (q_fsmesh s) (q_tables s) (q_slice s) (q_sliceAll s) (q_graph s) (q_nv s) (q_vidx s) (q_vidxAll s) false (q_sol s).
Fixpoint refine_slices3 (late : nat -> bool) (is : list nat) (s : st) : outcome st :=
  match is with
  | [] => Ok (refine_end3 s)
  | i :: rest =>
      do s1 <- construct_slice3 i s;
      do s2 <- connect_exist3 i (record_slice3 s1);
      do s3 <- do_search3 s2;
      if s_solved (q_sol s3) || late i then Ok s3 else refine_slices3 late rest s3
  end.
Definition refine3 (late : nat -> bool) (s : st) : outcome st :=
  refine_slices3 late (seq 0 (q_numSlice s)) (refine_begin3 s).
Fixpoint refine_loop3 (rounds : list (nat -> bool)) (s : st) : outcome st :=
  if s_solved (q_sol s) then Ok s else
  match rounds with
  | [] => Ok s
  | late :: rest => do s' <- refine3 late s; refine_loop3 rest s'
  end.

(** plan of HRM3D: HighwayRoadMap-inl.h:64-89.  The interpolated path is computed by
    the base class' getInterpolatedSolutionPath (it is not virtual). *)
Definition plan3 (rq : nat -> qt) (rounds : list (nat -> bool)) (s : st) : outcome (st * option (list pose * list pose)) :=
  do s1 <- build_roadmap3 rq s;
  do s2 <- do_search3 s1;
  do s3 <- refine_loop3 rounds s2;
  if s_solved (q_sol s3) then
    do path <- solution_path (q_graph s3) (m_start E) (m_goal E) (s_path (q_sol s3));
    Ok (s3, Some (path, interpolated_path path (m_numPoint E)))
  else Ok (s3, None).

(** HRM3D::getInterpolatedSolutionPath, HRM3D.cpp:272-299.  A negative step count is
    converted to a huge unsigned one: modelled as an allocation failure. *)
Definition distance_step (cost : f64) (num : nat) (size : nat) : f64 :=
  fdiv cost (fmul (fofnat num) (fsub (fofnat size) fone)).
Definition interp_steps (cost : f64) (num : nat) (path : list pose) (i : nat) : outcome (list pose) :=
  do a <- at_ path i;
  do b <- at_ path (i + 1);
  do d <- vec_euclid F64 a b;
  do n <- f_to_int (fdiv d (distance_step cost num (length path)));
  if Z.ltb n 0 then Throw OtherException else interpolate_compound F64 (m_slerp E) a b (Z.to_nat n).
Definition interpolated_path3 (cost : f64) (num : nat) (path : list pose) : outcome (list pose) :=
  match path with
  | [] => Throw OutOfRange      (* size() - 1 wraps, solvedPath.at(0) throws *)
  | _ => do l <- omap (interp_steps cost num path) (seq 0 (length path - 1)); Ok (concat l)
  end.

(** ---- planning, ProbHRM3D ---- *)
(** ProbHRM3D::sampleOrientations, ProbHRM3D.cpp:67-102; [rq], [rj]: the random
    quaternion and joint angles of this call. *)
Definition at_quat (v : pose) : outcome qt :=
  do w <- at_ v 3; do x <- at_ v 4; do y <- at_ v 5; do z <- at_ v 6; Ok (w, x, y, z).
Definition sample_prob (rq : qt) (rj : nat -> f64) (s : st) : outcome st :=
  let n := q_numSlice s in
  do q <- (if Nat.eqb n 0 then at_quat (m_start E) else if Nat.eqb n 1 then at_quat (m_goal E) else Ok rq);
  do js <- (if Nat.eqb n 0 then omap (fun i => at_ (m_start E) (7 + i)) (seq 0 (m_dof E))
            else if Nat.eqb n 1 then omap (fun i => at_ (m_goal E) (7 + i)) (seq 0 (m_dof E))
            else Ok (map rj (seq 0 (m_dof E))));
  Ok (with_samples s (q_quats s ++ [q]) (q_confs s ++ [[fofZ 0; fofZ 0; fofZ 0] ++ quat_list q ++ js]) n).

(** What one iteration of the do-while loop takes from outside: the random sample and
    the time tests of a refinement. *)
Record draw : Type := Draw { d_quat : qt; d_joint : nat -> f64; d_late : nat -> bool }.

Definition bump (s : st) : st :=
  if q_refine s then s else with_samples s (q_quats s) (q_confs s) (q_numSlice s + 1).
(** Body of the loop, ProbHRM3D.cpp:22-56. *)
Definition prob_step (d : draw) (s : st) : outcome st :=
  do s1 <- sample_prob (d_quat d) (d_joint d) s;
  do s2 <- construct_slice3 (q_numSlice s1) s1;
  let s3 := record_slice3 (bump s2) in
  do s4 <- (if Nat.leb 2 (q_numSlice s3) then connect_last3 s3 else Ok s3);
  do s5 <- do_search3 s4;
  if Nat.eqb (q_numSlice s5 mod 60) 0 && Nat.ltb (length (q_vidxAll s5)) (m_numPoint E)
  then refine3 (d_late d) s5 else Ok s5.
(** The loop: [ds] lists the iterations after the first that the time limit allows. *)
Fixpoint prob_loop (d : draw) (ds : list draw) (s : st) : outcome st :=
  do s' <- prob_step d s;
  if s_solved (q_sol s') then Ok s' else
  match ds with
  | [] => Ok s'
  | d' :: rest => prob_loop d' rest s'
  end.
(** ProbHRM3D::plan, ProbHRM3D.cpp:18-65. *)
Definition plan_prob (d : draw) (ds : list draw) (s : st) : outcome (st * option (list pose * list pose)) :=
  do s1 <- prob_loop d ds (with_samples s (q_quats s) (q_confs s) 0);
  if s_solved (q_sol s1) then
    do path <- solution_path (q_graph s1) (m_start E) (m_goal E) (s_path (q_sol s1));
    do ip <- interpolated_path3 (s_cost (q_sol s1)) (m_numPoint E) path;
    Ok (s1, Some (path, ip))
  else Ok (s1, None).
End HRM3D.
