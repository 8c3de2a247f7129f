(** Model of the planar planners: src/planners/HRM2D.cpp, src/planners/HRM2DKC.cpp
    and the planning loop of include/hrm/planners/HighwayRoadMap-inl.h. *)
From Coq Require Import List Bool Arith ZArith.
From Verif.Base Require Import Outcome Float64.
From Verif.Model Require Import MScalar MDistance MInterval MFreeSpace MLine2D MGraph MSearch MPointInPoly.
Import ListNotations.
Local Open Scope outcome_scope.

(** BoundaryPoints (2 x n matrix) as a list of columns; struct BoundaryInfo,
    DataType.h. *)
Definition poly64 : Type := list (f64 * f64).
Record bound : Type := Bound { barena : list poly64; bobstacle : list poly64 }.

(** Everything a planner does not change: request parameters, geometry kernels and
    external libraries.  [robot_t] is the type of MultiBodyTree2D values. *)
Record env : Type := Env {
  robot_t : Type;
  e_move : robot_t -> f64 -> f64 -> f64 -> robot_t;   (* robotTF of the pose (x, y, heading) *)
  e_angle : robot_t -> f64;                           (* getBase().getAngle() *)
  e_centers : robot_t -> (f64 * f64) * list (f64 * f64);  (* base and link positions *)
  e_mink : robot_t -> bound;                          (* boundaries of computeCSpaceBoundary *)
  e_tfe : robot_t -> f64 -> f64 -> outcome (list (list poly64));  (* computeTFE; bridgeSlice *)
  e_sort : sort_fn;                                   (* std::sort *)
  e_solve : f64 -> f64 -> f64 -> f64 -> f64 -> f64 -> f64 * f64;  (* Eigen QR, 2x2 *)
  e_astar : graph -> nat -> nat -> option (list nat); (* boost::astar_search *)
  e_limits : list f64;                                (* boundaryLimits *)
  e_numSlice : nat;
  e_numPoint : nat;
  e_numNeighbor : nat;
  e_radius : f64;
  e_start : pose;
  e_goal : pose
}.

(** The mutable members of HighwayRoadMap / HRM2D that planning reads back. *)
Record state (E : env) : Type := State {
  p_headings : list f64;                (* headings_ *)
  p_numLineX : nat;                     (* param_.numLineX *)
  p_numLineY : nat;                     (* param_.numLineY *)
  p_robot : robot_t E;                  (* robot_ *)
  p_fsrobot : robot_t E;                (* freeSpacePtr_->robot_ *)
  p_fsbound : bound;                    (* freeSpacePtr_->cSpaceBoundary_ *)
  p_tables : tables;                    (* freeSpacePtr_->intersect_ *)
  p_slice : bound;                      (* sliceBound_ *)
  p_sliceAll : list bound;              (* sliceBoundAll_ *)
  p_graph : graph;                      (* res_.graphStructure *)
  p_nv : vidx;                          (* numVertex_ *)
  p_vidx : list vidx;                   (* vertexIdx_ *)
  p_vidxAll : list (list vidx);         (* vertexIdxAll_ *)
  p_refine : bool;                      (* isRefine_ *)
  p_sol : sol                           (* res_.solved, PathId, cost *)
}.
Arguments State {E}.
Arguments p_headings {E}.
Arguments p_numLineX {E}.
Arguments p_numLineY {E}.
Arguments p_robot {E}.
Arguments p_fsrobot {E}.
Arguments p_fsbound {E}.
Arguments p_tables {E}.
Arguments p_slice {E}.
Arguments p_sliceAll {E}.
Arguments p_graph {E}.
Arguments p_nv {E}.
Arguments p_vidx {E}.
Arguments p_vidxAll {E}.
Arguments p_refine {E}.
Arguments p_sol {E}.

(** The ray casting of isPtInCFree, HRM2D.cpp:267-282, for the boundaries of one body,
    generic in the scalar type; intersectObs[1] is unchecked. *)
Section Tests.
Variable S : scalar.
Fixpoint point_clear2 (v : car S * car S) (bs : list (list (car S * car S))) : outcome bool :=
  match bs with
  | [] => Ok true
  | b :: rest =>
      do hits <- hline_polygon S (snd v) b;
      match hits with
      | [] => point_clear2 v rest
      | h0 :: _ =>
          do h1 <- idx hits 1;
          if sltb S (sfmin S h0 h1) (fst v) && sltb S (fst v) (sfmax S h0 h1) then Ok false else point_clear2 v rest
      end
  end.
End Tests.

Section HRM2D.
Variable E : env.
Notation st := (state E).

(** Record updates. *)
Definition with_graph (s : st) (g : graph) : st :=
  State (p_headings s) (p_numLineX s) (p_numLineY s) (p_robot s) (p_fsrobot s) (p_fsbound s) (p_tables s)
        (p_slice s) (p_sliceAll s) g (p_nv s) (p_vidx s) (p_vidxAll s) (p_refine s) (p_sol s).
Definition with_sol (s : st) (r : sol) : st :=
  State (p_headings s) (p_numLineX s) (p_numLineY s) (p_robot s) (p_fsrobot s) (p_fsbound s) (p_tables s)
        (p_slice s) (p_sliceAll s) (p_graph s) (p_nv s) (p_vidx s) (p_vidxAll s) (p_refine s) r.

(** [boundaryLimits[i]] (unchecked). *)
Definition lim (i : nat) : outcome f64 := idx (e_limits E) i.

(** Constructor, HRM2D.cpp:6-16 and FreeSpace-inl.h:10-14: the free-space computator
    gets its own copy of the robot.  [fsr] is the robot given to it (HRM2D: the
    same robot; HRM2DKC: the inflated base, HRM2DKC.cpp:11-19, where setup runs a
    second time and leaves the rows that exist).  [nA], [nO]: column counts. *)
Definition construct (robot fsr : robot_t E) (numLineX numLineY nA nO : nat) : outcome st :=
  do l0 <- lim 0;
  do l1 <- lim 1;
  Ok (State [] numLineX numLineY robot fsr (Bound [] []) (setup numLineY l0 l1 nA nO tables0)
        (Bound [] []) [] graph0 vidx0 [] [] false (Sol false [] (fofZ 0))).

(** sampleOrientations, HRM2D.cpp:46-51. *)
Definition heading (i : nat) : f64 :=
  fadd (fneg cPI)
       (fmul (fdiv (fmul ftwo cPI) (fsub (fofnat (e_numSlice E)) fone)) (fofnat i)).
Definition sample_orientations (s : st) : st :=
  State (p_headings s ++ map heading (seq 0 (e_numSlice E))) (p_numLineX s) (p_numLineY s) (p_robot s) (p_fsrobot s)
        (p_fsbound s) (p_tables s) (p_slice s) (p_sliceAll s) (p_graph s) (p_nv s) (p_vidx s) (p_vidxAll s)
        (p_refine s) (p_sol s).

(** The sweep-line heights, HRM2D.cpp:55-61. *)
Definition sweep_heights (n : nat) (l2 l3 : f64) : list f64 :=
  let dy := fdiv (fsub l3 l2) (fsub (fofnat n) fone) in
  map (fun i => fadd l2 (fmul (fofnat i) dy)) (seq 0 n).

(** sweepLineProcess, HRM2D.cpp:53-70.  The free-space computator intersects the
    sweep lines with its own boundary [p_fsbound]. *)
Definition sweep_process (s : st) : outcome (tables * freeseg) :=
  do l0 <- lim 0; do l1 <- lim 1; do l2 <- lim 2; do l3 <- lim 3;
  let ty := sweep_heights (p_numLineY s) l2 l3 in
  do t <- compute_intersection l0 l1
            (fun c => map (hline_polygon F64 c) (barena (p_fsbound s)))
            (fun c => map (hline_polygon F64 c) (bobstacle (p_fsbound s))) ty (p_tables s);
  do seg <- compute_free_segment (e_sort E) t ty;
  Ok (t, seg).

(** isSameSliceTransitionFree, HRM2D.cpp:215-232: [!any_of(...)]. *)
Fixpoint any_crossing (v1 v2 : pose) (ps : list poly64) : outcome bool :=
  match ps with
  | [] => Ok false
  | p :: rest => do b <- seg_polygon F64 (e_solve E) v1 v2 p; if b then Ok true else any_crossing v1 v2 rest
  end.
Definition same_slice_free (b : bound) (v1 v2 : pose) : outcome bool :=
  do c <- any_crossing v1 v2 (bobstacle b); Ok (negb c).

(** generateVertices, HRM2D.cpp:72-89 (the unused argument tx is dropped). *)
Definition generate_vertices (s : st) (seg : freeseg) : outcome (graph * vidx) :=
  do r <- gen_vertices (fun y m => [m; y; e_angle E (p_robot s)]) seg (p_graph s);
  Ok (fst r, VIdx (length (gvert (p_graph s))) (vslice (p_nv s)) (snd r) [snd r]).

(** constructOneSlice, HRM2D.cpp:20-42. *)
Definition construct_slice (i : nat) (s : st) : outcome st :=
  do h <- at_ (p_headings s) i;
  let rb := e_move E (p_robot s) (fofZ 0) (fofZ 0) h in
  do b <- (if p_refine s
           then do b <- at_ (p_sliceAll s) i; Ok (p_fsbound s, b, p_sliceAll s)
           else let b := e_mink E (p_fsrobot s) in Ok (b, b, p_sliceAll s ++ [b]));
  let '(fsb, sb, all) := b in
  let s1 := State (p_headings s) (p_numLineX s) (p_numLineY s) rb (p_fsrobot s) fsb (p_tables s) sb all
                  (p_graph s) (p_nv s) (p_vidx s) (p_vidxAll s) (p_refine s) (p_sol s) in
  do ts <- sweep_process s1;
  do gv <- generate_vertices s1 (snd ts);
  do g <- connect2d (same_slice_free sb) (vplane (snd gv)) (snd ts) (fst gv);
  Ok (State (p_headings s) (p_numLineX s) (p_numLineY s) rb (p_fsrobot s) fsb (fst ts) sb all
            g (snd gv) (p_vidx s) (p_vidxAll s) (p_refine s) (p_sol s)).

(** [numVertex_.slice = vertex.size(); vertexIdx_.push_back(numVertex_)],
    HighwayRoadMap-inl.h:101-103 and 195-196. *)
Definition record_slice (s : st) : st :=
  let nv := VIdx (vstart (p_nv s)) (length (gvert (p_graph s))) (vplane (p_nv s)) (vline (p_nv s)) in
  State (p_headings s) (p_numLineX s) (p_numLineY s) (p_robot s) (p_fsrobot s) (p_fsbound s) (p_tables s)
        (p_slice s) (p_sliceAll s) (p_graph s) nv (p_vidx s ++ [nv]) (p_vidxAll s) (p_refine s) (p_sol s).

(** isPtInCFree, HRM2D.cpp:267-282. *)
Definition pt_free (bridge : list (list poly64)) (k : nat) (v : f64 * f64) : outcome bool :=
  do bs <- at_ bridge k;
  point_clear2 F64 v bs.

(** One interpolated pose, HRM2D.cpp:240-244. *)
Fixpoint lerp (t : f64) (v1 v2 : pose) : outcome pose :=
  match v1, v2 with
  | [], _ => Ok []
  | _ :: _, [] => UB
  | a :: r1, b :: r2 =>
      do r <- lerp t r1 r2;
      Ok (fadd (fmul (fsub fone t) a) (fmul t b) :: r)
  end.

(** All bodies at one pose, HRM2D.cpp:247-260. *)
Definition bodies_free (bridge : list (list poly64)) (r : robot_t E) : outcome bool :=
  let '(base, links) := e_centers E r in
  (fix go k cs := match cs with
   | [] => Ok true
   | c :: rest => do b <- pt_free bridge k c; if b then go (k + 1) rest else Ok false
   end) 0 (base :: links).

(** setTransform, HRM2D.cpp:344-350 (reads v[0], v[1], v[2] unchecked). *)
Definition set_transform (r : robot_t E) (v : pose) : outcome (robot_t E) :=
  do x <- idx v 0; do y <- idx v 1; do a <- idx v 2; Ok (e_move E r x y a).

(** isMultiSliceTransitionFree, HRM2D.cpp:235-265.  Simplification: the robot left
    in robot_ by the last setTransform is not threaded (constructOneSlice sets
    the pose again before it is read; computeTFE reads no pose). *)
Definition multi_slice_free (r : robot_t E) (bridge : list (list poly64)) (v1 v2 : pose) : outcome bool :=
  let dt := fdiv fone (fsub (fofnat (e_numPoint E)) fone) in
  (fix go is := match is with
   | [] => Ok true
   | i :: rest =>
       do v <- lerp (fmul (fofnat i) dt) v1 v2;
       do r' <- set_transform r v;
       do b <- bodies_free bridge r';
       if b then go rest else Ok false
   end) (seq 0 (e_numPoint E)).

(** The height window, HRM2D.cpp:133-138 and 184-189 ([continue] when true). *)
Definition near2d (n : nat) (v1 v2 : pose) : outcome bool :=
  do y1 <- idx v1 1; do y2 <- idx v2 1; do l2 <- lim 2; do l3 <- lim 3;
  Ok (negb (fltb (fdiv (fmul ftwo (fabs (fsub l3 l2))) (fofnat n)) (fabs (fsub y1 y2)))).

(** The index of the adjacent slice, HRM2D.cpp:113-118. *)
Definition adjacent (i : nat) : nat :=
  if Nat.eqb (i + 1) (e_numSlice E) && negb (Nat.eqb (e_numSlice E) 2) then 0 else i + 1.

(** connectMultiSlice, HRM2D.cpp:91-156. *)
Definition connect_multi (s : st) : outcome st :=
  if Nat.eqb (length (p_vidx s)) 1 then Ok s else
  do g <- ofold (fun g i =>
      do vi <- at_ (p_vidx s) i;
      do vj <- at_ (p_vidx s) (adjacent i);
      do hi <- idx (p_headings s) i;
      do hj <- idx (p_headings s) (adjacent i);
      do br <- e_tfe E (p_robot s) hi hj;
      link_ranges (near2d (p_numLineY s)) (multi_slice_free (p_robot s) br)
        (vstart vi) (vslice vi) (vstart vj) (vslice vj) g)
    (seq 0 (length (p_vidx s))) (p_graph s);
  Ok (with_graph s g).

(** connectExistSlice, HRM2D.cpp:158-197. *)
Definition connect_exist (i : nat) (s : st) : outcome st :=
  do cur <- at_ (p_vidx s) i;
  do old <- back_ (p_vidxAll s);
  do ex <- at_ old i;
  do g <- link_ranges (near2d (p_numLineY s)) (same_slice_free (p_slice s))
            (vstart cur) (vslice cur) (vstart ex) (vslice ex) (p_graph s);
  Ok (with_graph s g).

(** getNearestNeighborsOnGraph, HRM2D.cpp:284-342. *)
Definition closest_angle (vs : list pose) (q2 : f64) : outcome f64 :=
  do v0 <- idx vs 0;
  do a0 <- idx v0 2;
  do r <- ofold (fun '(d, a) v =>
            do c <- idx v 2;
            let e := fabs (fsub q2 c) in
            Ok (if fltb e d then (e, c) else (d, a))) vs (fabs (fsub q2 a0), a0);
  Ok (snd r).
(** Lines 306-315: the [break] is tested after each heading, also for k = 0. *)
Fixpoint angle_list (a radius : f64) (k : nat) (hs acc : list f64) : list f64 :=
  match hs with
  | [] => acc
  | h :: rest =>
      let acc' := if fltb (fabs (fsub a h)) radius then acc ++ [h] else acc in
      if Nat.leb k (length acc') then acc' else angle_list a radius k rest acc'
  end.
(** Lines 320-333. *)
Definition nearest_in_slice (vs : list pose) (q : pose) (ang : f64) : outcome nat :=
  do v0 <- idx vs 0;
  do d0 <- vec_euclid F64 q v0;
  do r <- ofold (fun '(d, best) '(i, v) =>
            do e <- vec_euclid F64 q v;
            if fltb e d then
              do c <- idx v 2;
              Ok (if fltb (fabs (fsub c ang)) cEPS then (e, i) else (d, best))
            else Ok (d, best)) (combine (seq 0 (length vs)) vs) (d0, 0);
  Ok (snd r).
Definition nearest_neighbors (s : st) (q : pose) (k : nat) (radius : f64) : outcome (list nat) :=
  let vs := gvert (p_graph s) in
  do v0 <- idx vs 0;
  do _ <- idx v0 2;
  do q2 <- idx q 2;
  do a <- closest_angle vs q2;
  ofold (fun acc ang =>
    do i <- nearest_in_slice vs q ang;
    do q1 <- idx q 1;
    do v <- idx vs i;
    do y <- idx v 1;
    do l0 <- lim 0; do l1 <- lim 1;
    if fltb (fabs (fsub q1 y)) (fdiv (fmul radius (fsub l1 l0)) (fofnat (p_numLineY s)))
    then Ok (acc ++ [i]) else Ok acc) (angle_list a radius k (p_headings s) []) [].

(** search, HighwayRoadMap-inl.h:109-175. *)
Definition do_search (s : st) : outcome st :=
  do ss <- nearest_neighbors s (e_start E) (e_numNeighbor E) (e_radius E);
  do ts <- nearest_neighbors s (e_goal E) (e_numNeighbor E) (e_radius E);
  do r <- search (e_astar E) (p_graph s) ss ts (p_sol s);
  Ok (with_sol s r).

Section Plan.
(** connectMultiSlice is virtual: HRM2D's above or HRM2DKC's below. *)
Variable connect : st -> outcome st.

(** buildRoadmap, HighwayRoadMap-inl.h:91-107. *)
Definition build_roadmap (s : st) : outcome st :=
  do s1 <- ofold (fun s i => do s' <- construct_slice i s; Ok (record_slice s'))
             (seq 0 (e_numSlice E)) (sample_orientations s);
  connect s1.

(** refineExistRoadmap, HighwayRoadMap-inl.h:177-215.  [late]: for each slice,
    whether totalTime > timeLim when it is tested (a missing entry: no). *)
Definition refine_begin (s : st) : st :=
  State (p_headings s) (2 * p_numLineX s) (2 * p_numLineY s) (p_robot s) (p_fsrobot s) (p_fsbound s) (p_tables s)
        (p_slice s) (p_sliceAll s) (p_graph s) (p_nv s) [] (p_vidxAll s ++ [p_vidx s]) true (p_sol s).
Definition refine_end (s : st) : st :=
  State (p_headings s) (p_numLineX s) (p_numLineY s) (p_robot s) (p_fsrobot s) (p_fsbound s) (p_tables s)
        (p_slice s) (p_sliceAll s) (p_graph s) (p_nv s) (p_vidx s) (p_vidxAll s) false (p_sol s).
Fixpoint refine_slices (late : nat -> bool) (is : list nat) (s : st) : outcome st :=
  match is with
  | [] => Ok (refine_end s)
  | i :: rest =>
      do s1 <- construct_slice i s;
      do s2 <- connect_exist i (record_slice s1);
      do s3 <- do_search s2;
      if s_solved (p_sol s3) || late i then Ok s3 else refine_slices late rest s3
  end.
Definition refine (late : nat -> bool) (s : st) : outcome st :=
  refine_slices late (seq 0 (e_numSlice E)) (refine_begin s).

(** The [while] loop of plan, lines 79-81.  [rounds] lists the refinement rounds
    the time limit allows (each with its in-round time tests): the loop stops
    when solved or when the list is used up. *)
Fixpoint refine_loop (rounds : list (nat -> bool)) (s : st) : outcome st :=
  if s_solved (p_sol s) then Ok s else
  match rounds with
  | [] => Ok s
  | late :: rest => do s' <- refine late s; refine_loop rest s'
  end.

(** plan, HighwayRoadMap-inl.h:64-89: the result is the final state and, when
    solved, the solution path and the interpolated path. *)
Definition plan (rounds : list (nat -> bool)) (s : st) : outcome (st * option (list pose * list pose)) :=
  do s1 <- build_roadmap s;
  do s2 <- do_search s1;
  do s3 <- refine_loop rounds s2;
  if s_solved (p_sol s3) then
    do path <- solution_path (p_graph s3) (e_start E) (e_goal E) (s_path (p_sol s3));
    Ok (s3, Some (path, interpolated_path path (e_numPoint E)))
  else Ok (s3, None).
End Plan.

(** ---- HRM2DKC ---- *)
Section KC.
(** The values of rand(), one per call; [polys] is polyhedronVertex_.matrixInverse. *)
Variable polys : list (list f64).
Definition rand_max : f64 := fofZ 2147483647.

(** The random point, HRM2DKC.cpp:91-95. *)
Fixpoint rand_pt (v1 v2 : pose) (rnd : nat -> f64) (c : nat) : outcome (pose * pose * pose * nat) :=
  match v1, v2 with
  | [], _ => Ok ([], [], [], c)
  | _ :: _, [] => UB
  | a :: r1, b :: r2 =>
      let x := fadd (fdiv (fmul (rnd c) (fsub a b)) rand_max) b in
      do t <- rand_pt r1 r2 rnd (c + 1);
      let '(p, p1, p2, c') := t in
      Ok (x :: p, fsub x a :: p1, fsub x b :: p2, c')
  end.
(** addMiddleVertex, HRM2DKC.cpp:75-105; [n] remaining iterations. *)
Fixpoint middle_vertex (n : nat) (v1 v2 : pose) (rnd : nat -> f64) (c : nat) : outcome (option pose * nat) :=
  match n with
  | 0 => Ok (None, c)
  | S n' =>
      do t <- rand_pt v1 v2 rnd c;
      let '(p, p1, p2, c') := t in
      do f1 <- is_pt_in_poly F64 polys p1;
      if f1 then
        do f2 <- is_pt_in_poly F64 polys p2;
        if f2 then Ok (match p with [] => None | _ => Some p end, c') else middle_vertex n' v1 v2 rnd c'
      else middle_vertex n' v1 v2 rnd c'
  end.
(** The loop over the adjacent slice, HRM2DKC.cpp:50-69. *)
Fixpoint kc_scan (rnd : nat -> f64) (m : nat) (v1 : pose) (ms : list nat) (gc : graph * nat) : outcome (graph * nat) :=
  match ms with
  | [] => Ok gc
  | m2 :: rest =>
      let '(g, c) := gc in
      do v2 <- idx (gvert g) m2;
      do r <- middle_vertex (e_numPoint E) v1 v2 rnd c;
      match r with
      | (None, c') => kc_scan rnd m v1 rest (g, c')
      | (Some v, c') =>
          let n := length (gvert g) in
          do w1 <- vec_euclid F64 v1 v;
          do w2 <- vec_euclid F64 v2 v;
          Ok (Graph (gvert g ++ [v]) (gedge g ++ [(m, n); (m2, n)]) (gweight g ++ [w1; w2]), c')
      end
  end.
(** HRM2DKC::connectMultiSlice, HRM2DKC.cpp:25-73.  Simplification: [n] there
    always equals vertex.size(). *)
Definition kc_connect (rnd : nat -> f64) (s : st) : outcome st :=
  do r <- ofold (fun '(g, c, start) i =>
      do vi <- at_ (p_vidx s) i;
      let n11 := vslice vi in
      do r <- (if Nat.eqb (i + 1) (e_numSlice E)
               then do v <- at_ (p_vidx s) 0; Ok (0, vslice v)
               else do v <- at_ (p_vidx s) (i + 1); Ok (n11, vslice v));
      let '(n12, n2) := r in
      do gc <- ofold (fun '(g, c) m =>
          do v1 <- idx (gvert g) m;
          kc_scan rnd m v1 (seq n12 (n2 - n12)) (g, c)) (seq start (n11 - start)) (g, c);
      Ok (gc, n11)) (seq 0 (e_numSlice E)) (p_graph s, 0, 0);
  Ok (with_graph s (fst (fst r))).
End KC.
End HRM2D.
