(** Model of the roadmap graph and of the dimension-independent construction
    steps of include/hrm/planners/HighwayRoadMap-inl.h. *)
From Coq Require Import List Bool Arith ZArith.
From Verif.Base Require Import Outcome Float64.
From Verif.Model Require Import MScalar MDistance MFreeSpace.
Import ListNotations.
Local Open Scope outcome_scope.

(** A pose: std::vector<Coordinate>. *)
Definition pose : Type := list f64.

(** struct Graph, include/hrm/planners/PlanningResult.h (vertex, edge, weight). *)
Record graph : Type := Graph {
  gvert : list pose;
  gedge : list (nat * nat);
  gweight : list f64
}.
Definition graph0 : graph := Graph [] [] [].

(** struct VertexIdx, HighwayRoadMap.h:31-43. *)
Record vidx : Type := VIdx {
  vstart : nat;              (* startId *)
  vslice : nat;              (* slice *)
  vplane : list nat;         (* plane *)
  vline : list (list nat)    (* line *)
}.
Definition vidx0 : vidx := VIdx 0 0 [] [].

(** [vertex.push_back(v)] *)
Definition push_vertex (v : pose) (g : graph) : graph := Graph (gvert g ++ [v]) (gedge g) (gweight g).

(** The pair of statements [edge.push_back(make_pair(a, b));
    weight.push_back(vectorEuclidean(vertex[a], vertex[b]))], for instance
    HighwayRoadMap-inl.h:233-237. *)
Definition add_edge (a b : nat) (g : graph) : outcome graph :=
  do v1 <- idx (gvert g) a;
  do v2 <- idx (gvert g) b;
  do w <- vec_euclid F64 v1 v2;
  Ok (Graph (gvert g) (gedge g ++ [(a, b)]) (gweight g ++ [w])).

(** [c1() && c2()] *)
Definition oand (c1 : outcome bool) (c2 : outcome bool) : outcome bool :=
  do b <- c1; if b then c2 else Ok false.

Section Free.
(** isSameSliceTransitionFree (virtual). *)
Variable free : pose -> pose -> outcome bool.

(** bridgeVertex, HighwayRoadMap-inl.h:293-326. *)
Definition bridge (i1 i2 : nat) (g : graph) : outcome graph :=
  do v1 <- at_ (gvert g) i1;
  do v2 <- at_ (gvert g) i2;
  do c2 <- at_ v2 2;
  do new1 <- set_at v1 2 c2;
  do c1 <- at_ v1 2;
  do new2 <- set_at v2 2 c1;
  do b1 <- oand (free v1 new1) (free new1 v2);
  do vnew <- (if b1 then Ok (Some new1) else
              do b2 <- oand (free v1 new2) (free new2 v2);
              Ok (if b2 then Some new2 else None));
  match vnew with
  | None => Ok g
  | Some v =>
      let n := length (gvert g) in
      do w1 <- vec_euclid F64 v1 v;
      do w2 <- vec_euclid F64 v v2;
      Ok (Graph (gvert g ++ [v]) (gedge g ++ [(i1, n); (n, i2)]) (gweight g ++ [w1; w2]))
  end.

(** The [if (isSameSliceTransitionFree(..)) .. else bridgeVertex(..)] statement,
    HighwayRoadMap-inl.h:243-256 and HRM3D.cpp:138-150. *)
Definition try_edge (a b : nat) (g : graph) : outcome graph :=
  do v1 <- idx (gvert g) a;
  do v2 <- idx (gvert g) b;
  do ok <- free v1 v2;
  if ok then add_edge a b g else bridge a b g.

(** Lines 228-238: neighbours on one sweep line whose segments touch. *)
Definition same_line (seg : freeseg) (i n1 j1 m : nat) (g : graph) : outcome graph :=
  if Nat.eqb j1 (m - 1) then Ok g else
  do rU <- idx (fxU seg) i;
  do xu <- idx rU j1;
  do rL <- idx (fxL seg) i;
  do xl <- idx rL (j1 + 1);
  if fltb (fabs (fsub xu xl)) cEPS then add_edge (n1 + j1) (n1 + j1 + 1) g else Ok g.

(** connectOneSlice2D, HighwayRoadMap-inl.h:217-261. *)
Definition connect2d (plane : list nat) (seg : freeseg) (g : graph) : outcome graph :=
  ofold (fun g i =>
    do n1 <- at_ plane i;
    do xm <- idx (fxM seg) i;
    ofold (fun g j1 =>
      do g1 <- same_line seg i n1 j1 (length xm) g;
      if Nat.eqb i (length (fty seg) - 1) then Ok g1 else
      do n2 <- at_ plane (i + 1);
      do xm2 <- idx (fxM seg) (i + 1);
      ofold (fun g j2 => try_edge (n1 + j1) (n2 + j2) g) (seq 0 (length xm2)) g1)
    (seq 0 (length xm)) g)
  (seq 0 (length (fty seg))) g.

(** The inner loop shared by connectMultiSlice / connectExistSlice (HRM2D.cpp:129-153,
    179-196; HRM3D.cpp:188-221, 241-269): the first candidate [m1] that is close
    enough ([near]) and whose motion is free ([ok]). *)
Variables near ok : pose -> pose -> outcome bool.
Fixpoint find_link (g : graph) (v1 : pose) (ms : list nat) : outcome (option nat) :=
  match ms with
  | [] => Ok None
  | m1 :: rest =>
      do v2 <- idx (gvert g) m1;
      do c <- near v1 v2;
      if c then
        do b <- ok v1 v2;
        if b then Ok (Some m1) else find_link g v1 rest
      else find_link g v1 rest
  end.
(** The two nested loops: [lo2] moves to the last connected vertex. *)
Definition link_ranges (lo1 hi1 lo2 hi2 : nat) (g : graph) : outcome graph :=
  do r <- ofold (fun '(g, s) m0 =>
      do v1 <- idx (gvert g) m0;
      do o <- find_link g v1 (seq s (hi2 - s));
      match o with
      | Some m1 => do g' <- add_edge m0 m1 g; Ok (g', m1)
      | None => Ok (g, s)
      end) (seq lo1 (hi1 - lo1)) (g, lo2);
  Ok (fst r).
End Free.

(** The vertex loop of generateVertices (HRM2D.cpp:79-88, HRM3D.cpp:97-111):
    [mk ty m] is the pushed pose; returns the graph and the [plane] table. *)
Definition gen_vertices (mk : f64 -> f64 -> pose) (seg : freeseg) (g : graph) : outcome (graph * list nat) :=
  ofold (fun '(g, plane) '(i, y) =>
    do xm <- idx (fxM seg) i;
    Ok (fold_left (fun g m => push_vertex (mk y m) g) xm g, plane ++ [length (gvert g)]))
  (combine (seq 0 (length (fty seg))) (fty seg)) (g, []).
