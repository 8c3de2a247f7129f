(** C92-C93: the crossings of a sweep line as computed in binary64, and what the roadmap's vertices
    owe to them (src/geometry/LineIntersection.cpp, FreeSpace2D.cpp, HRM2D.cpp). *)
From Coq Require Import List Reals ZArith Arith Bool Lia Lra.
From Flocq Require Import Core.Core.
From Verif.Base Require Import Outcome Float64 FloatFacts.
From Verif.Model Require Import MScalar MInterval MLine2D MGraph MSearch MHRM2D.
From Verif.Spec Require Import SLine2D SPlanner2D SCover SClear SHline.
From Verif.Proofs Require Import PPlan2D PPlan2DY PSearch PInterval PHRM2DW PClear PClearX PHline PHlineX.
Import ListNotations.
Local Open Scope R_scope.

(** C92: every computed crossing is, up to 2^-49 of the largest abscissa (plus 2^-1073), a point of
    a non-horizontal edge at that height, and every such point is found. *)
Theorem C92_crossings_nearly_exact : forall (y : f64) (P : list (f64 * f64)) (M : R),
  P <> [] -> moderate y -> moderate_poly P -> reach P M ->
  exists hits, hline_polygon F64 y P = Ok hits /\ (length hits <= length P)%nat /\
    (forall h, In h hits -> fisfin h = true /\ exists x a b, is_edge (real_poly P) a b /\ snd a <> snd b /\
       on_segment a b (x, fval y) /\ Rabs (fval h - x) <= bpow radix2 (-49) * M + bpow radix2 (-1073)) /\
    (forall x a b, is_edge (real_poly P) a b -> snd a <> snd b -> on_segment a b (x, fval y) ->
       exists h, In h hits /\ Rabs (fval h - x) <= bpow radix2 (-49) * M + bpow radix2 (-1073)).
Proof. exact hits_geometric. Qed.
Print Assumptions C92_crossings_nearly_exact.
(** Crossing by crossing: the same edges are hit, in the same order, as in exact arithmetic. *)
Theorem C92_same_edges_as_exact : forall (y : f64) (P : list (f64 * f64)) (M : R),
  P <> [] -> moderate y -> moderate_poly P -> reach P M ->
  exists hits xs, hline_polygon F64 y P = Ok hits /\ hline_polygon XR (Some (fval y)) (lift_poly (real_poly P)) = Ok (map Some xs) /\
    Forall2 (fun h x => fisfin h = true /\ Rabs (fval h - x) <= bpow radix2 (-49) * M + bpow radix2 (-1073)) hits xs.
Proof. exact hline_polygon_near. Qed.
Print Assumptions C92_same_edges_as_exact.
(** A position inside the polygon by more than that error is strictly between the first two
    computed crossings, unless the line passes through a vertex. *)
Theorem C92_deep_inside_is_blocked : forall (x y : f64) (P : list (f64 * f64)) (M : R),
  P <> [] -> moderate y -> moderate_poly P -> reach P M -> between_vertices P (fval y) -> deep_inside P M (fval x) (fval y) ->
  exists h0 h1 rest, hline_polygon F64 y P = Ok (h0 :: h1 :: rest) /\ strictly_between (fval h0) (fval h1) (fval x).
Proof.
  intros x y P M Ne My MP Rc BV [D1 D2]. destruct (deep_blocked x y P M Ne My MP Rc BV D1 D2) as (h0 & h1 & (rest & H & _) & B).
  exists h0, h1, rest. split; [exact H|]. unfold strictly_between. revert B. generalize (fval h0) (fval h1) (fval x). intros u v w B.
  unfold Rmin, Rmax in B. destruct (Rle_dec u v); [left|right]; lra.
Qed.
Print Assumptions C92_deep_inside_is_blocked.
Example C92_hyp : box (-3) 3 (-4) 4 <> [] /\ moderate (fofZ 0) /\ moderate_poly (box (-3) 3 (-4) 4) /\ reach (box (-3) 3 (-4) 4) 3 /\
  between_vertices (box (-3) 3 (-4) 4) (fval (fofZ 0)) /\ deep_inside (box (-3) 3 (-4) 4) 3 (fval (fofZ 0)) (fval (fofZ 0)).
Proof.
  destruct box3_deep as (D & BV & Rc). rewrite fofZ_val by lia. split; [discriminate|]. split.
  { split; [apply fofZ_fin; lia|]. rewrite fofZ_val by lia. rewrite Rabs_R0. apply bpow_ge_0. }
  split; [exact (E1_polygons _ (or_intror (or_introl eq_refl)))|]. split; [exact Rc|]. split; [exact BV|exact D].
Qed.

(** C93: after any planning calls no vertex of the roadmap is inside an obstacle's boundary polygon
    by more than the error of the crossings - a statement about the boundary polygons only. *)
Theorem C93_vertices_outside_obstacles : forall (E : env) robot fsr nx ny s0 s l0 l1 l2 l3,
  conforming (e_sort E) -> e_limits E = [l0; l1; l2; l3] -> (2 <= ny)%nat -> (Z.of_nat ny <= 2 ^ 53)%Z ->
  limit_ok l0 -> limit_ok l1 -> limit_ok l2 -> limit_ok l3 -> fval l2 <= fval l3 ->
  let B := e_mink E fsr in
  (forall P, In P (barena B) \/ In P (bobstacle B) -> moderate_poly P) ->
  construct E robot fsr nx ny (length (barena B)) (length (bobstacle B)) = Ok s0 -> planned E s0 s ->
  forall v, In v (gvert (p_graph s)) -> exists x y h, v = [x; y; h] /\ In y (sweep_heights ny l2 l3) /\
    forall P M, In P (bobstacle B) -> P <> [] -> reach P M -> between_vertices P (fval y) -> ~ deep_inside P M (fval x) (fval y).
Proof. exact planar_deep. Qed.
Print Assumptions C93_vertices_outside_obstacles.
(** The waypoints of a returned path, other than the start and the goal. *)
Theorem C93_waypoints_outside_obstacles : forall (E : env) robot fsr nx ny s0 s rounds s' path ipath l0 l1 l2 l3,
  conforming (e_sort E) -> e_limits E = [l0; l1; l2; l3] -> (2 <= ny)%nat -> (Z.of_nat ny <= 2 ^ 53)%Z ->
  limit_ok l0 -> limit_ok l1 -> limit_ok l2 -> limit_ok l3 -> fval l2 <= fval l3 ->
  let B := e_mink E fsr in
  (forall P, In P (barena B) \/ In P (bobstacle B) -> moderate_poly P) ->
  construct E robot fsr nx ny (length (barena B)) (length (bobstacle B)) = Ok s0 -> planned E s0 s ->
  plan E (connect_multi E) rounds s = Ok (s', Some (path, ipath)) ->
  exists a z way, path = a :: way ++ [z] /\
    forall v, In v way -> exists x y h, v = [x; y; h] /\
      forall P M, In P (bobstacle B) -> P <> [] -> reach P M -> between_vertices P (fval y) -> ~ deep_inside P M (fval x) (fval y).
Proof.
  intros E robot fsr nx ny s0 s rounds s' path ipath l0 l1 l2 l3 Hs Lm N1 N2 K0 K1 K2 K3 L23 B MP C P Pl.
  pose proof (planar_deep E robot fsr nx ny s0 s' l0 l1 l2 l3 Hs Lm N1 N2 K0 K1 K2 K3 L23 MP C (planned_plan _ _ _ _ _ _ P Pl)) as CL.
  apply plan_result in Pl. destruct Pl as [[_ Q]|(_ & p & Q & Sp)]; [discriminate Q|]. injection Q as -> ->.
  apply solution_path_spec in Sp. destruct Sp as (v0 & ms & _ & -> & F). eexists _, _, ms. split; [reflexivity|].
  intros v Hv. assert (Iv : In v (gvert (p_graph s'))).
  { clear - F Hv. induction F as [|i w is ws Hw F IH]; [destruct Hv|]. destruct Hv as [->|Hv]; [exact (nth_error_In _ _ Hw)|exact (IH Hv)]. }
  destruct (CL v Iv) as (x & y & h & -> & _ & G). exists x, y, h. split; [reflexivity|exact G].
Qed.
Print Assumptions C93_waypoints_outside_obstacles.
(** Without [between_vertices]: the sweep line of height 0 passes through two vertices of the
    diamond; its middle is taken as free, both legs pass through vertices unreported, and the
    returned path goes through the middle of the obstacle. *)
Theorem C93_vertex_heights_refuted : exists (E : env) r s0 s path P x y h,
  construct E r r 1 5 (length (barena (e_mink E r))) (length (bobstacle (e_mink E r))) = Ok s0 /\
  plan E (connect_multi E) [] s0 = Ok (s, Some (path, path)) /\ length path = 7%nat /\
  (forall r', bobstacle (e_mink E r') = [P]) /\ nth_error path 3 = Some [x; y; h] /\
  forall d, Rabs d <= 15 -> strictly_inside (real_poly P) (fval x + d, fval y).
Proof. exact vertex_line. Qed.
Print Assumptions C93_vertex_heights_refuted.
Example C93_hyp : exists l0 l1 l2 l3 s0 s path,
  conforming (e_sort E1) /\ e_limits E1 = [l0; l1; l2; l3] /\ limit_ok l0 /\ limit_ok l1 /\ limit_ok l2 /\ limit_ok l3 /\ fval l2 <= fval l3 /\
  (forall P, In P (barena (e_mink E1 origin)) \/ In P (bobstacle (e_mink E1 origin)) -> moderate_poly P) /\
  construct E1 origin origin 1 4 (length (barena (e_mink E1 origin))) (length (bobstacle (e_mink E1 origin))) = Ok s0 /\
  plan E1 (connect_multi E1) [] s0 = Ok (s, Some (path, path)) /\ planned E1 s0 s /\ length (gvert (p_graph s)) = 30%nat /\
  In (box (-3) 3 (-4) 4) (bobstacle (e_mink E1 origin)) /\ deep_inside (box (-3) 3 (-4) 4) 3 0 0.
Proof.
  destruct E1_run as (s0 & s & path & C & P & _ & L & _ & V & _).
  exists (fofZ (-10)), (fofZ 10), (fofZ (-10)), (fofZ 10), s0, s, path.
  pose proof (limit_10 (-10) eq_refl) as La. pose proof (limit_10 10 eq_refl) as Lb.
  split; [exact isort_conforming|]. split; [reflexivity|]. split; [exact La|]. split; [exact Lb|]. split; [exact La|]. split; [exact Lb|].
  split; [rewrite !fofZ_val by lia; lra|]. split; [exact E1_polygons|]. split; [exact C|]. split; [exact P|].
  split; [exact (planned_plan _ _ _ _ _ _ (planned_0 _ _) P)|]. split; [exact V|]. split; [left; reflexivity|exact (proj1 box3_deep)].
Qed.
