(** C84: the path found by the graph search is a shortest one between its ends, up to rounding
    (include/hrm/planners/HighwayRoadMap-inl.h:109-175). *)
From Coq Require Import List Bool Reals Lra Lia ZArith Arith.
From Verif.Base Require Import Outcome Float64 FloatFacts.
From Verif.Model Require Import MScalar MDistance MInterval MFreeSpace MLine2D MLine3D MGraph MSearch MHRM2D MHRM3D MAStar.
From Verif.Spec Require Import SFreeSpace SGraph SSearch SPlanner2D SPlanner3D SShort.
From Verif.Proofs Require Import PGraph PHRM2D PPlan2DY PPlan2DZ PPlan3D PSearch PAStarF PHRM2DW PHRM3DW PShort PShortP.
Import ListNotations.

(** boost's A* with the code's heuristic: the predecessor chain from the goal is at most
    (1 + n (m + 4) / 2^46) times as long as any walk of the roadmap. *)
Theorem C84_astar_nearly_shortest : forall g m top s t fuel p, well_formed g -> tame g -> dimension g m -> m <= 1000 ->
  (Z.of_nat (length (gvert g)) * (Z.of_nat m + 4) <= 2 ^ 44)%Z -> heap_ok fltb top -> s < length (gvert g) -> t < length (gvert g) ->
  boost_astar top fuel g s t = Some (Some p) ->
  exists l, pred_chain g p s t l /\ forall l', walk_between g t s l' -> (walk_length g l <= (1 + excess g m) * walk_length g l' + speck g)%R.
Proof. intros g m top s t fuel p W T D Hm Hn H Hs Ht Q. exact (near_shortest g m top s t fuel p W T D Hm (small_graph g m Hn) H Hs Ht Q). Qed.
Print Assumptions C84_astar_nearly_shortest.

(** The search over start and goal neighbours. *)
Theorem C84_search_nearly_shortest : forall astar g m ss ts r r', well_formed g -> tame g -> dimension g m -> m <= 1000 ->
  (Z.of_nat (length (gvert g)) * (Z.of_nat m + 4) <= 2 ^ 44)%Z -> astar_is_boost g astar ->
  (forall x, In x ss \/ In x ts -> x < length (gvert g)) -> s_path r = [] -> s_solved r = false ->
  search astar g ss ts r = Ok r' -> s_solved r' = true ->
  exists a b, In a ss /\ In b ts /\ nearly_shortest g m a b (s_path r').
Proof. intros astar g m ss ts r r' W T D Hm Hn B. apply search_near; auto. apply is_runs; exact B. Qed.
Print Assumptions C84_search_nearly_shortest.

(** The first planning call of each planner. *)
Theorem C84_planar_path_nearly_shortest : forall (E : env) robot fsr nx ny nA nO rounds (s0 s : state E) path ipath,
  construct E robot fsr nx ny nA nO = Ok s0 -> plan E (connect_multi E) rounds s0 = Ok (s, Some (path, ipath)) ->
  tame (p_graph s) -> astar_is_boost (p_graph s) (e_astar E) -> (Z.of_nat (length (gvert (p_graph s))) <= 2 ^ 41)%Z ->
  exists ss ts a b, nearest_neighbors E s (e_start E) (e_numNeighbor E) (e_radius E) = Ok ss /\
    nearest_neighbors E s (e_goal E) (e_numNeighbor E) (e_radius E) = Ok ts /\
    In a ss /\ In b ts /\ nearly_shortest (p_graph s) 3 a b (s_path (p_sol s)).
Proof.
  intros E robot fsr nx ny nA nO rounds s0 s path ipath H0 H T B Hn.
  assert (R : reachable E s) by (eapply reach_plan; [eapply reach_new; exact H0|exact H]).
  pose proof (planar_dim E s R) as D. apply reachable_inv in R. destruct R as (r0 & [W _ _ _]).
  eapply planar_near; eauto. apply connect_multi_grew.
Qed.
Print Assumptions C84_planar_path_nearly_shortest.

Theorem C84_spatial_path_nearly_shortest : forall (E : env3) robot nS nx ny nA nO rq rounds (s0 s : state3 E) path ipath, m_prob E = false ->
  construct3 E robot nS nx ny nA nO = Ok s0 -> plan3 E rq rounds s0 = Ok (s, Some (path, ipath)) ->
  tame (q_graph s) -> astar_is_boost (q_graph s) (m_astar E) -> (Z.of_nat (length (gvert (q_graph s))) <= 2 ^ 40)%Z ->
  exists ss ts a b, nearest_neighbors3 E s (m_start E) (m_numNeighbor E) (m_radius E) = Ok ss /\
    nearest_neighbors3 E s (m_goal E) (m_numNeighbor E) (m_radius E) = Ok ts /\
    In a ss /\ In b ts /\ nearly_shortest (q_graph s) 7 a b (s_path (q_sol s)).
Proof. exact spatial_near. Qed.
Print Assumptions C84_spatial_path_nearly_shortest.

Theorem C84_prob_path_nearly_shortest : forall (E : env3) robot nS nx ny nA nO d ds (s0 s : state3 E) path ipath, m_prob E = true ->
  construct3 E robot nS nx ny nA nO = Ok s0 -> plan_prob E d ds s0 = Ok (s, Some (path, ipath)) -> m_dof E <= 900 ->
  tame (q_graph s) -> astar_from_boost (m_astar E) -> (Z.of_nat (length (gvert (q_graph s))) <= 2 ^ 34)%Z ->
  exists ss ts a b, nearest_neighbors3 E s (m_start E) (m_numNeighbor E) (m_radius E) = Ok ss /\
    nearest_neighbors3 E s (m_goal E) (m_numNeighbor E) (m_radius E) = Ok ts /\
    In a ss /\ In b ts /\ nearly_shortest (q_graph s) (7 + m_dof E) a b (s_path (q_sol s)).
Proof. intros E robot nS nx ny nA nO d ds s0 s path ipath P. exact (prob_near E P robot nS nx ny nA nO d ds s0 s path ipath). Qed.
Print Assumptions C84_prob_path_nearly_shortest.

(** But not between the best neighbours: the search stops at the first pair that is connected.  In
    this scene one vertex is a neighbour of the start and of the goal, and the path reported is
    longer than two units. *)
Theorem C84_best_neighbours_refuted :
  exists s0 s path ss ts a l, construct E9 origin origin 1 2 1 0 = Ok s0 /\ plan E9 (connect_multi E9) [] s0 = Ok (s, Some (path, path)) /\
    tame (p_graph s) /\ astar_is_boost (p_graph s) (e_astar E9) /\
    nearest_neighbors E9 s (e_start E9) (e_numNeighbor E9) (e_radius E9) = Ok ss /\
    nearest_neighbors E9 s (e_goal E9) (e_numNeighbor E9) (e_radius E9) = Ok ts /\
    In a ss /\ In a ts /\ walk_between (p_graph s) a a l /\ walk_length (p_graph s) l = 0%R /\ (2 < walk_length (p_graph s) (s_path (p_sol s)))%R.
Proof.
  destruct E9_run as (s0 & s & path & ss & ts & H0 & H & T & B & N1 & N2 & I1 & I2 & Pa & L). exists s0, s, path, ss, ts, 8, [8].
  rewrite Pa. repeat (split; [assumption || constructor|]). exact L.
Qed.
Print Assumptions C84_best_neighbours_refuted.

Example C84_hyp : exists s0 s path, construct E3 origin origin 1 4 1 1 = Ok s0 /\ plan E3 (connect_multi E3) [] s0 = Ok (s, Some (path, path)) /\
  tame (p_graph s) /\ astar_is_boost (p_graph s) (e_astar E3) /\ (Z.of_nat (length (gvert (p_graph s))) <= 2 ^ 41)%Z /\
  well_formed (p_graph s) /\ dimension (p_graph s) 3 /\ s_path (p_sol s) = [4; 8; 9; 6; 7].
Proof.
  destruct E3_run as (s0 & s & p & H0 & H & _ & Pa & V & _ & _ & T & B). exists s0, s, p.
  assert (R : reachable E3 s) by (eapply reach_plan; [eapply reach_new; exact H0|exact H]).
  pose proof (planar_dim E3 s R) as D. apply reachable_inv in R. destruct R as (r0 & [W _ _ _]).
  split; [exact H0|]. split; [exact H|]. split; [exact T|]. split; [exact B|]. split; [rewrite V; lia|]. split; [exact W|]. split; [exact D|exact Pa].
Qed.
Example C84_hyp_spatial : exists s0 s path, m_prob D1 = false /\ construct3 D1 [] 2 2 2 1 1 = Ok s0 /\ plan3 D1 (fun _ => qa) [] s0 = Ok (s, Some (path, path)) /\
  tame (q_graph s) /\ astar_is_boost (q_graph s) (m_astar D1) /\ (Z.of_nat (length (gvert (q_graph s))) <= 2 ^ 40)%Z /\ s_path (q_sol s) = [0; 7; 10; 8].
Proof.
  destruct D1_run as (s0 & s & p & H0 & H & _ & _ & _ & Pa & V & _ & _ & T & B). exists s0, s, p.
  split; [reflexivity|]. split; [exact H0|]. split; [exact H|]. split; [exact T|]. split; [exact B|]. split; [rewrite V; lia|exact Pa].
Qed.
Lemma demo_boost : astar_from_boost demo_astar.
Proof.
  intros g s t p H. exists first_top, 100. split; [exact first_top_ok|]. revert H. unfold demo_astar.
  destruct (boost_astar first_top 100 g s t) as [r|]; intros H; [rewrite H; reflexivity|discriminate H].
Qed.
Example C84_hyp_prob : exists s0 s path ip, m_prob P1 = true /\ construct3 P1 [] 0 2 2 1 1 = Ok s0 /\ plan_prob P1 (dr qa) [dr qa; dr qb] s0 = Ok (s, Some (path, ip)) /\
  m_dof P1 <= 900 /\ tame (q_graph s) /\ astar_from_boost (m_astar P1) /\ (Z.of_nat (length (gvert (q_graph s))) <= 2 ^ 34)%Z.
Proof.
  destruct P1_run as (s0 & s & path & ip & H0 & H & _ & _ & _ & Pa & V & _ & _ & T & _). exists s0, s, path, ip.
  split; [reflexivity|]. split; [exact H0|]. split; [exact H|]. split; [apply Nat.leb_le; reflexivity|]. split; [exact T|]. split; [exact demo_boost|rewrite V; lia].
Qed.
