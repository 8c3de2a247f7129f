(** C28-C32, C36, C51: graph search, path extraction and neighbour queries
    (include/hrm/planners/HighwayRoadMap-inl.h, src/planners/HRM2D.cpp). *)
From Coq Require Import List Bool Reals Lra Lia ZArith Arith.
From Verif.Base Require Import Outcome Float64 FloatFacts.
From Verif.Model Require Import MScalar MDistance MInterval MFreeSpace MLine2D MGraph MSearch MHRM2D MAStar.
From Verif.Spec Require Import SFreeSpace SGraph SSearch SPlanner2D.
From Verif.Proofs Require Import PTables PGraph PHRM2D PPlan2D PPlan2DY PPlan2DZ PSearch PNearest PAStarF PHRM2DW.
Import ListNotations.

Lemma fresh E robot fsr nx ny nA nO (s : state E) : construct E robot fsr nx ny nA nO = Ok s ->
  all_inv E s /\ s_path (p_sol s) = [] /\ s_solved (p_sol s) = false.
Proof.
  intros H. pose proof (construct_inv2 E _ _ _ _ _ _ _ H) as (I & Hh & L & _).
  split; [split; [exact I|]; split; [auto|]; exists 0; exact L|].
  unfold construct in H. ob H l0 L0. ob H l1 L1. injection H as <-. auto.
Qed.

(** C28: a path returned by the first planning call is a walk of the roadmap from a
    neighbour of the start to a neighbour of the goal. *)
Theorem C28_path_is_a_roadmap_walk : forall (E : env) robot fsr nx ny nA nO rounds (s0 s : state E) path ipath,
  construct E robot fsr nx ny nA nO = Ok s0 ->
  plan E (connect_multi E) rounds s0 = Ok (s, Some (path, ipath)) ->
  tame (p_graph s) -> astar_is_boost (p_graph s) (e_astar E) ->
  exists ss ts a b ids poses v0,
    nearest_neighbors E s (e_start E) (e_numNeighbor E) (e_radius E) = Ok ss /\
    nearest_neighbors E s (e_goal E) (e_numNeighbor E) (e_radius E) = Ok ts /\
    In a ss /\ In b ts /\ ids = s_path (p_sol s) /\ walk_between (p_graph s) b a ids /\
    length ids <= length (gvert (p_graph s)) /\
    Forall2 (fun i v => nth_error (gvert (p_graph s)) i = Some v) ids poses /\
    nth_error (gvert (p_graph s)) 0 = Some v0 /\
    path = resize_pose (e_start E) (length v0) :: poses ++ [resize_pose (e_goal E) (length v0)].
Proof.
  intros E robot fsr nx ny nA nO rounds s0 s path ipath H0 H T B.
  assert (W : well_formed (p_graph s)).
  { assert (R : reachable E s) by (eapply reach_plan; [eapply reach_new; exact H0|exact H]).
    apply reachable_inv in R. destruct R as (r0 & [W _ _ _]). exact W. }
  destruct (fresh _ _ _ _ _ _ _ _ H0) as (I & P0 & S0).
  destruct (plan_search E _ (connect_multi_grew E) _ _ _ _ I P0 S0 H (boost_astar_sound _ _ W T B)) as
    (ss & ts & N1 & N2 & [[Q _]|(p & a & b & Q & Ha & Hb & [Wk Le] & Sp & _)]); [discriminate Q|].
  injection Q as -> ->. apply solution_path_spec in Sp. destruct Sp as (v0 & ms & V0 & -> & F).
  exists ss, ts, a, b, (s_path (p_sol s)), ms, v0. auto 15.
Qed.
Print Assumptions C28_path_is_a_roadmap_walk.

(** When the first planning call reports no path, no start neighbour is connected
    with a goal neighbour in the roadmap. *)
Theorem C28_unsolved_means_disconnected : forall (E : env) robot fsr nx ny nA nO rounds (s0 s : state E),
  construct E robot fsr nx ny nA nO = Ok s0 ->
  plan E (connect_multi E) rounds s0 = Ok (s, None) ->
  tame (p_graph s) -> astar_is_boost (p_graph s) (e_astar E) ->
  exists ss ts, nearest_neighbors E s (e_start E) (e_numNeighbor E) (e_radius E) = Ok ss /\
    nearest_neighbors E s (e_goal E) (e_numNeighbor E) (e_radius E) = Ok ts /\
    forall a b, In a ss -> In b ts -> ~ connected (p_graph s) a b.
Proof.
  intros E robot fsr nx ny nA nO rounds s0 s H0 H T B.
  assert (W : well_formed (p_graph s)).
  { assert (R : reachable E s) by (eapply reach_plan; [eapply reach_new; exact H0|exact H]).
    apply reachable_inv in R. destruct R as (r0 & [W _ _ _]). exact W. }
  destruct (fresh _ _ _ _ _ _ _ _ H0) as (I & P0 & S0).
  destruct (plan_search E _ (connect_multi_grew E) _ _ _ _ I P0 S0 H (boost_astar_sound _ _ W T B)) as
    (ss & ts & N1 & N2 & [[_ Q]|(p & a & b & Q & _)]); [|discriminate Q].
  exists ss, ts. split; [exact N1|]. split; [exact N2|]. intros a b Ha Hb.
  destruct (nearest_neighbors_spec E _ _ _ _ _ N1) as (a1 & _ & _ & _ & B1).
  destruct (nearest_neighbors_spec E _ _ _ _ _ N2) as (a2 & _ & _ & _ & B2).
  apply (boost_astar_complete _ _ W T B); [apply B1; exact Ha|apply B2; exact Hb|apply Q; auto].
Qed.
Print Assumptions C28_unsolved_means_disconnected.

Example C28_hyp : exists s0 s path, construct E3 origin origin 1 4 1 1 = Ok s0 /\
  plan E3 (connect_multi E3) [] s0 = Ok (s, Some (path, path)) /\ length path = 7 /\
  tame (p_graph s) /\ astar_is_boost (p_graph s) (e_astar E3).
Proof. destruct E3_run as (s0 & s & p & H0 & H & L & _ & _ & _ & _ & T & B). exists s0, s, p. auto. Qed.
Example C28_hyp_unsolved : exists s0 s, construct E5 origin origin 1 4 1 1 = Ok s0 /\
  plan E5 (connect_multi E5) [] s0 = Ok (s, None) /\ tame (p_graph s) /\ astar_is_boost (p_graph s) (e_astar E5).
Proof. destruct E5_run as (s0 & s & H0 & H & T & B & _). exists s0, s. auto. Qed.

(** The search on its own, for every graph, start and goal candidates. *)
Theorem C28_search : forall g astar ss ts r r', well_formed g -> tame g -> astar_is_boost g astar ->
  (forall x, In x ss \/ In x ts -> x < length (gvert g)) -> s_path r = [] -> search astar g ss ts r = Ok r' ->
  (r' = r /\ forall a b, In a ss -> In b ts -> ~ connected g a b) \/
  (s_solved r' = true /\ exists a b, In a ss /\ In b ts /\ walk_between g b a (s_path r')).
Proof.
  intros g astar ss ts r r' W T B Hb Hr H.
  apply search_spec in H; auto; [|apply boost_astar_sound; auto].
  destruct H as [[-> Q]|(a & b & Ha & Hb' & S & [Wk _] & _)].
  - left. split; [auto|]. intros a b Ha Hb'. apply (boost_astar_complete g astar W T B); auto.
  - right. split; [exact S|]. exists a, b. auto.
Qed.
Print Assumptions C28_search.

(** C29: the cost sums the weights stored at the positions given by the vertex
    numbers of the path (goal first, start excluded). *)
Theorem C29_reported_cost : forall g astar ss ts r r', well_formed g -> tame g -> astar_is_boost g astar ->
  (forall x, In x ss \/ In x ts -> x < length (gvert g)) -> s_path r = [] -> s_solved r = false ->
  search astar g ss ts r = Ok r' -> s_solved r' = true ->
  id_cost (gweight g) (fofZ 0) (rev (s_path r')) = Ok (s_cost r').
Proof.
  intros g astar ss ts r r' W T B Hb Hr Hs H S.
  apply search_spec in H; auto; [|apply boost_astar_sound; auto].
  destruct H as [[-> _]|(a & b & _ & _ & _ & _ & Q)]; [congruence|exact Q].
Qed.
Print Assumptions C29_reported_cost.

(** The search is undefined exactly when some path to be reported has a vertex
    (other than its start) whose number is not an edge number. *)
Theorem C29_defined_or_out_of_range : forall g astar ss ts r, well_formed g -> tame g -> astar_is_boost g astar ->
  (forall x, In x ss \/ In x ts -> x < length (gvert g)) -> s_path r = [] ->
  (exists r', search astar g ss ts r = Ok r') \/
  (search astar g ss ts r = UB /\ exists a b l x, In a ss /\ In b ts /\ walk_between g b a l /\
     In x (tl l) /\ length (gedge g) <= x).
Proof.
  intros g astar ss ts r W T B Hb Hr.
  destruct (search_total astar g ss ts r (boost_astar_sound _ _ W T B) Hb Hr (proj1 W)) as [H|(H & a & b & p & l & x & Ha & Hb' & _ & C & Hx & L)];
    [left; exact H|].
  right. split; [exact H|]. exists a, b, (rev l), x. split; [exact Ha|]. split; [exact Hb'|]. split; [eapply chain_walk; exact C|].
  split; [|exact L]. destruct (pred_chain_last _ _ _ _ _ C) as (q & ->). rewrite rev_app_distr. cbn [rev app tl].
  rewrite removelast_last in Hx. apply in_rev in Hx. exact Hx.
Qed.
Print Assumptions C29_defined_or_out_of_range.

Lemma E3_cost : (match run E3 origin 4 1 [] with
  | Ok (s, _) => match path_length (p_graph s) (fofZ 0) (rev (s_path (p_sol s))) with
                 | Some d => fltb fone (fsub (s_cost (p_sol s)) d) | None => false end
  | _ => false end) = true.
Proof. vm_compute. reflexivity. Qed.
(** In the wall scene the reported cost exceeds the length of the reported path,
    by more than one unit. *)
Theorem C29_cost_is_path_length_refuted :
  exists s0 s path d, construct E3 origin origin 1 4 1 1 = Ok s0 /\
    plan E3 (connect_multi E3) [] s0 = Ok (s, Some (path, path)) /\
    path_length (p_graph s) (fofZ 0) (rev (s_path (p_sol s))) = Some d /\
    fltb fone (fsub (s_cost (p_sol s)) d) = true.
Proof.
  destruct E3_run as (s0 & s & p & H0 & H & _). pose proof E3_cost as K. unfold run in K. rewrite H0 in K. cbn [obind] in K. rewrite H in K.
  destruct (path_length (p_graph s) (fofZ 0) (rev (s_path (p_sol s)))) as [d|] eqn:Q; [|discriminate K].
  exists s0, s, p, d. auto.
Qed.
Print Assumptions C29_cost_is_path_length_refuted.

(** In the open scene with blocked slice changes the planning call itself is undefined. *)
Theorem C29_undefined_plan : exists s0, construct E2 origin origin 1 2 1 0 = Ok s0 /\
  plan E2 (connect_multi E2) [] s0 = UB /\
  exists s1, build_roadmap E2 (connect_multi E2) s0 = Ok s1 /\ tame (p_graph s1) /\ astar_is_boost (p_graph s1) (e_astar E2).
Proof.
  pose proof E2_UB as U. pose proof E2_ok as K. unfold run in U.
  destruct (construct E2 origin origin 1 2 1 0) as [s0|e|]; [|discriminate K..]. cbn [obind] in *.
  exists s0. split; [reflexivity|]. split; [exact U|].
  destruct (build_roadmap E2 (connect_multi E2) s0) as [s1|e|]; cbn [ok_search] in K; [|discriminate K..].
  apply andb_prop in K. destruct K as [K1 K2]. exists s1. split; [reflexivity|]. split; [apply tame_b_ok; exact K1|].
  change (e_astar E2) with demo_astar. apply boost_b_ok; exact K2.
Qed.
Print Assumptions C29_undefined_plan.

(** C30: the poses of the path. *)
Theorem C30_solution_path : forall g start goal ids path, solution_path g start goal ids = Ok path ->
  length path = length ids + 2 /\
  exists v0 poses, nth_error (gvert g) 0 = Some v0 /\
    path = resize_pose start (length v0) :: poses ++ [resize_pose goal (length v0)] /\
    Forall2 (fun i v => nth_error (gvert g) i = Some v) ids poses /\
    (length start = length v0 -> hd_error path = Some start) /\
    (length goal = length v0 -> last path start = goal).
Proof.
  intros g start goal ids path H. apply solution_path_spec in H. destruct H as (v0 & ms & V & -> & F). split.
  - cbn [length]. rewrite app_length. cbn [length]. replace (length ms) with (length ids); [lia|]. clear - F. induction F; cbn [length]; auto.
  - exists v0, ms. split; [exact V|]. split; [reflexivity|]. split; [exact F|]. split; intros L.
    + cbn [hd_error]. unfold resize_pose. rewrite resize_same; auto.
    + unfold resize_pose. rewrite (resize_same goal); auto.
      change (resize start (length v0) fzero :: ms ++ [goal]) with ((resize start (length v0) fzero :: ms) ++ [goal]). apply last_last.
Qed.
Print Assumptions C30_solution_path.

Theorem C30_returned_path : forall (E : env) rounds (s s' : state E) path ipath,
  plan E (connect_multi E) rounds s = Ok (s', Some (path, ipath)) ->
  solution_path (p_graph s') (e_start E) (e_goal E) (s_path (p_sol s')) = Ok path.
Proof.
  intros E rounds s s' path ipath H. apply plan_result in H. destruct H as [[_ Q]|(_ & p & Q & S)]; [discriminate Q|].
  injection Q as -> ->. exact S.
Qed.
Print Assumptions C30_returned_path.

Example C30_hyp : exists s0 s path, construct E1 origin origin 1 4 1 1 = Ok s0 /\
  plan E1 (connect_multi E1) [] s0 = Ok (s, Some (path, path)) /\ length path = 6 /\ s_path (p_sol s) = [11; 13; 15; 17].
Proof. destruct E1_run as (s0 & s & p & H0 & H & _ & L & I & _). exists s0, s, p. auto. Qed.

(** C36 (planar planners): the interpolated path of a planning call is the solved path. *)
Theorem C36_planar_path_not_interpolated : forall (E : env) connect rounds (s s' : state E) path ipath,
  plan E connect rounds s = Ok (s', Some (path, ipath)) -> ipath = path.
Proof.
  intros E connect rounds s s' path ipath H. apply plan_result in H. destruct H as [[_ Q]|(_ & p & Q & S)]; [discriminate Q|].
  injection Q as -> ->. reflexivity.
Qed.
Print Assumptions C36_planar_path_not_interpolated.

(** C31: the neighbour query. *)
Theorem C31_neighbours_bounded : forall (E : env) (s : state E) q k radius l, nearest_neighbors E s q k radius = Ok l ->
  length l <= Nat.max 1 k /\ length l <= length (p_headings s) /\
  forall i, In i l -> i < length (gvert (p_graph s)) /\
    exists v y q1 l0 l1, nth_error (gvert (p_graph s)) i = Some v /\ nth_error v 1 = Some y /\ nth_error q 1 = Some q1 /\
      nth_error (e_limits E) 0 = Some l0 /\ nth_error (e_limits E) 1 = Some l1 /\
      fltb (fabs (fsub q1 y)) (fdiv (fmul radius (fsub l1 l0)) (fofnat (p_numLineY s))) = true.
Proof.
  intros E s q k radius l H. apply nearest_neighbors_spec in H. destruct H as (a & _ & L1 & L2 & B).
  split; [exact L1|]. split; [exact L2|]. intros i Hi. destruct (B i Hi) as (A & W & _). split; [exact A|exact W].
Qed.
Print Assumptions C31_neighbours_bounded.

(** Exactly which vertices are returned: a is the vertex heading closest to the query's; for the
    first k slice headings within the radius of a, the vertex chosen for the slice (C32), if its
    height is within the window. *)
Theorem C31_neighbours_exact : forall (E : env) (s : state E) q k radius l, nearest_neighbors E s q k radius = Ok l -> 1 <= k ->
  exists a q2 picks, nth_error q 2 = Some q2 /\ closest_heading (gvert (p_graph s)) q2 a /\
    Forall2 (fun h i => nearest_in_slice (gvert (p_graph s)) q h = Ok i)
      (firstn k (filter (fun h => fltb (fabs (fsub a h)) radius) (p_headings s))) picks /\
    kept (in_window E s q radius) picks l.
Proof. exact nearest_neighbors_exact. Qed.
Print Assumptions C31_neighbours_exact.

Theorem C31_defined_on_nonempty : forall (E : env) (s : state E) q k radius, reachable E s ->
  gvert (p_graph s) <> [] -> length q = 3 -> exists l, nearest_neighbors E s q k radius = Ok l.
Proof.
  intros E s q k radius R N Q. apply nearest_neighbors_total; auto.
  - pose proof (reachable_inv2 E s R) as (I & _). apply Forall_forall. intros v Hv. apply In_nth_error in Hv. destruct Hv as (a & Ha).
    pose proof (j_ranges E s I) as Rg.
    assert (G : forall n l m, ranges n l m -> n <= a < m -> exists k w, nth_error l k = Some w /\ vstart w <= a < vslice w).
    { clear. intros n l m R. induction R as [n|n w l m Hw Hl R IH]; intros Ha; [lia|].
      destruct (Nat.lt_ge_cases a (vslice w)) as [Q|Q]; [exists 0, w; split; [reflexivity|lia]|].
      destruct IH as (k & w' & Hk & Hb); [lia|]. exists (S k), w'. auto. }
    destruct (G _ _ _ Rg) as (j & w & Hj & Hb); [split; [apply Nat.le_0_l|apply nth_error_lt in Ha; exact Ha]|].
    destruct (j_slice E s I j w a Hj Hb) as (p & Hp & (r & x & y & l2 & l3 & -> & _)). pose proof (eq_trans (eq_sym Ha) Hp) as Hq. injection Hq as ->. reflexivity.
  - pose proof (reachable_inv2 E s R) as (I & _). clear - R. induction R as [robot fsr nx ny nA nO s H| |]; auto.
    unfold construct in H. ob H l0 L0. ob H l1 L1. unfold lim, idx in L1. destruct (nth_error (e_limits E) 1) eqn:Z; [|discriminate L1].
    apply nth_error_lt in Z. lia.
Qed.
Print Assumptions C31_defined_on_nonempty.

Theorem C31_empty_roadmap_undefined : forall (E : env) (s : state E) q k radius, gvert (p_graph s) = [] ->
  nearest_neighbors E s q k radius = UB.
Proof. exact nearest_neighbors_empty. Qed.
Print Assumptions C31_empty_roadmap_undefined.

Example C31_hyp : exists s, reachable E1 s /\ gvert (p_graph s) <> [] /\ length (e_start E1) = 3.
Proof.
  destruct E1_run as (s0 & s & p & _ & _ & R & _ & _ & V & _). exists s. split; [exact R|]. split; [|reflexivity].
  intros Q. rewrite Q in V. discriminate V.
Qed.

(** C32: the vertex chosen for a heading [ang]: vertex 0 unless a vertex of that
    heading is strictly closer, and then the first closest vertex of that heading. *)
Theorem C32_nearest_in_slice : forall vs q ang i, nearest_in_slice vs q ang = Ok i ->
  exists d0, dist_to vs q 0 d0 /\ i < length vs /\
  ((i = 0 /\ forall j d, in_slice vs ang j -> dist_to vs q j d -> fltb d d0 = false) \/
   (exists di, in_slice vs ang i /\ dist_to vs q i di /\ fltb di d0 = true /\
      (forall j d, in_slice vs ang j -> dist_to vs q j d -> fltb d di = false) /\
      (forall j d, j < i -> in_slice vs ang j -> dist_to vs q j d -> fltb d d0 = true -> fltb di d = true))).
Proof. exact nearest_in_slice_spec. Qed.
Print Assumptions C32_nearest_in_slice.

Definition two_headings : list pose := [zpose 0 0 0; zpose 5 0 1].
Theorem C32_belongs_to_slice_refuted :
  ~ (forall vs q ang i, nearest_in_slice vs q ang = Ok i -> (exists j, in_slice vs ang j) -> in_slice vs ang i).
Proof.
  intros H. assert (A : nearest_in_slice two_headings (zpose 0 0 1) (fofZ 1) = Ok 0) by (vm_compute; reflexivity).
  assert (B : in_slice two_headings (fofZ 1) 1).
  { exists (zpose 5 0 1), (fofZ 1). split; [reflexivity|]. split; [reflexivity|]. vm_compute; reflexivity. }
  destruct (H _ _ _ _ A (ex_intro _ _ B)) as (v & c & V & C & L).
  assert (V' : Some (zpose 0 0 0) = Some v) by exact V. assert (v = zpose 0 0 0) as -> by congruence.
  assert (C' : Some (fofZ 0) = Some c) by exact C. assert (c = fofZ 0) as -> by congruence.
  assert (Z : fltb (fabs (fsub (fofZ 0) (fofZ 1))) cEPS = false) by (vm_compute; reflexivity). congruence.
Qed.
Print Assumptions C32_belongs_to_slice_refuted.

Lemma near_1 : nearest_in_slice [zpose 9 0 0; zpose 5 0 1; zpose 2 0 1] (zpose 0 0 1) (fofZ 1) = Ok 2.
Proof. vm_compute. reflexivity. Qed.
Example C32_hyp : exists vs q ang i, nearest_in_slice vs q ang = Ok i /\ i = 2.
Proof. exists [zpose 9 0 0; zpose 5 0 1; zpose 2 0 1], (zpose 0 0 1), (fofZ 1), 2. split; [exact near_1|reflexivity]. Qed.

(** C51: boost's A* on a roadmap terminates, reports a goal only with a predecessor
    chain along roadmap edges back to the start, and reports failure only when the
    goal is not connected with the start. *)
Theorem C51_astar_terminates : forall g, well_formed g -> tame g -> forall top, heap_ok fltb top ->
  forall s t, s < length (gvert g) -> exists fuel r, boost_astar top fuel g s t = Some r.
Proof. intros g W T top H s t Hs. apply boost_terminates; auto. intros c q N. apply H; auto. Qed.
Print Assumptions C51_astar_terminates.

Theorem C51_astar_sound : forall g, well_formed g -> tame g -> forall top, heap_ok fltb top ->
  forall s t fuel p, s < length (gvert g) -> boost_astar top fuel g s t = Some (Some p) ->
  length p = length (gvert g) /\ exists l, pred_chain g p s t l /\ length l <= length (gvert g).
Proof. intros g W T top H s t fuel p Hs Q. eapply boost_sound; eauto. intros c q N. apply H; auto. Qed.
Print Assumptions C51_astar_sound.

Theorem C51_astar_complete : forall g, well_formed g -> tame g -> forall top, heap_ok fltb top ->
  forall s t fuel, boost_astar top fuel g s t = Some None -> ~ connected g s t.
Proof. intros g W T top H s t fuel Q. eapply (boost_complete g W top); eauto. intros c q N. apply H; auto. Qed.
Print Assumptions C51_astar_complete.

Example C51_hyp : exists s, well_formed (p_graph s) /\ tame (p_graph s) /\ heap_ok fltb first_top /\ @length pose (gvert (@p_graph E3 s)) = 12.
Proof.
  destruct E3_run as (s0 & s & p & H0 & H & _ & _ & V & _ & _ & T & _). exists s.
  assert (R : reachable E3 s) by (eapply reach_plan; [eapply reach_new; exact H0|exact H]).
  apply reachable_inv in R. destruct R as (r0 & [W _ _ _]). split; [exact W|]. split; [exact T|]. split; [exact first_top_ok|exact V].
Qed.
