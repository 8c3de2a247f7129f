(** C18-C27, C33, C49, C50: the planar roadmap planners (src/planners/HRM2D.cpp,
    HRM2DKC.cpp, include/hrm/planners/HighwayRoadMap-inl.h). *)
From Coq Require Import List Bool Reals Lra Lia ZArith Arith.
From Flocq Require Import Core.
From Verif.Base Require Import Outcome Float64 FloatFacts.
From Verif.Model Require Import MScalar MDistance MInterval MFreeSpace MLine2D MGraph MSearch MHRM2D MAStar.
From Verif.Spec Require Import SFreeSpace SGraph SSearch SPlanner2D.
From Verif.Proofs Require Import PTables PGraph PHRM2D PPlan2D PPlan2DX PPlan2DY PPlan2DZ PSampling PNearest PHRM2DW PKC.
Import ListNotations.

(** C18: the roadmap of a planner that has been constructed and has planned any
    number of times is well formed; each step of a planning call keeps it so. *)
Theorem C18_roadmap_well_formed : forall (E : env) (s : state E), reachable E s -> well_formed (p_graph s).
Proof. intros E s H. apply reachable_inv in H. destruct H as (r0 & [W _ _ _]). exact W. Qed.
Print Assumptions C18_roadmap_well_formed.

Theorem C18_slice_keeps_well_formed : forall (E : env) i (s s' : state E), construct_slice E i s = Ok s' ->
  well_formed (p_graph s) -> well_formed (p_graph s').
Proof. intros E i s s' H W. apply construct_slice_step in H. destruct H as (_ & (_ & G & _) & _). auto. Qed.
Print Assumptions C18_slice_keeps_well_formed.

Theorem C18_linking_keeps_well_formed : forall (E : env) (s s' : state E),
  (connect_multi E s = Ok s' \/ exists i, In (p_slice s) (p_sliceAll s) /\ connect_exist E i s = Ok s') ->
  well_formed (p_graph s) -> well_formed (p_graph s').
Proof.
  intros E s s' [H|(i & Hi & H)] W; [apply connect_multi_grew in H|apply connect_exist_grew in H; auto];
    destruct H as (g & -> & (_ & G & _) & _); exact (G W).
Qed.
Print Assumptions C18_linking_keeps_well_formed.

Example C18_hyp : exists s, reachable E1 s /\ length (gvert (p_graph s)) = 30 /\ length (gedge (p_graph s)) = 78.
Proof. destruct E1_run as (s0 & s & path & _ & _ & R & _ & _ & V & Ed & _). exists s. auto. Qed.

(** C19: constructing a slice appends, line by line, the middle points of the free
    segments at the height of the line, with the heading of the slice; the line
    table points at the first vertex of each line. *)
Theorem C19_slice_vertices : forall (E : env) i (s s' : state E), construct_slice E i s = Ok s' ->
  exists h seg, nth_error (p_headings s) i = Some h /\ slice_segments E s s' seg /\
    let ang := e_angle E (e_move E (p_robot s) (fofZ 0) (fofZ 0) h) in
    let lines := map (fun p => map (fun x => [x; fst p; ang]) (snd p)) (combine (fty seg) (fxM seg)) in
    length (fty seg) <= length (fxM seg) /\
    gvert (p_graph s') = gvert (p_graph s) ++ concat lines /\
    vplane (p_nv s') = map (fun k => length (gvert (p_graph s)) + length (concat (firstn k lines))) (seq 0 (length (fty seg))) /\
    vstart (p_nv s') = length (gvert (p_graph s)).
Proof.
  intros E i s s' H. pose proof (slice_vertices E _ _ _ H) as (seg & plane & V & P & _ & _ & N & S & L).
  apply construct_slice_inv in H. destruct H as (h & _ & _ & _ & _ & Hh & Hr & _).
  exists h, seg. split; [exact Hh|]. split; [exact S|]. cbv zeta. split; [exact L|]. rewrite Hr in V, P. rewrite N. cbn [vplane vstart].
  split; [exact V|]. split; [exact P|]. reflexivity.
Qed.
Print Assumptions C19_slice_vertices.

(** Over any history, every vertex of recorded slice [k] lies on a sweep line and
    carries the heading of slice [k]. *)
Theorem C19_vertices_of_slices : forall (E : env) (s : state E), reachable E s ->
  forall k v a, nth_error (p_vidx s) k = Some v -> vstart v <= a < vslice v ->
    exists p, nth_error (gvert (p_graph s)) a = Some p /\ slice_vertex E s k p.
Proof. intros E s H. apply reachable_inv2 in H. destruct H as (I & _). exact (j_slice E s I). Qed.
Print Assumptions C19_vertices_of_slices.

(** C20: the recorded ranges partition the vertices; each planning call records
    numSlice of them. *)
Theorem C20_ranges_partition : forall (E : env) (s : state E), reachable E s ->
  ranges 0 (p_vidx s) (length (gvert (p_graph s))) /\ exists calls, length (p_vidx s) = calls * e_numSlice E.
Proof. intros E s H. apply reachable_inv2 in H. destruct H as (I & _ & m & L). split; [exact (j_ranges E s I)|eauto]. Qed.
Print Assumptions C20_ranges_partition.

(** so every vertex belongs to exactly one recorded slice. *)
Theorem C20_one_slice_each : forall (E : env) (s : state E), reachable E s ->
  forall a, a < length (gvert (p_graph s)) ->
    exists k v, nth_error (p_vidx s) k = Some v /\ vstart v <= a < vslice v /\
      forall k' v', nth_error (p_vidx s) k' = Some v' -> vstart v' <= a < vslice v' -> k' = k.
Proof.
  intros E s H. apply reachable_inv2 in H. destruct H as (I & _). pose proof (j_ranges E s I) as R. clear I. intros a Ha.
  assert (G : forall n l m, ranges n l m -> n <= a < m -> exists k v, nth_error l k = Some v /\ vstart v <= a < vslice v /\
     forall k' v', nth_error l k' = Some v' -> vstart v' <= a < vslice v' -> k' = k).
  { clear. intros n l m R. induction R as [n|n v l m Hv Hl R IH]; intros Ha; [lia|].
    assert (Lo : forall k' v', nth_error l k' = Some v' -> vslice v <= vstart v').
    { clear - R. revert R. generalize (vslice v). intros n R. induction R as [n|n w l m Hw Hl R IH]; intros [|k] v' Hk; cbn in Hk; try discriminate Hk.
      - injection Hk as <-. lia.
      - apply IH in Hk. lia. }
    destruct (Nat.lt_ge_cases a (vslice v)) as [Q|Q].
    - exists 0, v. split; [reflexivity|]. split; [lia|]. intros [|k'] v' Hk Hb; [reflexivity|]. apply Lo in Hk. lia.
    - destruct IH as (k & w & Hk & Hw & U); [lia|]. exists (S k), w. split; [exact Hk|]. split; [exact Hw|].
      intros [|k'] v' Hk' Hb; [cbn in Hk'; injection Hk' as <-; lia|]. f_equal. eapply U; eauto. }
  apply (G 0 _ _ R). lia.
Qed.
Print Assumptions C20_one_slice_each.

Example C20_hyp : exists s, reachable E1 s /\ length (p_vidx s) = 3 /\ 17 < length (gvert (p_graph s)).
Proof. destruct E1_run as (s0 & s & path & _ & _ & R & _ & _ & V & _ & X). exists s. rewrite V, X. split; [auto|]. split; [reflexivity|lia]. Qed.

(** C21: the edges a slice adds are exactly: touching neighbours of one line, and
    pairs of adjacent lines whose straight motion is reported free; nothing that
    existed is changed. *)
Theorem C21_slice_edges : forall (E : env) i (s s' : state E), construct_slice E i s = Ok s' ->
  exists seg, slice_segments E s s' seg /\ extends (p_graph s) (p_graph s') /\
  new_edges (p_graph s) (p_graph s') (fun a b v1 v2 =>
    (exists k j, line_vertex E s' seg k j a /\ line_vertex E s' seg k (j + 1) b /\ touching seg k j) \/
    (exists k j1 j2, line_vertex E s' seg k j1 a /\ line_vertex E s' seg (k + 1) j2 b /\
       same_slice_free E (p_slice s') v1 v2 = Ok true)) /\
  (forall k j a b, line_vertex E s' seg k j a -> line_vertex E s' seg k (j + 1) b -> touching seg k j ->
     In (a, b) (gedge (p_graph s'))) /\
  (forall k j1 j2 a b v1 v2, line_vertex E s' seg k j1 a -> line_vertex E s' seg (k + 1) j2 b ->
     nth_error (gvert (p_graph s')) a = Some v1 -> nth_error (gvert (p_graph s')) b = Some v2 ->
     same_slice_free E (p_slice s') v1 v2 = Ok true -> In (a, b) (gedge (p_graph s'))).
Proof. exact slice_edges. Qed.
Print Assumptions C21_slice_edges.

Theorem C21_every_edge_was_checked : forall (E : env) (s : state E), reachable E s ->
  forall k a b, nth_error (gedge (p_graph s)) k = Some (a, b) ->
    exists v1 v2, nth_error (gvert (p_graph s)) a = Some v1 /\ nth_error (gvert (p_graph s)) b = Some v2 /\ justified E s a b v1 v2.
Proof. intros E s H. apply reachable_inv in H. destruct H as (r0 & [_ G _ _]). exact G. Qed.
Print Assumptions C21_every_edge_was_checked.

Example C21_hyp : exists s e, reachable E1 s /\ nth_error (gedge (p_graph s)) 77 = Some e.
Proof.
  destruct E1_run as (s0 & s & path & _ & _ & R & _ & _ & _ & Ed & _). exists s.
  destruct (nth_error (gedge (p_graph s)) 77) as [e|] eqn:Q; [eauto|]. apply nth_error_None in Q. lia.
Qed.

(** C22: the bridging step never changes a graph in which both ends have one heading. *)
Theorem C22_bridge_is_idle : forall (E : env) bd i1 i2 g v1 v2 c,
  nth_error (gvert g) i1 = Some v1 -> nth_error (gvert g) i2 = Some v2 ->
  nth_error v1 2 = Some c -> nth_error v2 2 = Some c -> same_slice_free E bd v1 v2 = Ok false ->
  bridge (same_slice_free E bd) i1 i2 g = Ok g.
Proof. exact bridge_noop_same_heading. Qed.
Print Assumptions C22_bridge_is_idle.

(** A slice therefore has exactly one vertex per free segment: no bridge vertices. *)
Theorem C22_no_bridge_vertices : forall (E : env) i (s s' : state E), construct_slice E i s = Ok s' ->
  exists seg, slice_segments E s s' seg /\
    length (gvert (p_graph s')) = length (gvert (p_graph s)) + list_sum (map (@length f64) (firstn (length (fty seg)) (fxM seg))).
Proof.
  intros E i s s' H. pose proof (slice_vertices E _ _ _ H) as (seg & plane & V & _ & _ & _ & _ & S & L).
  exists seg. split; [exact S|]. rewrite V, app_length. f_equal. unfold line_vertices. clear - L.
  generalize dependent (fxM seg). induction (fty seg) as [|y ty IH]; intros [|x xm] L; cbn [length] in *; try lia; [reflexivity..|].
  cbn [combine map concat firstn list_sum fold_right]. rewrite app_length, map_length, IH by lia. reflexivity.
Qed.
Print Assumptions C22_no_bridge_vertices.

(** Witness: a rejected motion in the box scene. *)
Definition v_low : pose := zpose 0 (-5) 0.
Definition v_high : pose := zpose 0 5 0.
Lemma rejected : same_slice_free E1 (e_mink E1 origin) v_low v_high = Ok false.
Proof. vm_compute. reflexivity. Qed.
Example C22_hyp : nth_error (gvert (Graph [v_low; v_high] [] [])) 0 = Some v_low /\
  nth_error (gvert (Graph [v_low; v_high] [] [])) 1 = Some v_high /\
  nth_error v_low 2 = Some (fofZ 0) /\ nth_error v_high 2 = Some (fofZ 0) /\ same_slice_free E1 (e_mink E1 origin) v_low v_high = Ok false.
Proof. split; [reflexivity|]. split; [reflexivity|]. split; [reflexivity|]. split; [reflexivity|exact rejected]. Qed.

(** C23: connecting the slices appends, for each slice in turn, edges to the
    adjacent slice that were checked; at most one per vertex, in increasing order. *)
Theorem C23_cross_edges : forall (E : env) (s s' : state E), connect_multi E s = Ok s' -> length (p_vidx s) <> 1 ->
  exists ess, length ess = length (p_vidx s) /\ gvert (p_graph s') = gvert (p_graph s) /\
    gedge (p_graph s') = gedge (p_graph s) ++ concat ess /\
    forall i es, nth_error ess i = Some es -> exists j vi vj hi hj br,
      (i + 1 <> e_numSlice E -> j = i + 1) /\ (i + 1 = e_numSlice E -> e_numSlice E <> 2 -> j = 0) /\
      nth_error (p_vidx s) i = Some vi /\ nth_error (p_vidx s) j = Some vj /\
      nth_error (p_headings s) i = Some hi /\ nth_error (p_headings s) j = Some hj /\
      e_tfe E (p_robot s) hi hj = Ok br /\
      (forall a b, In (a, b) es -> vstart vi <= a < vslice vi /\ vstart vj <= b < vslice vj /\
         exists v1 v2, nth_error (gvert (p_graph s)) a = Some v1 /\ nth_error (gvert (p_graph s)) b = Some v2 /\
           heights_near E (p_numLineY s) v1 v2 /\ multi_slice_free E (p_robot s) br v1 v2 = Ok true) /\
      (forall k k' e e', k < k' -> nth_error es k = Some e -> nth_error es k' = Some e' ->
         fst e < fst e' /\ snd e <= snd e') /\
      (forall a b v1 v2, vstart vi <= a < vslice vi -> vstart vj <= b < vslice vj ->
         nth_error (gvert (p_graph s)) a = Some v1 -> nth_error (gvert (p_graph s)) b = Some v2 ->
         heights_near E (p_numLineY s) v1 v2 -> multi_slice_free E (p_robot s) br v1 v2 = Ok true ->
         (exists b', In (a, b') es /\ b' <= b) \/ (exists a' b', In (a', b') es /\ a' < a /\ b < b')).
Proof.
  intros E s s' H L. destruct (connect_multi_edges E s s' H L) as (ess & A & B & C & D). exists ess. split; [exact A|]. split; [exact B|]. split; [exact C|].
  intros i es Hi. destruct (D i es Hi) as (vi & vj & hi & hj & br & X). exists (adjacent E i), vi, vj, hi, hj, br. unfold adjacent.
  split; [intros N; apply Nat.eqb_neq in N; rewrite N; reflexivity|]. split; [|exact X].
  intros N N2. apply Nat.eqb_eq in N. apply Nat.eqb_neq in N2. rewrite N, N2. reflexivity.
Qed.
Print Assumptions C23_cross_edges.

Theorem C23_one_slice_no_edges : forall (E : env) (s : state E), length (p_vidx s) = 1 -> connect_multi E s = Ok s.
Proof. intros E s H. unfold connect_multi. rewrite H. reflexivity. Qed.
Print Assumptions C23_one_slice_no_edges.

(** The linking is greedy: vertex 1 is close to vertex 2 and its motion is free, yet
    it stays unconnected because vertex 0 was linked with vertex 3. *)
Definition psame (v w : pose) : bool := Nat.eqb (length v) (length w) && forallb (fun p => fsame (fst p) (snd p)) (combine v w).
Definition crossed (v1 v2 : pose) : outcome bool := Ok (negb (psame v1 (zpose 0 0 0) && psame v2 (zpose 2 0 0) || psame v1 (zpose 1 0 0) && psame v2 (zpose 3 0 0))).
Theorem C23_greedy_misses_pairs_refuted :
  ~ (forall near ok lo1 hi1 lo2 hi2 g g' a v1 b v2, link_ranges near ok lo1 hi1 lo2 hi2 g = Ok g' ->
     lo1 <= a < hi1 -> lo2 <= b < hi2 -> nth_error (gvert g) a = Some v1 -> nth_error (gvert g) b = Some v2 ->
     near v1 v2 = Ok true -> ok v1 v2 = Ok true -> exists b', In (a, b') (gedge g')).
Proof.
  intros H.
  set (g0 := Graph [zpose 0 0 0; zpose 1 0 0; zpose 2 0 0; zpose 3 0 0] [] []).
  assert (R : exists g', link_ranges (fun _ _ => Ok true) crossed 0 2 2 4 g0 = Ok g' /\ gedge g' = [(0, 3)]).
  { destruct (link_ranges (fun _ _ => Ok true) crossed 0 2 2 4 g0) as [g'|e|] eqn:Q.
    - exists g'. split; [reflexivity|].
      assert (X : (match link_ranges (fun _ _ => Ok true) crossed 0 2 2 4 g0 with Ok g' => gedge g' | _ => [] end) = [(0, 3)]) by (vm_compute; reflexivity).
      rewrite Q in X. exact X.
    - exfalso. assert (X : (match link_ranges (fun _ _ => Ok true) crossed 0 2 2 4 g0 with Ok _ => true | _ => false end) = true) by (vm_compute; reflexivity).
      rewrite Q in X. discriminate X.
    - exfalso. assert (X : (match link_ranges (fun _ _ => Ok true) crossed 0 2 2 4 g0 with Ok _ => true | _ => false end) = true) by (vm_compute; reflexivity).
      rewrite Q in X. discriminate X. }
  destruct R as (g' & R & Eg).
  assert (O : crossed (zpose 1 0 0) (zpose 2 0 0) = Ok true) by (vm_compute; reflexivity).
  destruct (H (fun _ _ => Ok true) crossed 0 2 2 4 g0 g' 1 (zpose 1 0 0) 2 (zpose 2 0 0) R) as (b' & Hb); auto.
  rewrite Eg in Hb. destruct Hb as [Hb|[]]. discriminate Hb.
Qed.
Print Assumptions C23_greedy_misses_pairs_refuted.

(** C24: with two slices no planning call of HRM2D returns. *)
Theorem C24_two_slices_never_return : forall (E : env) rounds (s : state E), reachable E s -> e_numSlice E = 2 ->
  forall o, plan E (connect_multi E) rounds s <> Ok o.
Proof. exact two_slices_never. Qed.
Print Assumptions C24_two_slices_never_return.

(** What it ends with, once the first pair of slices has been linked: std::out_of_range. *)
Theorem C24_two_slices_throw : forall (E : env) (s : state E) va vb h0 h1 br g,
  e_numSlice E = 2 -> p_vidx s = [va; vb] ->
  idx (p_headings s) 0 = Ok h0 -> idx (p_headings s) 1 = Ok h1 -> e_tfe E (p_robot s) h0 h1 = Ok br ->
  link_ranges (near2d E (p_numLineY s)) (multi_slice_free E (p_robot s) br)
    (vstart va) (vslice va) (vstart vb) (vslice vb) (p_graph s) = Ok g ->
  connect_multi E s = Throw OutOfRange.
Proof. exact two_slices_throw. Qed.
Print Assumptions C24_two_slices_throw.

Example C24_witness : run E4 origin 4 1 [] = Throw OutOfRange /\ e_numSlice E4 = 2.
Proof. split; [exact E4_throw|reflexivity]. Qed.

(** C25: single slice and single line give NaN. *)
Theorem C25_one_slice_nan : forall (E : env), e_numSlice E = 1 ->
  forall s : state E, p_headings (sample_orientations E s) = p_headings s ++ [heading E 0] /\ fisnan (heading E 0) = true.
Proof. intros E H s. split; [cbn [sample_orientations p_headings]; rewrite H; reflexivity|apply heading_one; exact H]. Qed.
Print Assumptions C25_one_slice_nan.

Theorem C25_one_line_nan : forall l2 l3, exists y, sweep_heights 1 l2 l3 = [y] /\ fisnan y = true.
Proof. exact sweep_one. Qed.
Print Assumptions C25_one_line_nan.

Theorem C25_headings : forall (E : env), 2 <= e_numSlice E -> (Z.of_nat (e_numSlice E) <= 2 ^ 53)%Z ->
  fval (heading E 0) = (- fval cPI)%R /\
  (forall i, i < e_numSlice E -> fisfin (heading E i) = true /\
     (Rabs (fval (heading E i) - (- fval cPI + 2 * fval cPI * INR i / (INR (e_numSlice E) - 1))) <= bpow radix2 (-48))%R) /\
  (forall i j, i <= j < e_numSlice E -> (fval (heading E i) <= fval (heading E j))%R).
Proof.
  intros E H1 H2. split; [apply heading_first; auto|]. split.
  - intros i Hi. split; [apply heading_spec; auto|apply heading_error; auto].
  - intros i j Hij. apply heading_mono; auto.
Qed.
Print Assumptions C25_headings.

Theorem C25_heights : forall k l2 l3, 2 <= k -> (Z.of_nat k <= 2 ^ 53)%Z -> fisfin l2 = true -> fisfin l3 = true ->
  (Rabs (fval l2) <= bpow radix2 898)%R -> (Rabs (fval l3) <= bpow radix2 898)%R -> (fval l2 <= fval l3)%R ->
  exists d, d = rnd64 (rnd64 (fval l3 - fval l2) / (INR k - 1)) /\ (0 <= d)%R /\
  forall i y, nth_error (sweep_heights k l2 l3) i = Some y ->
    fisfin y = true /\ fval y = rnd64 (fval l2 + rnd64 (INR i * d)).
Proof. exact sweep_spec. Qed.
Print Assumptions C25_heights.

Example C25_hyp : 2 <= e_numSlice E1 /\ (Z.of_nat (e_numSlice E1) <= 2 ^ 53)%Z /\ fisfin (fofZ (-10)) = true /\
  (fval (fofZ (-10)) <= fval (fofZ 10))%R /\ (Rabs (fval (fofZ (-10))) <= bpow radix2 898)%R.
Proof.
  split; [cbn; lia|]. split; [cbn; lia|]. split; [apply fofZ_fin; lia|]. rewrite !fofZ_val by lia. split; [lra|].
  rewrite Rabs_left by lra. rewrite bpow_R by lia. apply Rle_trans with (IZR (2 ^ 4)); [cbn; lra|]. apply IZR_le. lia.
Qed.

(** C26: a refinement round never returns normally, so a planning call that
    returns has solved the query at once or was given no refinement time. *)
Theorem C26_refine_never_returns : forall (E : env) late (s s' : state E), reachable E s -> e_numSlice E <> 0 ->
  refine E late s <> Ok s'.
Proof. intros E late s s' H. apply reachable_inv2 in H. destruct H as (I & _). apply refine_never. exact I. Qed.
Print Assumptions C26_refine_never_returns.

Theorem C26_returning_plans_did_not_refine : forall (E : env) rounds (s s' : state E) r, reachable E s ->
  plan E (connect_multi E) rounds s = Ok (s', r) -> r <> None \/ rounds = [].
Proof.
  intros E rounds s s' r H Hp. apply reachable_inv2 in H. destruct H as (I & Hh & m & L).
  pose proof (plan_result _ _ _ _ _ _ Hp) as Res.
  apply (plan_once E _ (connect_multi_grew E) m) in Hp; auto. destruct Hp as (s1 & _ & _ & [Q|Q] & _); [left|right; exact Q].
  destruct Res as [[Q' _]|(_ & p & -> & _)]; [congruence|discriminate].
Qed.
Print Assumptions C26_returning_plans_did_not_refine.

(** The outcome is std::out_of_range when every boundary polygon is met by each
    sweep line in no point or in at least two. *)
Theorem C26_refine_throws : forall (E : env) late (s : state E) na no h0 b0 l0 l1 l2 l3 (hA hO : f64 -> list (list f64)),
  e_numSlice E <> 0 -> nth_error (p_headings s) 0 = Some h0 -> nth_error (p_sliceAll s) 0 = Some b0 ->
  nth_error (e_limits E) 0 = Some l0 -> nth_error (e_limits E) 1 = Some l1 ->
  nth_error (e_limits E) 2 = Some l2 -> nth_error (e_limits E) 3 = Some l3 ->
  tables_shape (p_numLineY s) na no (p_tables s) -> p_numLineY s <> 0 -> na + no <> 0 ->
  (forall c, In c (sweep_heights (2 * p_numLineY s) l2 l3) ->
     map (hline_polygon F64 c) (barena (p_fsbound s)) = map (@Ok _) (hA c) /\
     map (hline_polygon F64 c) (bobstacle (p_fsbound s)) = map (@Ok _) (hO c) /\
     length (hA c) = na /\ length (hO c) = no /\
     Forall (fun h => length h <> 1) (hA c) /\ Forall (fun h => length h <> 1) (hO c)) ->
  refine E late s = Throw OutOfRange.
Proof. exact refine_throws. Qed.
Print Assumptions C26_refine_throws.

Example C26_witness : run E5 origin 4 1 [fun _ => false] = Throw OutOfRange /\
  (exists s, reachable E5 s /\ e_numSlice E5 <> 0).
Proof.
  split; [exact E5_refine|]. destruct E5_run as (s0 & s & H0 & H & _). exists s. split; [|discriminate].
  eapply reach_plan; [eapply reach_new; exact H0|exact H].
Qed.

(** C27: every slice boundary is the one of the robot given at construction. *)
Theorem C27_one_boundary_for_all_slices : forall (E : env) (s : state E), reachable E s ->
  (forall b, In b (p_sliceAll s) -> b = e_mink E (p_fsrobot s)) /\
  (forall rounds s' r, plan E (connect_multi E) rounds s = Ok (s', r) -> p_fsrobot s' = p_fsrobot s) /\
  (forall rnd rounds s' r, plan E (kc_connect E [] rnd) rounds s = Ok (s', r) -> p_fsrobot s' = p_fsrobot s).
Proof.
  intros E s H. split; [apply slices_one_boundary; exact H|]. split.
  - intros rounds s' r. apply plan_multi_fsrobot.
  - intros rnd rounds s' r. apply plan_kc_fsrobot.
Qed.
Print Assumptions C27_one_boundary_for_all_slices.

Lemma E7_slices : (match run E7 origin 4 1 [] with
  | Ok (s, _) => (length (p_sliceAll s), match p_headings s with h :: _ => fltb h (fofZ (-1)) | [] => false end)
  | _ => (0, false) end) = (3, true).
Proof. vm_compute. reflexivity. Qed.
(** The boundary of a slice need not be the boundary at the heading of the slice. *)
Theorem C27_boundary_at_heading_refuted :
  ~ (forall (E : env) (s : state E), reachable E s -> forall k b h, nth_error (p_sliceAll s) k = Some b ->
       nth_error (p_headings s) k = Some h -> exists r, b = e_mink E (e_move E r (fofZ 0) (fofZ 0) h)).
Proof.
  intros H. destruct (view_inv _ _ _ _ _ _ _ _ E7_view) as (s & r & Hr & _). pose proof E7_slices as K. rewrite Hr in K.
  pose proof (demo_reachable _ _ _ _ _ _ _ Hr) as Re. apply demo_construct in Hr. destruct Hr as (s0 & H0 & Hp).
  destruct (p_sliceAll s) as [|b bs] eqn:Qb; [discriminate K|]. destruct (p_headings s) as [|h hs] eqn:Qh; [discriminate K|].
  apply (f_equal snd) in K. cbn [snd] in K.
  destruct (H E7 s Re 0 b h) as (rb & Hb); [rewrite Qb; reflexivity|rewrite Qh; reflexivity|].
  pose proof (slices_one_boundary E7 s Re b ltac:(rewrite Qb; left; reflexivity)) as Hb'.
  rewrite (plan_multi_fsrobot _ _ _ _ _ Hp) in Hb'.
  assert (F : p_fsrobot s0 = origin) by (unfold construct in H0; ob H0 l0 L0; ob H0 l1 L1; injection H0 as <-; reflexivity).
  rewrite F in Hb'. rewrite Hb' in Hb. clear - Hb K.
  assert (A : e_mink E7 origin = Bound [box (-20) 20 (-20) 20] [box (-3) 3 (-4) 4]).
  { unfold E7, e_mink. assert (Z : fltb (snd origin) (fofZ (-1)) = false) by (vm_compute; reflexivity). rewrite Z. reflexivity. }
  assert (B : e_mink E7 (e_move E7 rb (fofZ 0) (fofZ 0) h) = Bound [box (-20) 20 (-20) 20] [box (-9) 9 (-4) 4]).
  { unfold E7, e_mink, e_move. cbn [snd]. rewrite K. reflexivity. }
  rewrite A, B in Hb. assert (Q : fofZ (-3) = fofZ (-9)).
  { pose proof (f_equal (fun x => match bobstacle x with ((a, _) :: _) :: _ => a | _ => fnan end) Hb) as Q. exact Q. }
  apply fsame_eq in Q. assert (Z : fsame (fofZ (-3)) (fofZ (-9)) = false) by (vm_compute; reflexivity). congruence.
Qed.
Print Assumptions C27_boundary_at_heading_refuted.

Example C27_hyp : exists s, reachable E7 s /\ length (p_vidx s) = 3.
Proof.
  destruct (view_inv _ _ _ _ _ _ _ _ E7_view) as (s & r & Hr & _ & _ & X & _). exists s. split; [|exact X].
  eapply demo_reachable; exact Hr.
Qed.

(** C33: HRM2DKC's slice connection changes nothing, for every random stream. *)
Theorem C33_kc_never_connects : forall (E : env) rnd (s s' : state E), kc_connect E [] rnd s = Ok s' -> s' = s.
Proof. exact kc_connect_noop. Qed.
Print Assumptions C33_kc_never_connects.

(** so the edges of an HRM2DKC roadmap stay inside slices: with the wall scene a
    query HRM2D solves through another slice is not solved. *)
Theorem C33_kc_plan_edges : forall (E : env) rnd (s s' : state E), build_roadmap E (kc_connect E [] rnd) s = Ok s' ->
  build_roadmap E (fun x => Ok x) s = Ok s'.
Proof.
  intros E rnd s s' H. unfold build_roadmap in *. ob H t Ht. rewrite Ht. cbn [obind]. apply kc_connect_noop in H. congruence.
Qed.
Print Assumptions C33_kc_plan_edges.

Example C33_witness : view E3 (kc E3 origin 4 1 []) = Ok (12, 6, 3, false, [], None) /\
  view E3 (run E3 origin 4 1 []) = Ok (12, 18, 3, true, [4; 8; 9; 6; 7], Some 7).
Proof. split; [exact E3_kc|exact E3_view]. Qed.

(** For any list of polyhedron matrices the added edges come in pairs: two old vertices
    joined through a new one that lies, seen from both, in one of the polytopes; weights
    stay the distances. *)
Theorem C33_kc_links_through_middle_vertex : forall (E : env) polys rnd (s s' : state E), kc_connect E polys rnd s = Ok s' ->
  (well_formed (p_graph s) -> well_formed (p_graph s')) /\ extends (p_graph s) (p_graph s') /\
  forall k a b, length (gedge (p_graph s)) <= k -> nth_error (gedge (p_graph s')) k = Some (a, b) ->
    exists a' v1 v2 v, length (gvert (p_graph s)) <= b /\ nth_error (gvert (p_graph s')) a = Some v1 /\
      nth_error (gvert (p_graph s')) a' = Some v2 /\ nth_error (gvert (p_graph s')) b = Some v /\
      (kc_between polys v1 v2 v \/ kc_between polys v2 v1 v) /\ In (a', b) (gedge (p_graph s')).
Proof. intros E polys rnd s s' H. apply kc_connect_grown in H. destruct H as [(A & B & C) _]. auto. Qed.
Print Assumptions C33_kc_links_through_middle_vertex.
(** With a polytope containing every point the roadmap gets 12 middle vertices. *)
Example C33_links_witness : view E3 (kc_whole E3 origin 4 1) = Ok (24, 30, 3, true, [4; 16; 8; 19; 7], Some 7).
Proof. exact E3_kc_whole. Qed.

(** C49: a planner object plans at most once. *)
Theorem C49_plan_at_most_once : forall (E : env) rounds rounds1 (s0 s1 : state E) r1, reachable E s0 ->
  plan E (connect_multi E) rounds1 s0 = Ok (s1, r1) -> forall o, plan E (connect_multi E) rounds s1 <> Ok o.
Proof. intros E rounds rounds1 s0 s1 r1. apply replan_never. Qed.
Print Assumptions C49_plan_at_most_once.

Example C49_hyp : exists s0 s1 r1, reachable E1 s0 /\ plan E1 (connect_multi E1) [] s0 = Ok (s1, Some r1).
Proof.
  destruct E1_run as (s0 & s & path & H0 & H & _). exists s0, s, (path, path). split; [eapply reach_new; exact H0|exact H].
Qed.

(** C50: a request with one slice never returns a path. *)
Theorem C50_one_slice_unsolved : forall (E : env) rounds robot fsr nx ny nA nO (s s' : state E) r,
  e_numSlice E = 1 -> construct E robot fsr nx ny nA nO = Ok s ->
  (plan E (connect_multi E) rounds s = Ok (s', r) \/ exists rnd, plan E (kc_connect E [] rnd) rounds s = Ok (s', r)) -> r = None.
Proof.
  intros E rounds robot fsr nx ny nA nO s s' r H1 H0 [H|(rnd & H)].
  - eapply one_slice_none; [apply connect_multi_grew|eauto..].
  - eapply one_slice_none; [apply (kc_grew E rnd)|eauto..].
Qed.
Print Assumptions C50_one_slice_unsolved.

Example C50_witness : view E6 (run E6 origin 4 1 []) = Ok (10, 16, 1, false, [], None) /\ e_numSlice E6 = 1.
Proof. split; [exact E6_view|reflexivity]. Qed.
