(** C35, C36, C52-C61, C63-C67: the spatial roadmap planners (src/planners/HRM3D.cpp,
    ProbHRM3D.cpp, include/hrm/planners/HighwayRoadMap-inl.h). *)
From Coq Require Import List Bool Reals Lra Lia ZArith Arith.
From Flocq Require Import Core.
From Verif.Base Require Import Outcome Float64 FloatFacts.
From Verif.Model Require Import MScalar MDistance MInterval MFreeSpace MLine3D MInterp MGraph MSearch MHRM2D MHRM3D MAStar.
From Verif.Spec Require Import SFreeSpace SGraph SSearch SPlanner2D SPlanner3D.
From Verif.Proofs Require Import PTables PGraph PGraph3D PHRM2D PHRM3D PPlan3D PPlan3DX PPlan3DY PPlan3DZ PPlan2DZ PSampling PSearch PHRM2DW PHRM3DW.
Import ListNotations.

(** C35: HRM3D links slice i with the nearest slice before it; slice 0 with itself. *)
Theorem C35_linked_to_nearest_earlier : forall (E : env3) (s s' : state3 E), connect_multi3 E s = Ok s' -> length (q_vidx s) <> 1 ->
  exists ess, length ess = length (q_vidx s) /\ gvert (q_graph s') = gvert (q_graph s) /\
    gedge (q_graph s') = gedge (q_graph s) ++ concat ess /\
    forall i es, nth_error ess i = Some es -> exists j vi vj qi qj br,
      nth_error (q_vidx s) i = Some vi /\ nth_error (q_vidx s) j = Some vj /\
      nth_error (q_quats s) i = Some qi /\ nth_error (q_quats s) j = Some qj /\
      nearest_of (Nat.min i (q_numSlice s)) (orientation_distance E s qi) j /\
      m_tfe_q E (q_robot s) qi qj = Ok br /\ slice_links E s (q_robot s) br vj vi es.
Proof. exact connect_multi3_edges. Qed.
Print Assumptions C35_linked_to_nearest_earlier.

Theorem C35_never_a_later_slice : forall m d j, nearest_of m d j -> j < m \/ j = 0.
Proof. intros m d j [[H _]|[H _]]; auto. Qed.
Print Assumptions C35_never_a_later_slice.

Theorem C35_first_slice_with_itself : forall d j, nearest_of 0 d j -> j = 0.
Proof. intros d j [[H _]|[H _]]; [lia|exact H]. Qed.
Print Assumptions C35_first_slice_with_itself.

(** Witness: the build of scene D1 links two slices; a self loop of slice 0 is among the edges. *)
Lemma D1_linking : (match obind (construct3 D1 [] 2 2 2 1 1) (build_roadmap3 D1 (fun _ => qa)) with
  | Ok s => (length (q_vidx s), existsb (fun e => Nat.eqb (fst e) (snd e)) (gedge (q_graph s))) | _ => (0, false) end) = (2, true).
Proof. vm_compute. reflexivity. Qed.
Example C35_hyp : exists s0 s, obind (construct3 D1 [] 2 2 2 1 1) (build_roadmap3 D1 (fun _ => qa)) = Ok s /\
  connect_multi3 D1 s0 = Ok s /\ length (q_vidx s0) = 2 /\ exists a, In (a, a) (gedge (q_graph s)).
Proof.
  pose proof D1_linking as K.
  destruct (obind (construct3 D1 [] 2 2 2 1 1) (build_roadmap3 D1 (fun _ => qa))) as [s| |] eqn:Q; [|discriminate K..].
  apply pair_equal_spec in K. destruct K as [K1 K2]. apply existsb_exists in K2. destruct K2 as ((a, b) & Hin & Hab).
  apply Nat.eqb_eq in Hab. cbn [fst snd] in Hab. subst b.
  apply obind_Ok in Q. destruct Q as (s1 & H1 & Hb). unfold build_roadmap3 in Hb. apply obind_Ok in Hb. destruct Hb as (s0 & H0 & Hc).
  exists s0, s. split; [reflexivity|]. split; [exact Hc|]. split; [|exists a; exact Hin].
  apply (connect_multi3_grew D1) in Hc; [|reflexivity]. destruct Hc as (g & -> & _). exact K1.
Qed.

(** C36: the interpolated path HRM3D::plan returns is the solved path itself. *)
Theorem C36_spatial_path_not_interpolated : forall (E : env3) rq rounds (s s' : state3 E) path ipath,
  plan3 E rq rounds s = Ok (s', Some (path, ipath)) -> ipath = path.
Proof.
  intros E rq rounds s s' path ipath H. apply plan3_result in H. destruct H as [[_ H]|(_ & p & H & _)]; [discriminate H|]. injection H as -> ->. reflexivity.
Qed.
Print Assumptions C36_spatial_path_not_interpolated.
Example C36_spatial_hyp : exists s0 s path, plan3 D1 (fun _ => qa) [] s0 = Ok (s, Some (path, path)) /\ length path = 6.
Proof. destruct D1_run as (s0 & s & path & _ & H & _ & _ & L & _). exists s0, s, path. auto. Qed.

(** C52: roadmap well formed after any history of calls. *)
Theorem C52_roadmap_well_formed : forall (E : env3) (s : state3 E), reachable3 E s -> well_formed (q_graph s).
Proof. intros E s H. apply reachable3_inv in H. destruct H as [I _]. exact (k_wf _ _ _ I). Qed.
Print Assumptions C52_roadmap_well_formed.

Theorem C52_slice_keeps_well_formed : forall (E : env3) i (s s' : state3 E), construct_slice3 E i s = Ok s' ->
  well_formed (q_graph s) -> well_formed (q_graph s').
Proof. intros E i s s' H W. apply slice3_grew in H. destruct H as (_ & (_ & G & _) & _). auto. Qed.
Print Assumptions C52_slice_keeps_well_formed.

Example C52_hyp : exists s, reachable3 D1 s /\ length (gvert (q_graph s)) = 14 /\ length (gedge (q_graph s)) = 38.
Proof. destruct D1_run as (s0 & s & path & _ & _ & _ & R & _ & _ & V & Ed & _). exists s. auto. Qed.
Example C52_hyp_prob : exists s, reachable3 P1 s /\ length (gvert (q_graph s)) = 14 /\ length (gedge (q_graph s)) = 31.
Proof. destruct P1_run as (s0 & s & path & ip & _ & _ & _ & R & _ & _ & V & Ed & _). exists s. auto. Qed.

(** C53: recorded ranges partition the vertices. *)
Theorem C53_ranges_partition : forall (E : env3) (s : state3 E), reachable3 E s ->
  ranges 0 (q_vidx s) (length (gvert (q_graph s))) /\ length (q_sliceAll s) = length (q_vidx s).
Proof. intros E s H. apply reachable3_inv in H. destruct H as [I _]. split; [exact (k_ranges _ _ _ I)|exact (k_len _ _ _ I)]. Qed.
Print Assumptions C53_ranges_partition.

(** One slice per orientation after HRM3D's call; one per sampled configuration for ProbHRM3D. *)
Theorem C53_slices_recorded : forall (E : env3) (s s' : state3 E) rq rounds r, m_prob E = false -> reachable3 E s ->
  plan3 E rq rounds s = Ok (s', r) ->
  q_quats s' = (match m_samples E with [] => map rq (seq 0 (q_numSlice s)) | qs => qs end) /\
  length (q_vidx s') = length (q_quats s') /\ q_numSlice s' = length (q_quats s').
Proof.
  intros E s s' rq rounds r P H Hp. apply reachable3_inv in H. destruct H as [I _].
  apply (plan3_keep E P) in Hp; [|eapply inv3_weaken; [|exact I]; unfold rel3; rewrite P; auto].
  destruct Hp as (s1 & _ & _ & _ & _ & _ & L & Q & _ & N & _). split; [|auto]. rewrite Q. apply (sample3_facts E rq s).
Qed.
Print Assumptions C53_slices_recorded.

Theorem C53_slices_sampled : forall (E : env3) (s : state3 E), m_prob E = true -> reachable3 E s ->
  length (q_vidx s) = length (q_confs s) /\ Forall2 (config_of E) (q_quats s) (q_confs s).
Proof.
  intros E s P H. apply reachable3_inv in H. destruct H as [I L]. split; [symmetry; auto|]. pose proof (k_conf _ _ _ I) as K. rewrite P in K. exact K.
Qed.
Print Assumptions C53_slices_sampled.
(** A call of ProbHRM3D samples the orientation and joints of the start, then of the goal, then
    the random ones, in this order, one per slice. *)
Theorem C53_sampling_order : forall (E : env3) (s s' : state3 E) d ds r, m_prob E = true -> reachable3 E s ->
  plan_prob E d ds s = Ok (s', r) ->
  exists l, q_confs s' = q_confs s ++ l /\ length l = q_numSlice s' /\
    forall k c, nth_error l k = Some c -> exists dk, nth_error (d :: ds) k = Some dk /\ sampled_as E dk k c.
Proof.
  intros E s s' d ds r P H Hp. apply reachable3_inv in H. destruct H as [I L].
  eapply (plan_prob_samples E P (rel3 E)); [exact I|exact (L P)| |exact Hp]. intros j. unfold rel3. rewrite P. lia.
Qed.
Print Assumptions C53_sampling_order.
Example C53_hyp : exists s, m_prob P1 = true /\ reachable3 P1 s /\ length (q_vidx s) = 2.
Proof. destruct P1_run as (s0 & s & path & ip & _ & _ & _ & R & _ & _ & _ & _ & X & _). exists s. auto. Qed.

(** C54: vertices of recorded slice k lie on the sweep grid; in HRM3D they carry the
    orientation of sample k. *)
Theorem C54_vertices_of_slices : forall (E : env3) (s : state3 E), m_prob E = false -> reachable3 E s ->
  forall k v a, nth_error (q_vidx s) k = Some v -> vstart v <= a < vslice v ->
    exists p, nth_error (gvert (q_graph s)) a = Some p /\ slice_vertex3 E s k k p.
Proof.
  intros E s P H k v a Hk Ha. apply reachable3_inv in H. destruct H as [I _].
  destruct (k_slice _ _ _ I k v a Hk Ha) as (i & p & R & Hp & Sv). unfold rel3 in R. rewrite P in R. subst i. exists p. auto.
Qed.
Print Assumptions C54_vertices_of_slices.

(** ProbHRM3D, first call: orientation and joints of configuration k. *)
Theorem C54_vertices_first_call : forall (E : env3) robot nS nx ny nA nO d ds (s s' : state3 E) r, m_prob E = true ->
  construct3 E robot nS nx ny nA nO = Ok s -> plan_prob E d ds s = Ok (s', r) ->
  forall k v a, nth_error (q_vidx s') k = Some v -> vstart v <= a < vslice v ->
    exists p, nth_error (gvert (q_graph s')) a = Some p /\ slice_vertex3 E s' k k p.
Proof.
  intros E robot nS nx ny nA nO d ds s s' r P H0 H k v a Hk Ha. apply (construct3_inv E eq) in H0. destruct H0 as (I & V & C & _).
  apply (plan_prob_keep E P eq) in H; [|exact I|rewrite V, C; reflexivity|intros j; rewrite V; reflexivity].
  destruct H as (I' & _). destruct (k_slice _ _ _ I' k v a Hk Ha) as (i & p & R & Hp & Sv). subst i. exists p. auto.
Qed.
Print Assumptions C54_vertices_first_call.

(** Any history: joints of configuration k, orientation of a configuration not after k. *)
Theorem C54_vertices_any_history : forall (E : env3) (s : state3 E), m_prob E = true -> reachable3 E s ->
  forall k v a, nth_error (q_vidx s) k = Some v -> vstart v <= a < vslice v ->
    exists i p, i <= k /\ nth_error (gvert (q_graph s)) a = Some p /\ slice_vertex3 E s k i p.
Proof.
  intros E s P H k v a Hk Ha. apply reachable3_inv in H. destruct H as [I _].
  destruct (k_slice _ _ _ I k v a Hk Ha) as (i & p & R & Hp & Sv). unfold rel3 in R. rewrite P in R. exists i, p. auto.
Qed.
Print Assumptions C54_vertices_any_history.

(** C55: edges of a slice are exactly: touching neighbours of one sweep line, free
    straight motions between grid neighbours, and free straight motions at vertices
    that the bridging step added; nothing that existed is changed. *)
Theorem C55_slice_edges : forall (E : env3) i (s s' : state3 E), construct_slice3 E i s = Ok s' ->
  exists segs line, slice_segments3 E s s' segs /\ vline (q_nv s') = line /\ extends (q_graph s) (q_graph s') /\
    length line = length segs /\
    (forall i j k x seg xm, nth_error segs i = Some (x, seg) -> j < length (fty seg) -> nth_error (fxM seg) j = Some xm -> k < length xm ->
       exists a y z js, plane_vertex line segs i j k a /\ length (gvert (q_graph s)) <= a /\ nth_error (fty seg) j = Some y /\ nth_error xm k = Some z /\
         nth_error (gvert (q_graph s')) a = Some ([x; y; z] ++ quat_list (m_quat E (q_robot s')) ++ js)) /\
    new_edges (q_graph s) (q_graph s') (fun a b v1 v2 =>
      line_neighbours line segs a b \/
      (same_slice_free3 (q_slice s') v1 v2 = Ok true /\ (grid_neighbours line segs a b \/ ~ grid_vertex line segs a \/ ~ grid_vertex line segs b))) /\
    (forall a b, line_neighbours line segs a b -> In (a, b) (gedge (q_graph s'))) /\
    (forall a b v1 v2, grid_neighbours line segs a b -> nth_error (gvert (q_graph s')) a = Some v1 -> nth_error (gvert (q_graph s')) b = Some v2 ->
       same_slice_free3 (q_slice s') v1 v2 = Ok true -> In (a, b) (gedge (q_graph s'))).
Proof. exact slice3_edges. Qed.
Print Assumptions C55_slice_edges.

Theorem C55_every_edge_was_checked : forall (E : env3) (s : state3 E), reachable3 E s ->
  forall k a b, nth_error (gedge (q_graph s)) k = Some (a, b) ->
    exists v1 v2, nth_error (gvert (q_graph s)) a = Some v1 /\ nth_error (gvert (q_graph s)) b = Some v2 /\ justified3 E s a b v1 v2.
Proof. intros E s H. apply reachable3_inv in H. destruct H as [I _]. exact (k_good _ _ _ I). Qed.
Print Assumptions C55_every_edge_was_checked.

(** ProbHRM3D: the slice just added is linked with the nearest earlier configuration. *)
Theorem C55_last_slice_links : forall (E : env3) (s s' : state3 E), connect_last3 E s = Ok s' -> q_numSlice s <> 1 ->
  exists j vn vj c cj br es, nth_error (q_vidx s) (q_numSlice s - 1) = Some vn /\ nth_error (q_vidx s) j = Some vj /\
    nth_error (q_confs s) (length (q_confs s) - 1) = Some c /\ nth_error (q_confs s) j = Some cj /\
    nearest_of (q_numSlice s - 1) (configuration_distance E s c) j /\
    m_tfe_v E (q_robot s) c cj = Ok br /\ slice_links E s (q_robot s) br vj vn es /\
    gvert (q_graph s') = gvert (q_graph s) /\ gedge (q_graph s') = gedge (q_graph s) ++ es.
Proof. exact connect_last3_edges. Qed.
Print Assumptions C55_last_slice_links.

Example C55_hyp : exists s e, reachable3 D1 s /\ nth_error (gedge (q_graph s)) 37 = Some e.
Proof.
  destruct D1_run as (s0 & s & path & _ & _ & _ & R & _ & _ & _ & Ed & _). exists s.
  destruct (nth_error (gedge (q_graph s)) 37) as [e|] eqn:Q; [eauto|]. apply nth_error_None in Q. lia.
Qed.

(** C56: an HRM3D object plans at most once. *)
Theorem C56_plan_at_most_once : forall (E : env3) rq1 rounds1 rq rounds (s0 s1 : state3 E) r1, m_prob E = false -> reachable3 E s0 ->
  plan3 E rq1 rounds1 s0 = Ok (s1, r1) -> forall o, plan3 E rq rounds s1 <> Ok o.
Proof.
  intros E rq1 rounds1 rq rounds s0 s1 r1 P H H1 [s2 r2] H2. apply (plan3_fresh E P) in H2.
  apply reachable3_inv in H. destruct H as [I _].
  apply (plan3_keep E P) in H1; [|eapply inv3_weaken; [|exact I]; unfold rel3; rewrite P; auto].
  destruct H1 as (_ & _ & _ & _ & _ & _ & L & _ & N & _). rewrite H2 in L. destruct (q_quats s1); [congruence|discriminate L].
Qed.
Print Assumptions C56_plan_at_most_once.
Example C56_hyp : exists s0 s1 r1, m_prob D1 = false /\ reachable3 D1 s0 /\ plan3 D1 (fun _ => qa) [] s0 = Ok (s1, Some r1).
Proof. destruct D1_run as (s0 & s & path & _ & H & R & _). exists s0, s, (path, path). auto. Qed.

(** C57: refinement never returns normally, so the time given to it is never used. *)
Theorem C57_refine_never_returns : forall (E : env3) late (s s' : state3 E), reachable3 E s -> q_numSlice s <> 0 ->
  refine3 E late s <> Ok s'.
Proof. intros E late s s' H N. apply reachable3_inv in H. destruct H as [I _]. apply refine3_never; [exact (k_rows _ _ _ I)|exact N]. Qed.
Print Assumptions C57_refine_never_returns.

Theorem C57_returning_plans_did_not_refine : forall (E : env3) rq rounds (s s' : state3 E) r, m_prob E = false -> reachable3 E s ->
  plan3 E rq rounds s = Ok (s', r) -> r <> None \/ rounds = [].
Proof.
  intros E rq rounds s s' r P H Hp. apply reachable3_inv in H. destruct H as [I _]. pose proof (plan3_result _ _ _ _ _ _ Hp) as Res.
  apply (plan3_keep E P) in Hp; [|eapply inv3_weaken; [|exact I]; unfold rel3; rewrite P; auto].
  destruct Hp as (_ & _ & _ & _ & _ & [Q|Q] & _); [left|right; exact Q].
  destruct Res as [[Q' _]|(_ & p & -> & _)]; [congruence|discriminate].
Qed.
Print Assumptions C57_returning_plans_did_not_refine.

(** ProbHRM3D refines when the number of slices is a multiple of 60: a returning call
    built fewer than 60. *)
Theorem C57_prob_fewer_than_sixty : forall (E : env3) d ds (s s' : state3 E) r, m_prob E = true -> reachable3 E s ->
  0 < m_numPoint E -> plan_prob E d ds s = Ok (s', r) ->
  length (q_vidx s') < length (q_vidx s) + 60 /\ (r = None -> length (q_vidx s') = length (q_vidx s) + S (length ds)).
Proof.
  intros E d ds s s' r P H N Hp. apply reachable3_inv in H. destruct H as [I L]. pose proof (plan_prob_result _ _ _ _ _ _ Hp) as Res.
  apply (plan_prob_keep E P (fun _ _ => True)) in Hp; [|eapply inv3_weaken; [|exact I]; auto|auto|auto].
  destruct Hp as (_ & _ & Ln & Bn & _ & _ & _ & M & Q). split.
  - destruct (Nat.lt_ge_cases (q_numSlice s') 60) as [X|X]; [lia|]. destruct (M 60 ltac:(lia)) as [Y|Y]; [|lia]. exfalso. apply Y. reflexivity.
  - intros ->. destruct Q as [Q|Q]; [|lia]. destruct Res as [[Q' _]|(_ & p & ip & X & _)]; [congruence|discriminate X].
Qed.
Print Assumptions C57_prob_fewer_than_sixty.

Example C57_witness : run3 D2 [] 1 2 2 [fun _ => false] = Throw OutOfRange /\
  (exists s, reachable3 D2 s /\ q_numSlice s <> 0).
Proof.
  split; [exact D2_refine|]. destruct D2_run as (s0 & s & H0 & H & R & V & _). exists s. split; [exact R|].
  apply (plan3_keep D2 eq_refl) in H; [|apply (construct3_inv D2 eq) in H0; destruct H0 as (I & _); exact I].
  destruct H as (_ & _ & _ & _ & _ & _ & _ & _ & N & -> & _). destruct (q_quats s); [congruence|discriminate].
Qed.
Example C57_hyp_prob : exists s0 s r, m_prob P1 = true /\ reachable3 P1 s0 /\ 0 < m_numPoint P1 /\ plan_prob P1 (dr qa) [dr qa; dr qb] s0 = Ok (s, Some r).
Proof. destruct P1_run as (s0 & s & path & ip & _ & H & R & _). exists s0, s, (path, ip). split; [reflexivity|]. split; [exact R|]. split; [cbn; lia|exact H]. Qed.

(** C58: every slice boundary is the one of the robot given at construction. *)
Theorem C58_one_boundary_for_all_slices : forall (E : env3) (s : state3 E), reachable3 E s ->
  (forall b, In b (q_sliceAll s) -> m_mink E (q_fsrobot s) = Ok b) /\
  (m_prob E = false -> forall rq rounds s' r, plan3 E rq rounds s = Ok (s', r) -> q_fsrobot s' = q_fsrobot s) /\
  (m_prob E = true -> forall d ds s' r, plan_prob E d ds s = Ok (s', r) -> q_fsrobot s' = q_fsrobot s).
Proof.
  intros E s H. apply reachable3_inv in H. destruct H as [I L]. split; [exact (k_mink _ _ _ I)|]. split.
  - intros P rq rounds s' r Hp. apply (plan3_keep E P) in Hp; [|eapply inv3_weaken; [|exact I]; unfold rel3; rewrite P; auto].
    destruct Hp as (_ & _ & _ & _ & _ & _ & _ & _ & _ & _ & F & _). exact F.
  - intros P d ds s' r Hp. apply (plan_prob_keep E P (fun _ _ => True)) in Hp; [|eapply inv3_weaken; [|exact I]; auto|auto|auto].
    destruct Hp as (_ & _ & _ & _ & F & _). exact F.
Qed.
Print Assumptions C58_one_boundary_for_all_slices.

Lemma D7_slices : (match run3 D7 [] 2 2 2 [] with
  | Ok (s, _) => (length (q_sliceAll s), match q_quats s with (w, _, _, _) :: _ => fltb w (fdiv fone ftwo) | [] => true end)
  | _ => (0, true) end) = (2, false).
Proof. vm_compute. reflexivity. Qed.
(** The boundary of a slice need not be the boundary at the orientation of the slice. *)
Theorem C58_boundary_at_orientation_refuted :
  ~ (forall (E : env3) (s : state3 E), m_prob E = false -> reachable3 E s -> forall k b q, nth_error (q_sliceAll s) k = Some b ->
       nth_error (q_quats s) k = Some q -> exists r, m_mink E (m_move E r ([fofZ 0; fofZ 0; fofZ 0] ++ quat_list q)) = Ok b).
Proof.
  intros H. destruct (view3_inv _ _ _ _ _ _ _ _ D7_view) as (s & r & Hr & _). pose proof D7_slices as K. rewrite Hr in K.
  pose proof (run3_reachable D7 _ _ _ _ _ _ _ eq_refl Hr) as Re. apply run3_construct in Hr. destruct Hr as (s0 & H0 & Hp).
  destruct (q_sliceAll s) as [|b bs] eqn:Qb; [discriminate K|]. destruct (q_quats s) as [|[[[w x] y] z] qs] eqn:Qh; [discriminate K|].
  apply (f_equal snd) in K. cbn [snd] in K.
  destruct (H D7 s eq_refl Re 0 b (w, x, y, z)) as (rb & Hb); [rewrite Qb; reflexivity|rewrite Qh; reflexivity|].
  apply reachable3_inv in Re. destruct Re as [I _]. pose proof (k_mink _ _ _ I b ltac:(rewrite Qb; left; reflexivity)) as Hb'.
  assert (F : q_fsrobot s = []).
  { pose proof (construct3_inv D7 eq _ _ _ _ _ _ _ H0) as (I0 & _ & _ & F & _).
    destruct (plan3_keep D7 eq_refl _ _ _ _ _ I0 Hp) as (_ & _ & _ & _ & _ & _ & _ & _ & _ & _ & F' & _). rewrite F', F. reflexivity. }
  rewrite F in Hb'. clear - Hb Hb' K.
  assert (A : m_mink D7 [] = Ok (BMesh [world] [post])).
  { unfold D7, m_mink. assert (Z : fltb (nth 3 [] fzero) (fdiv fone ftwo) = true) by (vm_compute; reflexivity). rewrite Z. reflexivity. }
  assert (B : m_mink D7 (m_move D7 rb ([fofZ 0; fofZ 0; fofZ 0] ++ quat_list (w, x, y, z))) = Ok (BMesh [world] [wall])).
  { unfold D7, m_mink, m_move, quat_list. cbn [app nth]. rewrite K. reflexivity. }
  rewrite A in Hb'. rewrite B in Hb. rewrite <- Hb' in Hb. assert (Q : fofZ (-5) = fofZ 30).
  { pose proof (f_equal (fun o => match o with Ok m => match mobstacle m with m :: _ => match mverts m with _ :: v :: _ => vx v | _ => fnan end | _ => fnan end | _ => fnan end) Hb) as Q.
    symmetry. exact Q. }
  apply fsame_eq in Q. assert (Z : fsame (fofZ (-5)) (fofZ 30) = false) by (vm_compute; reflexivity). congruence.
Qed.
Print Assumptions C58_boundary_at_orientation_refuted.

(** C59: the reference orientation of a query is an uninitialised quaternion unless
    some sample is strictly closer than the first.  If reading it is undefined:
    ProbHRM3D never returns from any call ... *)
Theorem C59_prob_never_returns : forall (E : env3) (s : state3 E), m_prob E = true -> m_uninit E = (fun _ _ => UB) -> reachable3 E s ->
  forall d ds x, plan_prob E d ds s <> Ok x.
Proof. intros E s P U H. apply (prob_never_returns E s P U H). Qed.
Print Assumptions C59_prob_never_returns.

(** ... and HRM3D returns only if start and goal are each closer to another sample
    than to the first. *)
Theorem C59_needs_a_closer_sample : forall (E : env3) rq rounds (s s' : state3 E) r v, m_prob E = false -> reachable3 E s ->
  m_uninit E = (fun _ _ => UB) -> plan3 E rq rounds s = Ok (s', r) -> (v = m_start E \/ v = m_goal E) ->
  exists qq q0 q, get_quat F64 v = Ok qq /\ nth_error (q_quats s') 0 = Some q0 /\ In q (q_quats s') /\
    fltb (m_qdist E qq q) (m_qdist E qq q0) = true.
Proof. exact plan3_closer. Qed.
Print Assumptions C59_needs_a_closer_sample.

Lemma P2_built : (match construct3 P2 [] 0 2 2 1 1 with Ok _ => true | _ => false end) = true.
Proof. vm_compute. reflexivity. Qed.
Example C59_witness : runp P2 [] 2 2 (dr qa) [dr qa; dr qb] = UB /\ run3 D3 [] 2 2 2 [] = UB /\
  (exists s, reachable3 P2 s) /\
  (exists s0 s r, reachable3 D4 s0 /\ m_uninit D4 = (fun _ _ => UB) /\ plan3 D4 (fun _ => qa) [] s0 = Ok (s, Some r)).
Proof.
  split; [exact P2_UB|]. split; [exact D3_UB|]. split.
  - pose proof P2_built as K. destruct (construct3 P2 [] 0 2 2 1 1) as [s| |] eqn:Q; [exists s; eapply reach3_new; exact Q|discriminate K..].
  - destruct (view3_inv _ _ _ _ _ _ _ _ D4_view) as (s & r & H & _ & _ & _ & _ & _ & L). apply run3_construct in H. destruct H as (s0 & H0 & H).
    destruct r as [r|]; [|discriminate L]. exists s0, s, r. split; [eapply reach3_new; exact H0|]. split; [reflexivity|exact H].
Qed.

(** C60: settings no call survives. *)
Theorem C60_articulated_hrm3d_throws : forall (E : env3) rq rounds (s : state3 E), m_prob E = false -> m_rigid E = false -> reachable3 E s ->
  (m_samples E <> [] \/ 0 < q_numSlice s) -> plan3 E rq rounds s = Throw OutOfRange.
Proof. exact plan3_not_rigid. Qed.
Print Assumptions C60_articulated_hrm3d_throws.

Theorem C60_rigid_prob_never_returns : forall (E : env3) d ds (s : state3 E), m_prob E = true -> m_rigid E = true -> 0 < m_dof E ->
  (forall x, plan_prob E d ds s <> Ok x) /\
  (q_quats s = [] -> 7 + m_dof E <= length (m_start E) -> plan_prob E d ds s = UB).
Proof. intros E d ds s. apply plan_prob_rigid. Qed.
Print Assumptions C60_rigid_prob_never_returns.

Example C60_witness : run3 D5 [] 2 2 2 [] = Throw OutOfRange /\ m_rigid D5 = false /\ m_samples D5 <> [] /\
  runp P3 [] 2 2 (dr qa) [dr qa; dr qb] = UB /\ m_rigid P3 = true /\ 0 < m_dof P3 /\ 7 + m_dof P3 <= length (m_start P3).
Proof.
  split; [exact D5_throw|]. split; [reflexivity|]. split; [discriminate|]. split; [exact P3_UB|]. split; [reflexivity|]. split; [cbn; lia|]. vm_compute. lia.
Qed.

(** C61: both line counts must be positive, and a single line is at NaN. *)
Theorem C61_lines_required : forall (E : env3) (s s' : state3 E) r,
  ((exists rq rounds, plan3 E rq rounds s = Ok (s', r)) \/ (exists d ds, plan_prob E d ds s = Ok (s', r))) ->
  0 < q_numLineX s /\ 0 < q_numLineY s.
Proof. intros E s s' r [(rq & rounds & H)|(d & ds & H)]; [eapply plan3_lines; exact H|eapply plan_prob_lines; exact H]. Qed.
Print Assumptions C61_lines_required.

Theorem C61_one_line_is_nan : forall lo hi, exists y, grid 1 lo hi = [y] /\ fisnan y = true.
Proof. intros lo hi. rewrite grid_sweep by (cbn; lia). apply sweep_one. Qed.
Print Assumptions C61_one_line_is_nan.

Theorem C61_grid_spacing : forall k lo hi, 2 <= k -> (Z.of_nat k <= 2 ^ 53)%Z -> fisfin lo = true -> fisfin hi = true ->
  (Rabs (fval lo) <= bpow radix2 898)%R -> (Rabs (fval hi) <= bpow radix2 898)%R -> (fval lo <= fval hi)%R ->
  length (grid k lo hi) = k /\
  exists d, d = rnd64 (rnd64 (fval hi - fval lo) / (INR k - 1)) /\ (0 <= d)%R /\
  forall i y, nth_error (grid k lo hi) i = Some y ->
    fisfin y = true /\ fval y = rnd64 (fval lo + rnd64 (INR i * d)).
Proof. intros k lo hi H1 H2 F1 F2 B1 B2 L. split; [apply grid_length|]. rewrite grid_sweep by exact H2. apply sweep_spec; assumption. Qed.
Print Assumptions C61_grid_spacing.
Example C61_hyp : (exists s0 s r, plan3 D1 (fun _ => qa) [] s0 = Ok (s, Some r)) /\
  fisfin (fofZ (-10)) = true /\ (fval (fofZ (-10)) <= fval (fofZ 10))%R /\ (Rabs (fval (fofZ (-10))) <= bpow radix2 898)%R.
Proof.
  split; [destruct D1_run as (s0 & s & path & _ & H & _); exists s0, s, (path, path); exact H|].
  split; [apply fofZ_fin; lia|]. rewrite !fofZ_val by lia. split; [lra|].
  rewrite Rabs_left by lra. rewrite bpow_R by lia. apply Rle_trans with (IZR (2 ^ 4)); [cbn; lra|]. apply IZR_le. lia.
Qed.

(** C63: the interpolated path of ProbHRM3D: a block of poses per pair of
    neighbouring path poses, block i with n_i steps, n_i the distance over the mean
    step, truncated. *)
Theorem C63_blocks : forall (E : env3) cost num path l, interpolated_path3 E cost num path = Ok l ->
  path <> [] /\ exists blocks, l = concat blocks /\ length blocks = length path - 1 /\
    forall i bl, nth_error blocks i = Some bl -> exists a b n, nth_error path i = Some a /\ nth_error path (i + 1) = Some b /\
      block_steps cost num path i n /\ interpolate_compound F64 (m_slerp E) a b n = Ok bl.
Proof. exact interp_shape. Qed.
Print Assumptions C63_blocks.

(** The step is zero when the reported cost is zero: converting the quotient to int is
    undefined, so such a call never returns. *)
Theorem C63_zero_cost_is_undefined : forall (E : env3) num a b path d, vec_euclid F64 a b = Ok d ->
  interpolated_path3 E (fofZ 0) num (a :: b :: path) = UB.
Proof. exact interp_zero_UB. Qed.
Print Assumptions C63_zero_cost_is_undefined.

(** In particular a first call of ProbHRM3D whose start and goal attach to one roadmap
    vertex does not return: a returned path has two or more roadmap vertices. *)
Theorem C63_one_vertex_never_returns : forall (E : env3) robot nS nx ny nA nO d ds (s s' : state3 E) path ip, m_prob E = true ->
  construct3 E robot nS nx ny nA nO = Ok s -> plan_prob E d ds s = Ok (s', Some (path, ip)) ->
  tame (q_graph s') -> astar_from_boost (m_astar E) -> 2 <= length (s_path (q_sol s')) /\ 4 <= length path.
Proof.
  intros E robot nS nx ny nA nO d ds s s' path ip P H0 H T B. pose proof (prob_two_vertices E P _ _ _ _ _ _ _ _ _ _ _ _ H0 H T B) as L. split; [exact L|].
  apply plan_prob_result in H. destruct H as [[_ H]|(_ & p' & ip' & Q & Sp & _)]; [discriminate H|].
  assert (p' = path) as -> by (injection Q; auto). apply solution_path_spec in Sp. destruct Sp as (v0 & ms & _ & -> & F).
  cbn [length]. rewrite app_length. cbn [length]. apply Forall2_same_len in F. lia.
Qed.
Print Assumptions C63_one_vertex_never_returns.

Lemma demo_cases g s t : demo_astar g s t = None \/ boost_astar first_top 100 g s t = Some (demo_astar g s t).
Proof. unfold demo_astar. destruct (boost_astar first_top 100 g s t) as [r|]; [right|left]; reflexivity. Qed.
Lemma demo_from_boost : astar_from_boost demo_astar.
Proof.
  intros g s t p H. exists first_top, 100. split; [exact first_top_ok|].
  destruct (demo_cases g s t) as [N|N]; rewrite H in N; [discriminate N|exact N].
Qed.
(** A block can contain a pose that is not a number although path and cost are finite. *)
Definition short_path : list pose := [zpose3 0 0 0 (1, 0, 0, 0)%Z; zpose3 1 0 0 (1, 0, 0, 0)%Z].
Lemma short_nan : (match interpolated_path3 D1 (fofZ 100) 1 short_path with
  | Ok [v] => fisnan (nth 0 v fzero) | _ => false end) = true.
Proof. vm_compute. reflexivity. Qed.
Lemma short_finite : forallb (forallb fisfin) short_path = true.
Proof. vm_compute. reflexivity. Qed.
Theorem C63_poses_are_numbers_refuted :
  ~ (forall (E : env3) cost num path l, fisfin cost = true -> 1 <= num -> Forall (Forall (fun x => fisfin x = true)) path ->
       interpolated_path3 E cost num path = Ok l -> forall v, In v l -> fisnan (nth 0 v fzero) = false).
Proof.
  intros H. pose proof short_nan as K. destruct (interpolated_path3 D1 (fofZ 100) 1 short_path) as [[|v [|? ?]]| |] eqn:Q; try discriminate K.
  assert (F : Forall (Forall (fun x => fisfin x = true)) short_path).
  { apply Forall_forall. intros v' Hv. apply Forall_forall. intros x Hx.
    pose proof (proj1 (forallb_forall _ _) short_finite v' Hv) as G. exact (proj1 (forallb_forall _ _) G x Hx). }
  assert (C : fisfin (fofZ 100) = true) by (apply fofZ_fin; lia).
  specialize (H D1 (fofZ 100) 1 short_path [v] C ltac:(lia) F Q v (or_introl eq_refl)). cbv iota beta in K. rewrite H in K. discriminate K.
Qed.
Print Assumptions C63_poses_are_numbers_refuted.
Example C63_hyp : exists s0 s path ip, construct3 P1 [] 0 2 2 1 1 = Ok s0 /\ plan_prob P1 (dr qa) [dr qa; dr qb] s0 = Ok (s, Some (path, ip)) /\
  tame (q_graph s) /\ astar_from_boost (m_astar P1) /\ length (s_path (q_sol s)) = 4.
Proof.
  destruct P1_run as (s0 & s & path & ip & H0 & H & _ & _ & _ & Pa & _ & _ & _ & T & _). exists s0, s, path, ip.
  split; [exact H0|]. split; [exact H|]. split; [exact T|]. split; [exact demo_from_boost|rewrite Pa; reflexivity].
Qed.

(** C64: the free-segment query of a planner that has not planned ignores the boundary
    it is given; after planning the boundary must have at least as many meshes as the
    planner's own. *)
Theorem C64_fresh_query_ignores_boundary : forall (E : env3) robot nS nx ny nA nO bd bd' (s : state3 E), construct3 E robot nS nx ny nA nO = Ok s ->
  match free_segment_one_slice E bd s, free_segment_one_slice E bd' s with
  | Ok (_, segs), Ok (_, segs') => segs = segs'
  | Throw e, Throw e' => e = e'
  | UB, UB => True
  | _, _ => False
  end.
Proof. exact free_segment_fresh. Qed.
Print Assumptions C64_fresh_query_ignores_boundary.

Theorem C64_query_needs_meshes : forall (E : env3) bd (s s' : state3 E) segs, free_segment_one_slice E bd s = Ok (s', segs) ->
  0 < q_numLineX s -> q_nA s <= length (marena bd) /\ q_nO s <= length (mobstacle bd).
Proof. exact free_segment_needs_meshes. Qed.
Print Assumptions C64_query_needs_meshes.

(** What the query returns: the segments for the meshes given; roadmap and result stay. *)
Theorem C64_query_segments : forall (E : env3) bd (s s' : state3 E) segs, free_segment_one_slice E bd s = Ok (s', segs) ->
  slice_segments3 E s s' segs /\ q_fsmesh s' = bd /\ q_graph s' = q_graph s /\ q_vidx s' = q_vidx s /\ q_sol s' = q_sol s.
Proof. intros E bd s s' segs H. apply free_segment3_inv in H. destruct H as (t & -> & _ & S). auto. Qed.
Print Assumptions C64_query_segments.

Definition seg_counts (o : outcome (state3 D1 * freeseg3)) : list nat :=
  match o with Ok (_, segs) => flat_map (fun p => map (@length f64) (fxM (snd p))) segs | _ => [] end.
Lemma fresh_query : seg_counts (obind (construct3 D1 [] 2 2 2 1 1) (free_segment_one_slice D1 (BMesh [world] [post]))) = [1; 1; 1; 1].
Proof. vm_compute. reflexivity. Qed.
Lemma planned_query : seg_counts (obind (run3 D1 [] 2 2 2 []) (fun p => free_segment_one_slice D1 (BMesh [world] [post]) (fst p))) = [2; 3; 1; 1].
Proof. vm_compute. reflexivity. Qed.
Example C64_witness :
  seg_counts (obind (construct3 D1 [] 2 2 2 1 1) (free_segment_one_slice D1 (BMesh [world] [post]))) = [1; 1; 1; 1] /\
  seg_counts (obind (run3 D1 [] 2 2 2 []) (fun p => free_segment_one_slice D1 (BMesh [world] [post]) (fst p))) = [2; 3; 1; 1].
Proof. split; [exact fresh_query|exact planned_query]. Qed.

(** C65: a path returned by the first call is a roadmap walk between neighbours of
    start and goal, framed by start and goal; its cost is the sum the code forms. *)
Theorem C65_hrm3d_path : forall (E : env3) robot nS nx ny nA nO rq rounds (s0 s : state3 E) path ipath, m_prob E = false ->
  construct3 E robot nS nx ny nA nO = Ok s0 -> plan3 E rq rounds s0 = Ok (s, Some (path, ipath)) ->
  tame (q_graph s) -> astar_is_boost (q_graph s) (m_astar E) ->
  exists ss ts a b ids poses v0,
    nearest_neighbors3 E s (m_start E) (m_numNeighbor E) (m_radius E) = Ok ss /\
    nearest_neighbors3 E s (m_goal E) (m_numNeighbor E) (m_radius E) = Ok ts /\
    In a ss /\ In b ts /\ ids = s_path (q_sol s) /\ walk_between (q_graph s) b a ids /\
    length ids <= length (gvert (q_graph s)) /\
    Forall2 (fun i v => nth_error (gvert (q_graph s)) i = Some v) ids poses /\
    nth_error (gvert (q_graph s)) 0 = Some v0 /\
    path = resize_pose (m_start E) (length v0) :: poses ++ [resize_pose (m_goal E) (length v0)].
Proof.
  intros E robot nS nx ny nA nO rq rounds s0 s path ipath P H0 H T B. apply (construct3_inv E eq) in H0. destruct H0 as (I & _).
  assert (W : well_formed (q_graph s)) by (destruct (plan3_keep E P _ _ _ _ _ I H) as (_ & _ & _ & _ & I' & _); exact (k_wf _ _ _ I')).
  destruct (plan3_search E _ _ _ _ _ P I H (boost_astar_sound _ _ W T B)) as (ss & ts & N1 & N2 & a & b & Ha & Hb & [Wk Le] & Sp & _).
  cbn [option_map fst] in Sp. apply solution_path_spec in Sp. destruct Sp as (v0 & ms & V0 & -> & F).
  exists ss, ts, a, b, (s_path (q_sol s)), ms, v0. auto 15.
Qed.
Print Assumptions C65_hrm3d_path.

Theorem C65_hrm3d_unsolved : forall (E : env3) robot nS nx ny nA nO rq rounds (s0 s : state3 E), m_prob E = false ->
  construct3 E robot nS nx ny nA nO = Ok s0 -> plan3 E rq rounds s0 = Ok (s, None) ->
  tame (q_graph s) -> astar_is_boost (q_graph s) (m_astar E) ->
  exists ss ts, nearest_neighbors3 E s (m_start E) (m_numNeighbor E) (m_radius E) = Ok ss /\
    nearest_neighbors3 E s (m_goal E) (m_numNeighbor E) (m_radius E) = Ok ts /\
    forall a b, In a ss -> In b ts -> ~ connected (q_graph s) a b.
Proof.
  intros E robot nS nx ny nA nO rq rounds s0 s P H0 H T B. apply (construct3_inv E eq) in H0. destruct H0 as (I & _).
  assert (W : well_formed (q_graph s)) by (destruct (plan3_keep E P _ _ _ _ _ I H) as (_ & _ & _ & _ & I' & _); exact (k_wf _ _ _ I')).
  destruct (plan3_search E _ _ _ _ _ P I H (boost_astar_sound _ _ W T B)) as (ss & ts & N1 & N2 & Q).
  exists ss, ts. split; [exact N1|]. split; [exact N2|]. intros a b Ha Hb.
  destruct (nearest_neighbors3_full E _ _ _ _ _ N1) as (q11 & q21 & q31 & _ & _ & _ & _ & B1).
  destruct (nearest_neighbors3_full E _ _ _ _ _ N2) as (q12 & q22 & q32 & _ & _ & _ & _ & B2).
  apply (boost_astar_complete _ _ W T B).
  - destruct (B1 _ Ha) as (w & q & Hw & _). apply nth_error_Some. rewrite Hw. discriminate.
  - destruct (B2 _ Hb) as (w & q & Hw & _). apply nth_error_Some. rewrite Hw. discriminate.
  - apply Q; auto.
Qed.
Print Assumptions C65_hrm3d_unsolved.

Theorem C65_prob_path : forall (E : env3) robot nS nx ny nA nO d ds (s0 s : state3 E) path ipath, m_prob E = true ->
  construct3 E robot nS nx ny nA nO = Ok s0 -> plan_prob E d ds s0 = Ok (s, Some (path, ipath)) ->
  tame (q_graph s) -> astar_from_boost (m_astar E) ->
  exists ss ts a b ids poses v0,
    nearest_neighbors3 E s (m_start E) (m_numNeighbor E) (m_radius E) = Ok ss /\
    nearest_neighbors3 E s (m_goal E) (m_numNeighbor E) (m_radius E) = Ok ts /\
    In a ss /\ In b ts /\ ids = s_path (q_sol s) /\ walk_between (q_graph s) b a ids /\
    length ids <= length (gvert (q_graph s)) /\
    Forall2 (fun i v => nth_error (gvert (q_graph s)) i = Some v) ids poses /\
    nth_error (gvert (q_graph s)) 0 = Some v0 /\
    path = resize_pose (m_start E) (length v0) :: poses ++ [resize_pose (m_goal E) (length v0)] /\
    interpolated_path3 E (s_cost (q_sol s)) (m_numPoint E) path = Ok ipath.
Proof.
  intros E robot nS nx ny nA nO d ds s0 s path ipath P H0 H T B.
  destruct (prob_path E P _ _ _ _ _ _ _ _ _ _ _ H0 H T B) as (ss & ts & N1 & N2 & a & b & Ha & Hb & [Wk Le] & Sp & _).
  cbn [option_map fst] in Sp. pose proof Sp as Sp0. apply solution_path_spec in Sp. destruct Sp as (v0 & ms & V0 & Pq & F).
  apply plan_prob_result in H. destruct H as [[_ H]|(_ & p' & ip' & Q & Sp' & Ip)]; [discriminate H|].
  assert (p' = path /\ ip' = ipath) as [-> ->] by (injection Q; auto).
  exists ss, ts, a, b, (s_path (q_sol s)), ms, v0. auto 15.
Qed.
Print Assumptions C65_prob_path.

Example C65_hyp : exists s0 s path, construct3 D1 [] 2 2 2 1 1 = Ok s0 /\ plan3 D1 (fun _ => qa) [] s0 = Ok (s, Some (path, path)) /\
  length path = 6 /\ tame (q_graph s) /\ astar_is_boost (q_graph s) (m_astar D1).
Proof. destruct D1_run as (s0 & s & p & H0 & H & _ & _ & L & _ & _ & _ & _ & T & B). exists s0, s, p. auto. Qed.
Example C65_hyp_unsolved : exists s0 s, construct3 D2 [] 1 2 2 1 1 = Ok s0 /\ plan3 D2 (fun _ => qa) [] s0 = Ok (s, None) /\
  tame (q_graph s) /\ astar_is_boost (q_graph s) (m_astar D2).
Proof. destruct D2_run as (s0 & s & H0 & H & _ & _ & T & B). exists s0, s. auto. Qed.

(** C66: the neighbour query. *)
Theorem C66_neighbours : forall (E : env3) (s : state3 E) v k radius l, nearest_neighbors3 E s v k radius = Ok l ->
  exists qq q0 m, get_quat F64 v = Ok qq /\ nth_error (q_quats s) 0 = Some q0 /\
    ((In m (q_quats s) /\ fltb (m_qdist E qq m) (m_qdist E qq q0) = true /\ forall q, In q (q_quats s) -> fltb (m_qdist E qq q) (m_qdist E qq m) = false) \/
     ((forall q, In q (q_quats s) -> fltb (m_qdist E qq q) (m_qdist E qq q0) = false) /\ m_uninit E (q_graph s) v = Ok m)) /\
    length l <= Nat.max 1 k /\
    forall i, In i l -> exists w q,
      nth_error (gvert (q_graph s)) i = Some w /\ window_of E s radius v w /\ In q (q_quats s) /\ fltb (m_qdist E m q) radius = true /\
      nearest_vertex E (gvert (q_graph s)) v q = Ok i.
Proof. exact nearest_neighbors3_full. Qed.
Print Assumptions C66_neighbours.

(** Nothing is left out: the answer is the list of the nearest vertices for the first [k]
    orientations within the radius of [m], without those outside the window. *)
Theorem C66_neighbours_exactly : forall (E : env3) (s : state3 E) v k radius l, nearest_neighbors3 E s v k radius = Ok l ->
  exists qq q0 m, get_quat F64 v = Ok qq /\ nth_error (q_quats s) 0 = Some q0 /\
    ((In m (q_quats s) /\ fltb (m_qdist E qq m) (m_qdist E qq q0) = true /\ forall q, In q (q_quats s) -> fltb (m_qdist E qq q) (m_qdist E qq m) = false) \/
     ((forall q, In q (q_quats s) -> fltb (m_qdist E qq q) (m_qdist E qq q0) = false) /\ m_uninit E (q_graph s) v = Ok m)) /\
    attached E s radius v (first_near E m radius k (q_quats s)) l.
Proof. exact nearest_neighbors3_attached. Qed.
Print Assumptions C66_neighbours_exactly.

(** For each accepted orientation: the closest vertex with that orientation, or vertex
    0 when no vertex has it. *)
Theorem C66_nearest_vertex : forall (E : env3) vs v q i, nearest_vertex E vs v q = Ok i ->
  (exists d, oriented E vs q i /\ at_distance vs v i d /\ fltb d finf = true /\
     forall j e, oriented E vs q j -> at_distance vs v j e -> fltb e d = false) \/
  (i = 0 /\ forall j e, oriented E vs q j -> at_distance vs v j e -> fltb e finf = false).
Proof. exact nearest_vertex_spec. Qed.
Print Assumptions C66_nearest_vertex.

(** So the returned vertex need not have the orientation asked for. *)
Lemma other_vertex : (match nearest_vertex D1 [zpose3 0 0 0 (1, 0, 0, 0)%Z] (zpose3 1 0 0 (0, 1, 0, 0)%Z) qb with Ok i => Nat.eqb i 0 | _ => false end &&
  negb (fltb (demo_qdist qb qa) cEPS))%bool = true.
Proof. vm_compute. reflexivity. Qed.
Theorem C66_vertex_has_orientation_refuted :
  ~ (forall (E : env3) vs v q i, vs <> [] -> nearest_vertex E vs v q = Ok i -> oriented E vs q i).
Proof.
  intros H. pose proof other_vertex as K. apply andb_prop in K. destruct K as [K1 K2].
  set (w := zpose3 0 0 0 (1, 0, 0, 0)%Z) in *. set (v := zpose3 1 0 0 (0, 1, 0, 0)%Z) in *.
  destruct (nearest_vertex D1 [w] v qb) as [i| |] eqn:Q; [|discriminate K1..]. apply Nat.eqb_eq in K1. subst i.
  destruct (H D1 [w] v qb 0 ltac:(discriminate) Q) as (w' & qw & Hw & Hq & L). cbn [nth_error] in Hw.
  assert (w' = w) by (clear - Hw; revert Hw; generalize w; intros z Hz; injection Hz; auto). subst w'.
  assert (G : get_quat F64 w = Ok qa) by exact (eq_refl (Ok qa)). rewrite G in Hq.
  assert (qw = qa) by (clear - Hq; revert Hq; generalize qa; intros z Hz; injection Hz; auto). subst qw.
  change (m_qdist D1 qb qa) with (demo_qdist qb qa) in L. rewrite L in K2. discriminate K2.
Qed.
Print Assumptions C66_vertex_has_orientation_refuted.

Example C66_hyp : exists s l, reachable3 D1 s /\ nearest_neighbors3 D1 s (m_start D1) (m_numNeighbor D1) (m_radius D1) = Ok l /\ l <> [].
Proof.
  destruct D1_run as (s0 & s & p & H0 & H & _ & R & _ & _ & _ & _ & _ & T & B). exists s.
  destruct (C65_hrm3d_path D1 _ _ _ _ _ _ _ _ _ _ _ _ eq_refl H0 H T B) as (ss & ts & a & b & _ & _ & _ & N & _ & Ha & _).
  exists ss. split; [exact R|]. split; [exact N|]. intros ->. destruct Ha.
Qed.

(** C67: calling ProbHRM3D::plan again after a success: one more slice, and a path is
    reported whatever the new search finds. *)
Theorem C67_replan_reports_a_path : forall (E : env3) d ds (s s' : state3 E) r, m_prob E = true -> reachable3 E s ->
  s_solved (q_sol s) = true -> plan_prob E d ds s = Ok (s', r) ->
  length (q_vidx s') = length (q_vidx s) + 1 /\ q_numSlice s' = 1 /\ exists path ip, r = Some (path, ip).
Proof.
  intros E d ds s s' r P H Sv Hp. apply reachable3_inv in H. destruct H as [I L].
  eapply (plan_prob_stale E (fun _ _ => True)); [exact P|eapply inv3_weaken; [|exact I]; auto|auto|auto|exact Sv|exact Hp].
Qed.
Print Assumptions C67_replan_reports_a_path.

(** If the new search starts at the first vertex of the stored path, its reported cost
    is zero and (C63) the call does not return. *)
Theorem C67_stale_search_costs_nothing : forall astar g a b p x rest cost, astar g a b = Some p -> x = a ->
  try_pair astar g a b (Sol true (x :: rest) cost) = Ok (Sol true (rev (x :: rest ++ [b])) (fofZ 0), true).
Proof.
  intros astar g a b p x rest cost A ->. unfold try_pair. rewrite A. cbn [s_path s_solved app].
  replace (length (gvert g) + 1) with (S (length (gvert g))) by lia. cbn [walk]. unfold idx at 1. cbn [nth_error obind].
  rewrite Nat.eqb_refl. cbn [obind]. reflexivity.
Qed.
Print Assumptions C67_stale_search_costs_nothing.

Example C67_hyp : exists s s' r, m_prob P4 = true /\ reachable3 P4 s /\ s_solved (q_sol s) = true /\
  plan_prob P4 (dr qa) [dr qa] s = Ok (s', r) /\ s_path (q_sol s') = s_path (q_sol s) /\ length (s_path (q_sol s)) = 3.
Proof.
  destruct (view3_inv _ _ _ _ _ _ _ _ P4_view) as (s & r & H & _ & _ & _ & Sv & Pa & _).
  pose proof P4_view2 as K. rewrite H in K. cbn [obind fst] in K.
  destruct (view3_inv _ _ _ _ _ _ _ _ K) as (s' & r' & H' & _ & _ & _ & _ & Pa' & _).
  exists s, s', r'. split; [reflexivity|]. split; [eapply runp_reachable; [reflexivity|exact H]|]. split; [exact Sv|]. split; [exact H'|].
  rewrite Pa, Pa'. split; reflexivity.
Qed.
