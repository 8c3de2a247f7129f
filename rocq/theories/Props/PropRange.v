(** C98: the coordinates of planar roadmaps stay next to the workspace, so that in ordinary scenes the
    answers of the planner are exact (src/planners/HRM2D.cpp, FreeSpace-inl.h, HighwayRoadMap-inl.h). *)
From Coq Require Import List Reals ZArith Arith Bool Lia Lra.
From Flocq Require Import Core.Core.
From Verif.Base Require Import Outcome Float64 FloatFacts.
From Verif.Model Require Import MScalar MInterval MLine2D MInterp MGraph MSearch MHRM2D MHRM3D MAStar.
From Verif.Spec Require Import SInterval SLine2D SGraph SSearch SShort SPlanner2D SPlanner3D SClear SHline SRange.
From Verif.Proofs Require Import PInterval PPlan2D PPlan2DY PSampling PHRM2DW PHline PHlineX PRange PRange3 PHRM3DW PClearX PRangeX.
From Verif.Props Require Import PropPlanner2D PropSearch PropPlanner3D PropShort.
Import ListNotations.
Local Open Scope R_scope.

(** C98: after any planning calls, the abscissa of a vertex exceeds those of the workspace and the
    arena's boundaries at most by the error of a crossing, the ordinate is between the limits, up to
    a few roundings, and the heading is the one the robot shows in one of the slices. *)
Theorem C98_vertices_in_range : forall (E : env) robot fsr nx ny s0 s l0 l1 l2 l3 M L,
  let B := e_mink E fsr in
  conforming (e_sort E) -> plain_workspace E B ny l0 l1 l2 l3 M L ->
  construct E robot fsr nx ny (length (barena B)) (length (bobstacle B)) = Ok s0 -> planned E s0 s ->
  forall v, In v (gvert (p_graph s)) -> exists x y r k,
    v = [x; y; e_angle E (e_move E r (fofZ 0) (fofZ 0) (heading E k))] /\ (k < e_numSlice E)%nat /\
    fisnan x = false /\ fisfin y = true /\ Rabs (fval x) <= M + hit_error M /\
    fval l2 <= fval y <= fval l3 + (bpow radix2 (-49) * L + bpow radix2 (-1020)).
Proof.
  intros E robot fsr nx ny s0 s l0 l1 l2 l3 M L B Hs (Lm & N1 & N2 & K0 & K1 & K2 & K3 & L23 & M0 & M1 & L2 & L3 & MP) C Pl v Hv.
  destruct (planar_range E robot fsr nx ny s0 s l0 l1 l2 l3 M L Hs Lm N1 N2 K0 K1 K2 K3 L23 MP M0 M1 L2 L3 C Pl v Hv) as (x & y & h & Ev & Nx & Fy & Bx & By).
  pose proof (reachable_planned E s0 s (reach_new E _ _ _ _ _ _ _ C) Pl) as R.
  apply In_nth_error in Hv. destruct Hv as [a Ha]. assert (La : (a < length (gvert (p_graph s)))%nat) by (apply nth_error_Some; rewrite Ha; discriminate).
  destruct (C20_one_slice_each E s R a La) as (k & w & Hk & Ra & _).
  destruct (C19_vertices_of_slices E s R k w a Hk Ra) as (p & Hp & (r & x' & y' & l2' & l3' & Ep & _)).
  rewrite Ha in Hp. injection Hp as <-. rewrite Ev in Ep. injection Ep as -> -> Eh.
  exists x', y', r, (k mod e_numSlice E)%nat. split; [rewrite Ev, Eh; reflexivity|]. split.
  { apply Nat.mod_upper_bound. intros Z. destruct (C20_ranges_partition E s R) as [_ (m & Q)]. rewrite Z, Nat.mul_0_r in Q.
    destruct (p_vidx s); [destruct k; discriminate Hk|discriminate Q]. }
  auto.
Qed.
Print Assumptions C98_vertices_in_range.

(** So the hypothesis on the roadmap under which C28, C29, C51 and C84 speak about the planner is met
    by every roadmap of a workspace of size at most 2^299 with at most 2^53 vertices. *)
Theorem C98_roadmap_is_tame : forall (E : env) robot fsr nx ny s0 s l0 l1 l2 l3 M L,
  let B := e_mink E fsr in
  conforming (e_sort E) -> plain_workspace E B ny l0 l1 l2 l3 M L -> M <= bpow radix2 299 -> L <= bpow radix2 299 -> plain_headings E ->
  construct E robot fsr nx ny (length (barena B)) (length (bobstacle B)) = Ok s0 -> planned E s0 s ->
  (Z.of_nat (length (gvert (p_graph s))) <= 2 ^ 53)%Z -> tame (p_graph s).
Proof.
  intros E robot fsr nx ny s0 s l0 l1 l2 l3 M L B Hs W HM HL PH C Pl Len. split; [exact Len|]. intros v Hv.
  destruct (C98_vertices_in_range E robot fsr nx ny s0 s l0 l1 l2 l3 M L Hs W C Pl v Hv) as (x & y & r & k & -> & Hk & Nx & Fy & Bx & By).
  split; [cbn [length]; lia|]. destruct (PH r k Hk) as [Fa Ba].
  destruct W as (_ & _ & _ & _ & _ & _ & _ & _ & _ & _ & L2 & L3 & _).
  exact (pose_bounds x y (e_angle E (e_move E r (fofZ 0) (fofZ 0) (heading E k))) l2 l3 M L HM HL Nx Fy Bx By L2 L3 Fa Ba).
Qed.
Print Assumptions C98_roadmap_is_tame.

(** The first planning call in such a scene: a reported path is a walk of the roadmap, nearly
    shortest between its ends (C84); no path means that start and goal are not connected. *)
Theorem C98_first_plan_exact : forall (E : env) robot fsr nx ny rounds s0 s r l0 l1 l2 l3 M L,
  let B := e_mink E fsr in
  conforming (e_sort E) -> plain_workspace E B ny l0 l1 l2 l3 M L -> M <= bpow radix2 299 -> L <= bpow radix2 299 -> plain_headings E ->
  construct E robot fsr nx ny (length (barena B)) (length (bobstacle B)) = Ok s0 ->
  plan E (connect_multi E) rounds s0 = Ok (s, r) ->
  (Z.of_nat (length (gvert (p_graph s))) <= 2 ^ 41)%Z -> astar_is_boost (p_graph s) (e_astar E) ->
  exists ss ts, nearest_neighbors E s (e_start E) (e_numNeighbor E) (e_radius E) = Ok ss /\
    nearest_neighbors E s (e_goal E) (e_numNeighbor E) (e_radius E) = Ok ts /\
    ((r = None /\ forall a b, In a ss -> In b ts -> ~ connected (p_graph s) a b) \/
     (exists path ipath a b ids poses v0, r = Some (path, ipath) /\ In a ss /\ In b ts /\ ids = s_path (p_sol s) /\
        nearly_shortest (p_graph s) 3 a b ids /\
        Forall2 (fun i v => nth_error (gvert (p_graph s)) i = Some v) ids poses /\ nth_error (gvert (p_graph s)) 0 = Some v0 /\
        path = resize_pose (e_start E) (length v0) :: poses ++ [resize_pose (e_goal E) (length v0)])).
Proof.
  intros E robot fsr nx ny rounds s0 s r l0 l1 l2 l3 M L B Hs W HM HL PH C Pl Len Bo.
  assert (T : tame (p_graph s)).
  { apply (C98_roadmap_is_tame E robot fsr nx ny s0 s l0 l1 l2 l3 M L Hs W HM HL PH C); [|lia].
    exact (planned_plan _ _ _ _ _ _ (planned_0 _ _) Pl). }
  destruct r as [[path ipath]|].
  - destruct (C28_path_is_a_roadmap_walk E robot fsr nx ny _ _ rounds s0 s path ipath C Pl T Bo) as (ss & ts & _ & _ & ids & poses & v0 & H1 & H2 & _ & _ & Ei & _ & _ & F & V0 & Ep).
    destruct (C84_planar_path_nearly_shortest E robot fsr nx ny _ _ rounds s0 s path ipath C Pl T Bo Len) as (ss' & ts' & a & b & H1' & H2' & Ia & Ib & Ns).
    rewrite H1 in H1'. injection H1' as <-. rewrite H2 in H2'. injection H2' as <-.
    exists ss, ts. split; [exact H1|]. split; [exact H2|]. right. exists path, ipath, a, b, ids, poses, v0. rewrite Ei in *. auto 10.
  - destruct (C28_unsolved_means_disconnected E robot fsr nx ny _ _ rounds s0 s C Pl T Bo) as (ss & ts & H1 & H2 & N). exists ss, ts. auto.
Qed.
Print Assumptions C98_first_plan_exact.

(** The hypothesis on the headings holds whenever the robot shows the heading it was given. *)
Theorem C98_headings_plain : forall E : env, (2 <= e_numSlice E)%nat -> (Z.of_nat (e_numSlice E) <= 2 ^ 53)%Z ->
  (forall r h, e_angle E (e_move E r (fofZ 0) (fofZ 0) h) = h) -> plain_headings E.
Proof. exact headings_plain. Qed.
Print Assumptions C98_headings_plain.

(** The wall scene, with and without free motions between the slices: a path of seven poses, none. *)
Example C98_hyp : exists s0 s path, conforming (e_sort E3) /\
  plain_workspace E3 (e_mink E3 origin) 4 (fofZ (-10)) (fofZ 10) (fofZ (-10)) (fofZ 10) 20 10 /\
  20 <= bpow radix2 299 /\ 10 <= bpow radix2 299 /\ plain_headings E3 /\
  construct E3 origin origin 1 4 (length (barena (e_mink E3 origin))) (length (bobstacle (e_mink E3 origin))) = Ok s0 /\
  plan E3 (connect_multi E3) [] s0 = Ok (s, Some (path, path)) /\ planned E3 s0 s /\
  (Z.of_nat (length (gvert (p_graph s))) <= 2 ^ 41)%Z /\ astar_is_boost (p_graph s) (e_astar E3) /\ length path = 7%nat.
Proof.
  destruct E3_run as (s0 & s & p & H0 & H & L & _ & V & _ & _ & _ & Bo). exists s0, s, p.
  assert (P : 20 <= bpow radix2 299) by (apply Rle_trans with (bpow radix2 5); [cbn; lra|apply bpow_le; lia]).
  split; [exact isort_conforming|]. split; [apply demo_workspace|]. split; [exact P|]. split; [lra|].
  split; [apply headings_plain; [cbn; lia|cbn; lia|reflexivity]|]. split; [exact H0|]. split; [exact H|].
  split; [exact (planned_plan _ _ _ _ _ _ (planned_0 _ _) H)|]. split; [rewrite V; cbn; lia|]. split; [exact Bo|exact L].
Qed.
Example C98_hyp_unsolved : exists s0 s, conforming (e_sort E5) /\
  plain_workspace E5 (e_mink E5 origin) 4 (fofZ (-10)) (fofZ 10) (fofZ (-10)) (fofZ 10) 20 10 /\ plain_headings E5 /\
  construct E5 origin origin 1 4 (length (barena (e_mink E5 origin))) (length (bobstacle (e_mink E5 origin))) = Ok s0 /\
  plan E5 (connect_multi E5) [] s0 = Ok (s, None) /\
  (Z.of_nat (length (gvert (p_graph s))) <= 2 ^ 41)%Z /\ astar_is_boost (p_graph s) (e_astar E5).
Proof.
  destruct E5_run as (s0 & s & H0 & H & _ & Bo & V). exists s0, s.
  split; [exact isort_conforming|]. split; [apply demo_workspace|].
  split; [apply headings_plain; [cbn; lia|cbn; lia|reflexivity]|]. split; [exact H0|]. split; [exact H|]. split; [rewrite V; cbn; lia|exact Bo].
Qed.

(** ---- space ---- *)
(** The spatial planners: a vertex is a grid position of slice k with the orientation of sample i
    (C54); the horizontal coordinates are between the limits, up to a few roundings, the height
    is a number within the limits and the crossings of the arena's meshes. *)
Theorem C98_spatial_vertices_in_range : forall (E : env3) robot B nS nx ny s0 s l0 l1 l2 l3 l4 l5 M Z,
  conforming (m_sort E) -> plain_workspace3 E B nx ny l0 l1 l2 l3 l4 l5 M Z -> Z <= bpow radix2 1022 -> m_mink E robot = Ok B ->
  construct3 E robot nS nx ny (length (marena B)) (length (mobstacle B)) = Ok s0 -> planned3 E s0 s ->
  forall v, In v (gvert (q_graph s)) -> exists k i x y z tail, slice_vertex3 E s k i v /\ v = [x; y; z] ++ tail /\
    fisfin x = true /\ fval l0 <= fval x <= fval l1 + grid_error M /\
    fisfin y = true /\ fval l2 <= fval y <= fval l3 + grid_error M /\ fisnan z = false /\ Rabs (fval z) <= Z.
Proof.
  intros E robot B nS nx ny s0 s l0 l1 l2 l3 l4 l5 M Z Hs W HZ HB C P v Hv. apply In_nth_error in Hv. destruct Hv as [a Ha].
  destruct (spatial_range E robot B nS nx ny s0 s l0 l1 l2 l3 l4 l5 M Z Hs W HZ HB C P a v Ha) as (x & y & z & tail & Ev & Hx & Hy & Nz & Bz).
  destruct W as (_ & N1 & N2 & N3 & N4 & K0 & K1 & K2 & K3 & L01 & L23 & M0 & M1 & M2 & M3 & _).
  destruct (grid_range nx l0 l1 M N1 N2 K0 K1 L01 M0 M1 x Hx) as [Fx Bx]. destruct (grid_range ny l2 l3 M N3 N4 K2 K3 L23 M2 M3 y Hy) as [Fy By].
  pose proof (reachable3_planned E s0 s (reach3_new E _ _ _ _ _ _ _ C) P) as R.
  assert (La : (a < length (gvert (q_graph s)))%nat) by (apply nth_error_Some; rewrite Ha; discriminate).
  destruct (ranges_find _ _ _ (proj1 (C53_ranges_partition E s R)) a ltac:(lia)) as (k & w & Hk & Ra).
  assert (SV : exists i, slice_vertex3 E s k i v).
  { destruct (m_prob E) eqn:Pb.
    - destruct (C54_vertices_any_history E s Pb R k w a Hk Ra) as (i & p & _ & Hp & Q). rewrite Ha in Hp. injection Hp as <-. eauto.
    - destruct (C54_vertices_of_slices E s Pb R k w a Hk Ra) as (p & Hp & Q). rewrite Ha in Hp. injection Hp as <-. eauto. }
  destruct SV as [i SV]. exists k, i, x, y, z, tail. auto 10.
Qed.
Print Assumptions C98_spatial_vertices_in_range.

Theorem C98_spatial_roadmap_is_tame : forall (E : env3) robot B nS nx ny s0 s l0 l1 l2 l3 l4 l5 M Z,
  conforming (m_sort E) -> plain_workspace3 E B nx ny l0 l1 l2 l3 l4 l5 M Z -> M <= bpow radix2 299 -> Z <= bpow radix2 300 -> m_mink E robot = Ok B ->
  construct3 E robot nS nx ny (length (marena B)) (length (mobstacle B)) = Ok s0 -> planned3 E s0 s ->
  plain_samples E s -> (Z.of_nat (length (gvert (q_graph s))) <= 2 ^ 53)%Z -> (Z.of_nat (m_dof E) <= 2 ^ 52)%Z -> tame (q_graph s).
Proof.
  intros E robot B nS nx ny s0 s l0 l1 l2 l3 l4 l5 M Z Hs W HM HZ HB C P PS Len Dof. apply tame_plain; [exact Len|]. intros v Hv.
  assert (HZ2 : Z <= bpow radix2 1022) by (apply Rle_trans with (1 := HZ); apply bpow_le; lia).
  destruct (C98_spatial_vertices_in_range E robot B nS nx ny s0 s l0 l1 l2 l3 l4 l5 M Z Hs W HZ2 HB C P v Hv)
    as (k & i & x & y & z & tail & SV & Ev & Fx & Bx & Fy & By & Nz & Bz).
  destruct W as (_ & _ & _ & _ & _ & _ & _ & _ & _ & _ & _ & M0 & M1 & M2 & M3 & _).
  assert (PX : plain_number x) by exact (grid_plain x l0 l1 M HM Fx Bx M0 M1).
  assert (PY : plain_number y) by exact (grid_plain y l2 l3 M HM Fy By M2 M3).
  assert (PZ : plain_number z).
  { split; [|lra]. apply fin_of_bound; [exact Nz|]. apply Rle_lt_trans with (1 := Bz). apply Rle_lt_trans with (1 := HZ). apply bpow_lt. lia. }
  assert (QL : forall q : qt, length (quat_list q) = 4%nat) by (intros [[[? ?] ?] ?]; reflexivity).
  assert (T : (length tail <= 4 + m_dof E)%nat /\ Forall plain_number tail).
  { pose proof (reachable3_planned E s0 s (reach3_new E _ _ _ _ _ _ _ C) P) as R. unfold slice_vertex3 in SV. unfold plain_samples in PS.
    destruct (m_prob E) eqn:Pb.
    - destruct SV as (r & ci & ck & Hi & Hk & (x' & y' & z' & ? & ? & ? & ? & Ev' & _)). rewrite Ev in Ev'. injection Ev' as _ _ _ ->.
      destruct (PS r ci (nth_error_In _ _ Hi)) as [P1 _]. destruct (PS r ck (nth_error_In _ _ Hk)) as [_ P2]. split; [|apply Forall_app; auto].
      rewrite app_length, QL. destruct (C53_slices_sampled E s Pb R) as [_ F2]. apply In_nth_error in Hv.
      assert (LK : length ck = (7 + m_dof E)%nat).
      { clear - F2 Hk QL. revert k Hk. induction F2 as [|q c qs cs Hc F2 IH]; intros k Hk; [destruct k; discriminate Hk|].
        destruct k as [|k]; [|exact (IH k Hk)]. injection Hk as ->. destruct Hc as (js & -> & L). rewrite !app_length, L, QL. reflexivity. }
      change (4 + length (skipn 7 ck) <= 4 + m_dof E)%nat. rewrite skipn_length, LK. lia.
    - destruct SV as (r & q & Hi & (x' & y' & z' & ? & ? & ? & ? & Ev' & _)). rewrite Ev in Ev'. injection Ev' as _ _ _ ->.
      rewrite app_nil_r. rewrite QL. split; [lia|]. exact (PS r q (nth_error_In _ _ Hi)). }
  destruct T as [T1 T2]. rewrite Ev. split; [cbn [length app]; lia|]. cbn [app].
  apply Forall_cons; [exact PX|]. apply Forall_cons; [exact PY|]. apply Forall_cons; [exact PZ|]. exact T2.
Qed.
Print Assumptions C98_spatial_roadmap_is_tame.

(** HRM3D's first planning call in such a workspace. *)
Theorem C98_spatial_first_plan_exact : forall (E : env3) robot B nS nx ny rq rounds s0 s r l0 l1 l2 l3 l4 l5 M Z, m_prob E = false ->
  conforming (m_sort E) -> plain_workspace3 E B nx ny l0 l1 l2 l3 l4 l5 M Z -> M <= bpow radix2 299 -> Z <= bpow radix2 300 -> m_mink E robot = Ok B ->
  construct3 E robot nS nx ny (length (marena B)) (length (mobstacle B)) = Ok s0 -> plan3 E rq rounds s0 = Ok (s, r) ->
  plain_samples E s -> (Z.of_nat (length (gvert (q_graph s))) <= 2 ^ 40)%Z -> (Z.of_nat (m_dof E) <= 2 ^ 52)%Z -> astar_is_boost (q_graph s) (m_astar E) ->
  exists ss ts, nearest_neighbors3 E s (m_start E) (m_numNeighbor E) (m_radius E) = Ok ss /\
    nearest_neighbors3 E s (m_goal E) (m_numNeighbor E) (m_radius E) = Ok ts /\
    ((r = None /\ forall a b, In a ss -> In b ts -> ~ connected (q_graph s) a b) \/
     (exists path ipath a b ids poses v0, r = Some (path, ipath) /\ In a ss /\ In b ts /\ ids = s_path (q_sol s) /\
        nearly_shortest (q_graph s) 7 a b ids /\
        Forall2 (fun i v => nth_error (gvert (q_graph s)) i = Some v) ids poses /\ nth_error (gvert (q_graph s)) 0 = Some v0 /\
        path = resize_pose (m_start E) (length v0) :: poses ++ [resize_pose (m_goal E) (length v0)])).
Proof.
  intros E robot B nS nx ny rq rounds s0 s r l0 l1 l2 l3 l4 l5 M Z Pb Hs W HM HZ HB C Pl PS Len Dof Bo.
  assert (T : tame (q_graph s)).
  { apply (C98_spatial_roadmap_is_tame E robot B nS nx ny s0 s l0 l1 l2 l3 l4 l5 M Z Hs W HM HZ HB C); [|exact PS|lia|exact Dof].
    exact (planned3_plan E s0 s0 rq rounds s r Pb (planned3_0 _ _) Pl). }
  destruct r as [[path ipath]|].
  - destruct (C65_hrm3d_path E robot nS nx ny _ _ rq rounds s0 s path ipath Pb C Pl T Bo) as (ss & ts & _ & _ & ids & poses & v0 & H1 & H2 & _ & _ & Ei & _ & _ & F & V0 & Ep).
    destruct (C84_spatial_path_nearly_shortest E robot nS nx ny _ _ rq rounds s0 s path ipath Pb C Pl T Bo Len) as (ss' & ts' & a & b & H1' & H2' & Ia & Ib & Ns).
    rewrite H1 in H1'. injection H1' as <-. rewrite H2 in H2'. injection H2' as <-.
    exists ss, ts. split; [exact H1|]. split; [exact H2|]. right. exists path, ipath, a, b, ids, poses, v0. rewrite Ei in *. auto 10.
  - destruct (C65_hrm3d_unsolved E robot nS nx ny _ _ rq rounds s0 s Pb C Pl T Bo) as (ss & ts & H1 & H2 & N). exists ss, ts. auto.
Qed.
Print Assumptions C98_spatial_first_plan_exact.

(** ProbHRM3D's first planning call: a path, when there is one, is a nearly shortest walk of the roadmap. *)
Theorem C98_prob_first_path_exact : forall (E : env3) robot B nS nx ny d ds s0 s path ipath l0 l1 l2 l3 l4 l5 M Z, m_prob E = true ->
  conforming (m_sort E) -> plain_workspace3 E B nx ny l0 l1 l2 l3 l4 l5 M Z -> M <= bpow radix2 299 -> Z <= bpow radix2 300 -> m_mink E robot = Ok B ->
  construct3 E robot nS nx ny (length (marena B)) (length (mobstacle B)) = Ok s0 -> plan_prob E d ds s0 = Ok (s, Some (path, ipath)) ->
  plain_samples E s -> (Z.of_nat (length (gvert (q_graph s))) <= 2 ^ 34)%Z -> (m_dof E <= 900)%nat -> astar_from_boost (m_astar E) ->
  exists ss ts a b ids poses v0, nearest_neighbors3 E s (m_start E) (m_numNeighbor E) (m_radius E) = Ok ss /\
    nearest_neighbors3 E s (m_goal E) (m_numNeighbor E) (m_radius E) = Ok ts /\
    In a ss /\ In b ts /\ ids = s_path (q_sol s) /\ nearly_shortest (q_graph s) (7 + m_dof E) a b ids /\
    Forall2 (fun i v => nth_error (gvert (q_graph s)) i = Some v) ids poses /\ nth_error (gvert (q_graph s)) 0 = Some v0 /\
    path = resize_pose (m_start E) (length v0) :: poses ++ [resize_pose (m_goal E) (length v0)] /\
    interpolated_path3 E (s_cost (q_sol s)) (m_numPoint E) path = Ok ipath.
Proof.
  intros E robot B nS nx ny d ds s0 s path ipath l0 l1 l2 l3 l4 l5 M Z Pb Hs W HM HZ HB C Pl PS Len Dof Bo.
  assert (T : tame (q_graph s)).
  { apply (C98_spatial_roadmap_is_tame E robot B nS nx ny s0 s l0 l1 l2 l3 l4 l5 M Z Hs W HM HZ HB C); [|exact PS|lia|lia].
    exact (planned3_prob E s0 s0 d ds s _ Pb (planned3_0 _ _) Pl). }
  destruct (C65_prob_path E robot nS nx ny _ _ d ds s0 s path ipath Pb C Pl T Bo) as (ss & ts & _ & _ & ids & poses & v0 & H1 & H2 & _ & _ & Ei & _ & _ & F & V0 & Ep & Ip).
  destruct (C84_prob_path_nearly_shortest E robot nS nx ny _ _ d ds s0 s path ipath Pb C Pl Dof T Bo Len) as (ss' & ts' & a & b & H1' & H2' & Ia & Ib & Ns).
  rewrite H1 in H1'. injection H1' as <-. rewrite H2 in H2'. injection H2' as <-.
  exists ss, ts, a, b, ids, poses, v0. rewrite Ei in *. auto 15.
Qed.
Print Assumptions C98_prob_first_path_exact.

(** HRM3D with a path of six poses, HRM3D without a path, ProbHRM3D with one joint. *)
Lemma p53_300 : bpow radix2 53 <= bpow radix2 300.
Proof. apply bpow_le. lia. Qed.
Lemma ten_299 : 10 <= bpow radix2 299.
Proof. apply Rle_trans with (bpow radix2 5); [cbn; lra|apply bpow_le; lia]. Qed.
Example C98_spatial_hyp : exists s0 s path, m_prob D1 = false /\ conforming (m_sort D1) /\
  plain_workspace3 D1 D_bound 2 2 (fofZ (-10)) (fofZ 10) (fofZ (-10)) (fofZ 10) (fofZ (-10)) (fofZ 10) 10 (bpow radix2 53) /\
  10 <= bpow radix2 299 /\ bpow radix2 53 <= bpow radix2 300 /\ m_mink D1 [] = Ok D_bound /\
  construct3 D1 [] 2 2 2 (length (marena D_bound)) (length (mobstacle D_bound)) = Ok s0 /\
  plan3 D1 (fun _ => qa) [] s0 = Ok (s, Some (path, path)) /\ planned3 D1 s0 s /\ plain_samples D1 s /\
  (Z.of_nat (length (gvert (q_graph s))) <= 2 ^ 40)%Z /\ (Z.of_nat (m_dof D1) <= 2 ^ 52)%Z /\ astar_is_boost (q_graph s) (m_astar D1) /\ length path = 6%nat.
Proof.
  destruct D1_run as (s0 & s & path & C & P & _ & _ & Lp & _ & V & _ & _ & _ & Bo). exists s0, s, path.
  split; [reflexivity|]. split; [exact isort_conforming|]. split; [apply demo_workspace3|]. split; [exact ten_299|]. split; [exact p53_300|].
  split; [reflexivity|]. split; [exact C|]. split; [exact P|].
  split; [exact (planned3_plan D1 s0 s0 (fun _ => qa) [] s (Some (path, path)) eq_refl (planned3_0 _ _) P)|].
  split; [exact (D1_samples s0 s _ C P)|]. split; [rewrite V; lia|]. split; [cbn; lia|]. split; [exact Bo|exact Lp].
Qed.
Example C98_spatial_hyp_unsolved : exists s0 s, m_prob D2 = false /\
  plain_workspace3 D2 (BMesh [world] [wall]) 2 2 (fofZ (-10)) (fofZ 10) (fofZ (-10)) (fofZ 10) (fofZ (-10)) (fofZ 10) 10 (bpow radix2 53) /\
  m_mink D2 [] = Ok (BMesh [world] [wall]) /\ construct3 D2 [] 1 2 2 1 1 = Ok s0 /\
  plan3 D2 (fun _ => qa) [] s0 = Ok (s, None) /\ plain_samples D2 s /\ astar_is_boost (q_graph s) (m_astar D2).
Proof.
  destruct D2_run as (s0 & s & C & P & _ & _ & _ & Bo). exists s0, s.
  split; [reflexivity|]. split; [apply demo_workspace3|]. split; [reflexivity|]. split; [exact C|]. split; [exact P|]. split; [exact (D2_samples s0 s _ C P)|exact Bo].
Qed.
Example C98_prob_hyp : exists s0 s path ip, m_prob P1 = true /\ conforming (m_sort P1) /\
  plain_workspace3 P1 D_bound 2 2 (fofZ (-10)) (fofZ 10) (fofZ (-10)) (fofZ 10) (fofZ (-10)) (fofZ 10) 10 (bpow radix2 53) /\ m_mink P1 [] = Ok D_bound /\
  construct3 P1 [] 0 2 2 (length (marena D_bound)) (length (mobstacle D_bound)) = Ok s0 /\ plan_prob P1 (dr qa) [dr qa; dr qb] s0 = Ok (s, Some (path, ip)) /\
  plain_samples P1 s /\ (Z.of_nat (length (gvert (q_graph s))) <= 2 ^ 34)%Z /\ (m_dof P1 <= 900)%nat /\ astar_from_boost (m_astar P1) /\ length path = 6%nat.
Proof.
  destruct P1_run as (s0 & s & path & ip & C & P & _ & _ & Lp & _ & V & _). exists s0, s, path, ip.
  split; [reflexivity|]. split; [exact isort_conforming|]. split; [apply demo_workspace3|]. split; [reflexivity|]. split; [exact C|]. split; [exact P|].
  split; [exact (P1_samples s0 s _ C P)|]. split; [rewrite V; lia|]. split; [apply Nat.leb_le; reflexivity|]. split; [exact demo_boost|exact Lp].
Qed.
