(** Spatial planner: sweep grid, path interpolation, the free-segment query and the
    search hypothesis used for ProbHRM3D. *)
From Coq Require Import List Bool Arith Lia ZArith Reals Lra.
From Flocq Require Import Core IEEE754.BinarySingleNaN.
From Verif.Base Require Import Outcome Float64 FloatFacts.
From Verif.Model Require Import MScalar MDistance MInterval MFreeSpace MLine3D MInterp MGraph MSearch MHRM2D MHRM3D MAStar.
From Verif.Spec Require Import SFreeSpace SGraph SSearch SPlanner2D SPlanner3D.
From Verif.Proofs Require Import PTables PGraph PHRM2D PSampling PInterp PSearch PAStarF PPlan2DZ PHRM3D PPlan3D PPlan3DX PPlan3DY.
Import ListNotations.

(** ---- sweep grid ---- *)
Lemma pred_nat n : 2 <= n -> (Z.of_nat n <= 2 ^ 53)%Z -> fsub (fofnat n) fone = fofnat (n - 1).
Proof.
  intros H1 H2. destruct (pred_spec n H1 H2) as [V F]. destruct (fofnat_spec (n - 1) ltac:(lia)) as [V' F'].
  assert (N : (INR n - 1 <> 0)%R). { apply le_INR in H1. cbn [INR] in H1. lra. }
  rewrite minus_INR in V' by lia. cbn [INR] in V'.
  rewrite !fval_finite in * by auto.
  apply B2R_inj; [| |unfold fisfin in *; rewrite V, V'; reflexivity].
  - destruct (fsub (fofnat n) fone) as [| | |]; try reflexivity; try discriminate F. cbn in V. lra.
  - destruct (fofnat (n - 1)) as [| | |]; try reflexivity; try discriminate F'. cbn in V'. lra.
Qed.
Lemma grid_sweep n lo hi : (Z.of_nat n <= 2 ^ 53)%Z -> grid n lo hi = sweep_heights n lo hi.
Proof.
  intros H. unfold grid, sweep_heights. destruct n as [|[|n]]; [reflexivity| |].
  - assert (Z : fsub (fofnat 1) fone = fofnat (1 - 1)) by (apply fsame_eq; vm_compute; reflexivity). rewrite Z. reflexivity.
  - rewrite pred_nat by lia. reflexivity.
Qed.

(** ---- path interpolation ---- *)
Lemma div_zero_step d y : fisfin (fdiv d (fdiv (fofZ 0) y)) = false.
Proof.
  assert (Z : fofZ 0 = B754_zero false) by (apply fsame_eq; vm_compute; reflexivity). rewrite Z.
  destruct y as [s|s| |s m e H]; destruct d as [s'|s'| |s' m' e' H']; reflexivity.
Qed.
Lemma div_nan_step d n : fisnan n = true -> fisfin (fdiv d n) = false.
Proof. destruct n as [s|s| |s m e H]; intros N; try discriminate N. destruct d as [s'|s'| |s' m' e' H']; reflexivity. Qed.

Section I.
Variable E : env3.
Lemma interp_zero_cost num path : 2 <= length path -> forall l, interpolated_path3 E (fofZ 0) num path <> Ok l.
Proof.
  intros L l H. unfold interpolated_path3 in H. destruct path as [|a path]; [cbn in L; lia|]. ob H l' Hl.
  apply omap_Ok in Hl. destruct path as [|b path]; [cbn in L; lia|].
  cbn [length] in Hl. replace (S (S (length path)) - 1) with (S (length path)) in Hl by lia. cbn [seq] in Hl.
  inversion Hl as [|i x is xs Hi Hr]; subst. clear Hr H. unfold interp_steps in Hi.
  ob Hi a' Ha. ob Hi b' Hb. ob Hi d Hd. ob Hi n Hn. unfold f_to_int, distance_step in Hn. rewrite div_zero_step in Hn. discriminate Hn.
Qed.
Lemma interp_zero_UB num a b path d : vec_euclid F64 a b = Ok d -> interpolated_path3 E (fofZ 0) num (a :: b :: path) = UB.
Proof.
  intros Hd. unfold interpolated_path3. cbn [length]. rewrite Nat.sub_succ, Nat.sub_0_r. cbn [seq omap].
  assert (K : interp_steps E (fofZ 0) num (a :: b :: path) 0 = UB).
  { unfold interp_steps. change (at_ (a :: b :: path) 0) with (@Ok pose a).
    change (at_ (a :: b :: path) (0 + 1)) with (@Ok pose b). cbn [obind]. rewrite Hd. cbn [obind].
    unfold f_to_int, distance_step. rewrite div_zero_step. reflexivity. }
  rewrite K. reflexivity.
Qed.

(** Shape of a returned interpolation: one block per pair of neighbouring poses; a
    block has n + 1 poses, n the truncated quotient of the distance and the step. *)
Definition block_steps (cost : f64) (num : nat) (path : list pose) (i n : nat) : Prop :=
  exists a b d z, nth_error path i = Some a /\ nth_error path (i + 1) = Some b /\ vec_euclid F64 a b = Ok d /\
    f_to_int (fdiv d (fdiv cost (fmul (fofnat num) (fsub (fofnat (length path)) fone)))) = Ok z /\ (0 <= z)%Z /\ n = Z.to_nat z.
Lemma interp_shape cost num path l : interpolated_path3 E cost num path = Ok l ->
  path <> [] /\ exists blocks, l = concat blocks /\ length blocks = length path - 1 /\
    forall i bl, nth_error blocks i = Some bl -> exists a b n, nth_error path i = Some a /\ nth_error path (i + 1) = Some b /\
      block_steps cost num path i n /\ interpolate_compound F64 (m_slerp E) a b n = Ok bl.
Proof.
  unfold interpolated_path3. destruct path as [|p path]; intros H; [discriminate H|]. split; [discriminate|].
  set (ps := p :: path) in *. clearbody ps. ob H ls Hl. injection H as <-. exists ls. split; [reflexivity|].
  apply omap_seq in Hl. destruct Hl as [L N]. split; [exact L|]. intros i bl Hb.
  assert (Hi : i < length ps - 1). { rewrite <- L. apply nth_error_Some. rewrite Hb. discriminate. }
  destruct (N i Hi) as (bl' & Hs & Hn). assert (bl' = bl) by congruence. subst bl'. clear Hn N.
  unfold interp_steps in Hs. ob Hs a Ha. ob Hs b Hb'. ob Hs d Hd. ob Hs n Hn.
  destruct (Z.ltb n 0) eqn:Q; [discriminate Hs|]. apply Z.ltb_ge in Q. apply at_Ok in Ha. apply at_Ok in Hb'.
  exists a, b, (Z.to_nat n). split; [exact Ha|]. split; [exact Hb'|]. split; [|exact Hs].
  exists a, b, d, n. unfold distance_step in Hn. auto 10.
Qed.
End I.

(** ---- the free-segment query ---- *)
Section F.
Variable E : env3.
Lemma zhits_0 x ms : zhits x 0 ms = fun _ => [].
Proof. reflexivity. Qed.
Lemma free_segment_fresh robot nS nx ny nA nO bd bd' (s : state3 E) : construct3 E robot nS nx ny nA nO = Ok s ->
  match free_segment_one_slice E bd s, free_segment_one_slice E bd' s with
  | Ok (_, segs), Ok (_, segs') => segs = segs'
  | Throw e, Throw e' => e = e'
  | UB, UB => True
  | _, _ => False
  end.
Proof.
  intros H. unfold construct3 in H. ob H l4 Hl4. ob H l5 Hl5. injection H as <-.
  unfold free_segment_one_slice, sweep_process3.
  cbn [q_nA q_nO q_fsmesh q_numLineX q_numLineY q_tables marena mobstacle q_quats q_confs q_numSlice q_robot q_fsrobot q_sliceAll q_graph q_nv q_vidx q_vidxAll q_refine q_sol].
  destruct (lim3 E 0) as [l0| |]; cbn [obind]; auto. destruct (lim3 E 1) as [l1| |]; cbn [obind]; auto.
  destruct (lim3 E 2) as [l2| |]; cbn [obind]; auto. destruct (lim3 E 3) as [l3| |]; cbn [obind]; auto.
  rewrite Hl4, Hl5. cbn [obind].
  assert (K : forall xs st, ofold (fun '(t, acc) x =>
      obind (compute_intersection l4 l5 (zhits x 0 (marena bd)) (zhits x 0 (mobstacle bd)) (grid ny l2 l3) t) (fun t1 =>
      obind (compute_free_segment (m_sort E) t1 (grid ny l2 l3)) (fun seg => Ok (t1, acc ++ [(x, seg)])))) xs st =
    ofold (fun '(t, acc) x =>
      obind (compute_intersection l4 l5 (zhits x 0 (marena bd')) (zhits x 0 (mobstacle bd')) (grid ny l2 l3) t) (fun t1 =>
      obind (compute_free_segment (m_sort E) t1 (grid ny l2 l3)) (fun seg => Ok (t1, acc ++ [(x, seg)])))) xs st) by reflexivity.
  rewrite K. match goal with |- context[obind ?o _] => destruct o as [[t segs]| |] end; cbn [obind snd]; auto.
Qed.
(** After a planning call: as many meshes as boundaries are needed. *)
Lemma ofold_all_Ok {A S} (f : S -> nat * outcome A -> outcome S) (hs : list (outcome A)) :
  (forall s j h s', f s (j, h) = Ok s' -> exists x, h = Ok x) ->
  forall k s s', ofold f (combine (seq k (length hs)) hs) s = Ok s' -> Forall (fun h => exists x, h = Ok x) hs.
Proof.
  intros F. induction hs as [|h hs IH]; intros k s s' H; [constructor|]. cbn [length seq combine ofold] in H. ob H s1 H1.
  constructor; [eapply F; exact H1|eapply IH; exact H].
Qed.
Lemma intersect_line_Ok low upp i hA hO t t' : intersect_line low upp i hA hO t = Ok t' ->
  Forall (fun h => exists x, h = Ok x) hA /\ Forall (fun h => exists x, h = Ok x) hO.
Proof.
  unfold intersect_line. intros H. ob H t1 H1. split.
  - eapply ofold_all_Ok; [|exact H1]. intros s j h s' Hs. destruct h as [x| |]; [eauto|discriminate Hs..].
  - eapply ofold_all_Ok; [|exact H]. intros s j h s' Hs. destruct h as [x| |]; [eauto|discriminate Hs..].
Qed.
Lemma zhits_Ok x n ms y : Forall (fun h => exists l, h = Ok l) (zhits x n ms y) -> n <= length ms.
Proof.
  intros H. destruct (Nat.le_gt_cases n (length ms)) as [L|L]; [exact L|exfalso].
  assert (N : nth_error (zhits x n ms y) (length ms) = Some (Throw OutOfRange)).
  { unfold zhits. rewrite nth_error_map. rewrite (nth_error_nth' _ 0) by (rewrite seq_length; lia). rewrite seq_nth by lia.
    cbn [option_map]. rewrite at_throw; [reflexivity|]. cbn [plus]. apply Nat.le_refl. }
  apply nth_error_In in N. rewrite Forall_forall in H. destruct (H _ N) as (l & Q). discriminate Q.
Qed.
Lemma free_segment_needs_meshes bd (s s' : state3 E) segs : free_segment_one_slice E bd s = Ok (s', segs) ->
  0 < q_numLineX s -> q_nA s <= length (marena bd) /\ q_nO s <= length (mobstacle bd).
Proof.
  intros H Hx. apply free_segment3_inv in H. destruct H as (t & -> & _ & l0 & l1 & l2 & l3 & l4 & l5 & _ & _ & _ & _ & _ & _ & P).
  pose proof (grid_length (q_numLineX s) l0 l1) as G. destruct (grid (q_numLineX s) l0 l1) as [|x xs]; [cbn in G; lia|]. clear G.
  pose proof (plane_segments_rows _ _ _ _ _ _ _ _ _ P) as (_ & _ & _ & R). specialize (R ltac:(discriminate)). destruct R as [R _].
  inversion P as [|? ? ? ? ? ? ? C _ _ _]; subst. clear P. cbn [q_nA q_nO q_fsmesh] in C.
  destruct (grid (q_numLineY s) l2 l3) as [|y ys]; [congruence|].
  unfold compute_intersection in C. cbn [length seq combine ofold] in C. ob C t2 H2. apply intersect_line_Ok in H2. destruct H2 as [A B].
  split; [exact (zhits_Ok _ _ _ _ A)|exact (zhits_Ok _ _ _ _ B)].
Qed.
End F.

(** ---- what the searches of ProbHRM3D need of A* ---- *)
Lemma tame_prefix g g' : extends g g' -> tame g' -> tame g.
Proof.
  intros ((vs & V) & _) [L H]. rewrite V in L, H. rewrite app_length in L. split; [lia|]. intros v Hv. apply H. apply in_or_app. left. exact Hv.
Qed.
Lemma from_boost_sound astar g : astar_from_boost astar -> well_formed g -> tame g -> astar_sound g astar.
Proof.
  intros B W T s t p Hs Ht A. destruct (B _ _ _ _ A) as (top & fuel & H & Q).
  apply boost_sound in Q; auto; [tauto|]. intros c q N. apply H; auto.
Qed.

Section P.
Variable E : env3.
Hypothesis Hp : m_prob E = true.
Lemma prob_path robot nS nx ny nA nO d ds (s s' : state3 E) r : construct3 E robot nS nx ny nA nO = Ok s ->
  plan_prob E d ds s = Ok (s', r) -> tame (q_graph s') -> astar_from_boost (m_astar E) -> reports E s' (option_map fst r).
Proof.
  intros H0 H T B. apply (construct3_inv E eq) in H0. destruct H0 as (I & V & C & _).
  eapply (plan_prob_search E Hp eq); [exact I|rewrite V, C; reflexivity|intros j; rewrite V; reflexivity|exact V|exact H|].
  intros g W Ex. apply from_boost_sound; [exact B|exact W|eapply tame_prefix; eauto].
Qed.
(** A returned path has at least two roadmap vertices. *)
Lemma prob_two_vertices robot nS nx ny nA nO d ds (s s' : state3 E) path ip : construct3 E robot nS nx ny nA nO = Ok s ->
  plan_prob E d ds s = Ok (s', Some (path, ip)) -> tame (q_graph s') -> astar_from_boost (m_astar E) -> 2 <= length (s_path (q_sol s')).
Proof.
  intros H0 H T B. pose proof (prob_path _ _ _ _ _ _ _ _ _ _ _ H0 H T B) as (ss & ts & _ & _ & a & b & _ & _ & _ & Sp & C).
  apply plan_prob_result in H. destruct H as [[_ H]|(_ & p' & ip' & Q & Sp' & Ip)]; [discriminate H|].
  assert (p' = path /\ ip' = ip) as [-> ->] by (injection Q; auto). cbn [option_map fst] in Sp.
  destruct (s_path (q_sol s')) as [|x [|y l]] eqn:Pa; [| |cbn [length]; lia]; exfalso.
  - cbn [rev id_cost] in C. assert (Z : s_cost (q_sol s') = fofZ 0) by congruence. rewrite Z in Ip.
    apply interp_zero_cost in Ip; [exact Ip|]. apply solution_path_spec in Sp'. destruct Sp' as (v0 & ms & _ & -> & _). cbn [length]. rewrite app_length. cbn [length]. lia.
  - cbn [rev app id_cost] in C. assert (Z : s_cost (q_sol s') = fofZ 0) by congruence. rewrite Z in Ip.
    apply interp_zero_cost in Ip; [exact Ip|]. apply solution_path_spec in Sp'. destruct Sp' as (v0 & ms & _ & -> & _). cbn [length]. rewrite app_length. cbn [length]. lia.
Qed.
Lemma prob_cost_nonzero d ds (s s' : state3 E) path ip : plan_prob E d ds s = Ok (s', Some (path, ip)) -> s_cost (q_sol s') <> fofZ 0.
Proof.
  intros H Z. apply plan_prob_result in H. destruct H as [[_ H]|(_ & p' & ip' & Q & Sp' & Ip)]; [discriminate H|].
  rewrite Z in Ip. apply interp_zero_cost in Ip; [exact Ip|]. apply solution_path_spec in Sp'. destruct Sp' as (v0 & ms & _ & -> & _). cbn [length]. rewrite app_length. cbn [length]. lia.
Qed.
End P.

(** HRM3D: what the search needs. *)
Lemma plan3_closer (E : env3) rq rounds (s s' : state3 E) r v : m_prob E = false -> reachable3 E s -> m_uninit E = (fun _ _ => UB) ->
  plan3 E rq rounds s = Ok (s', r) -> (v = m_start E \/ v = m_goal E) ->
  exists qq q0 q, get_quat F64 v = Ok qq /\ nth_error (q_quats s') 0 = Some q0 /\ In q (q_quats s') /\
    fltb (m_qdist E qq q) (m_qdist E qq q0) = true.
Proof.
  intros P H U Hp Hv. apply reachable3_inv in H. destruct H as [I _].
  apply (plan3_keep E P) in Hp; [|eapply inv3_weaken; [|exact I]; unfold rel3; rewrite P; auto].
  destruct Hp as (s1 & _ & Hs & _ & _ & _ & _ & Q & _). pose proof (do_search3_closer E _ _ v U Hs Hv) as K.
  apply do_search3_inv in Hs. destruct Hs as (_ & _ & r' & _ & _ & _ & ->). exact K.
Qed.

(** The neighbour query: what is attached. *)
Lemma window_not (E : env3) (s : state3 E) v w radius b : in_window3 E s v w radius = Ok b -> window_of E s radius v w -> b = true.
Proof.
  intros H (x1 & x2 & y1 & y2 & l0 & l1 & l2 & l3 & A & B & A' & B' & C & D & C' & D' & F & F').
  unfold in_window3, lim3, idx in H. rewrite A, B, C, D in H. cbn [obind] in H. rewrite F in H. rewrite A', B', C', D' in H. cbn [obind] in H.
  rewrite F' in H. injection H as H. symmetry. exact H.
Qed.
Lemma quat_near_acc (E : env3) m radius k : forall qs acc, length acc < k ->
  quat_near E m radius k qs acc = acc ++ firstn (k - length acc) (filter (fun q => fltb (m_qdist E m q) radius) qs).
Proof.
  induction qs as [|q qs IH]; intros acc L; cbn [quat_near filter]; [rewrite firstn_nil, app_nil_r; reflexivity|].
  destruct (fltb (m_qdist E m q) radius).
  - destruct (Nat.leb_spec k (length (acc ++ [q]))) as [K|K]; rewrite app_length in K; cbn [length] in K.
    + replace (k - length acc) with 1 by lia. reflexivity.
    + rewrite IH by (rewrite app_length; cbn [length]; lia). rewrite app_length. cbn [length]. replace (k - length acc) with (S (k - (length acc + 1))) by lia.
      cbn [firstn]. rewrite <- app_assoc. reflexivity.
  - destruct (Nat.leb_spec k (length acc)) as [K|K]; [lia|]. apply IH. exact L.
Qed.
Lemma quat_near_first (E : env3) m radius k qs : quat_near E m radius k qs [] = first_near E m radius k qs.
Proof.
  unfold first_near. destruct k as [|k].
  - destruct qs as [|q qs]; cbn [quat_near firstn filter]; [reflexivity|]. destruct (fltb (m_qdist E m q) radius); reflexivity.
  - rewrite quat_near_acc by (cbn [length]; lia). cbn [length app]. rewrite Nat.sub_0_r. reflexivity.
Qed.
Lemma nearest_neighbors3_attached (E : env3) (s : state3 E) v k radius l : nearest_neighbors3 E s v k radius = Ok l ->
  exists qq q0 m, get_quat F64 v = Ok qq /\ nth_error (q_quats s) 0 = Some q0 /\
    ((In m (q_quats s) /\ fltb (m_qdist E qq m) (m_qdist E qq q0) = true /\ forall q, In q (q_quats s) -> fltb (m_qdist E qq q) (m_qdist E qq m) = false) \/
     ((forall q, In q (q_quats s) -> fltb (m_qdist E qq q) (m_qdist E qq q0) = false) /\ m_uninit E (q_graph s) v = Ok m)) /\
    attached E s radius v (first_near E m radius k (q_quats s)) l.
Proof.
  intros H. unfold nearest_neighbors3 in H. ob H qq Hq. ob H q0 H0. ob H m Hm. apply idx_Ok in H0.
  exists qq, q0, m. split; [exact Hq|]. split; [exact H0|]. split.
  - destruct (closest_quat E (q_quats s) q0 qq) as [m'|] eqn:Q.
    + injection Hm as ->. left. apply closest_quat_some in Q. exact Q.
    + right. split; [apply closest_quat_none; exact Q|exact Hm].
  - rewrite quat_near_first in H. generalize dependent (first_near E m radius k (q_quats s)). intros qs H.
    assert (G : forall qs' acc l', ofold (fun acc q => obind (nearest_vertex E (gvert (q_graph s)) v q) (fun i =>
        obind (idx (gvert (q_graph s)) i) (fun w => obind (in_window3 E s v w radius) (fun b => Ok (if b then acc ++ [i] else acc))))) qs' acc = Ok l' ->
        exists l2, l' = acc ++ l2 /\ attached E s radius v qs' l2).
    { clear. induction qs' as [|q qs' IH]; intros acc l' H; cbn [ofold] in H.
      - injection H as <-. exists []. split; [rewrite app_nil_r; reflexivity|constructor].
      - ob H acc' Ha. ob Ha i Hi. ob Ha w Hw. ob Ha b Hb. apply idx_Ok in Hw. apply IH in H. destruct H as (l2 & -> & At).
        destruct b.
        + injection Ha as <-. exists (i :: l2). split; [rewrite <- app_assoc; reflexivity|]. apply (att_in E s radius v q qs' i w l2 Hi Hw); [|exact At].
          exact (in_window3_true E s v w radius Hb).
        + injection Ha as <-. exists l2. split; [reflexivity|]. apply (att_out E s radius v q qs' i w l2 Hi Hw); [|exact At].
          intros W. pose proof (window_not E s v w radius false Hb W) as Z. discriminate Z. }
    apply G in H. destruct H as (l2 & -> & At). exact At.
Qed.

(** The neighbour query, with the reference orientation spelled out. *)
Lemma nearest_neighbors3_full (E : env3) (s : state3 E) v k radius l : nearest_neighbors3 E s v k radius = Ok l ->
  exists qq q0 m, get_quat F64 v = Ok qq /\ nth_error (q_quats s) 0 = Some q0 /\
    ((In m (q_quats s) /\ fltb (m_qdist E qq m) (m_qdist E qq q0) = true /\ forall q, In q (q_quats s) -> fltb (m_qdist E qq q) (m_qdist E qq m) = false) \/
     ((forall q, In q (q_quats s) -> fltb (m_qdist E qq q) (m_qdist E qq q0) = false) /\ m_uninit E (q_graph s) v = Ok m)) /\
    length l <= Nat.max 1 k /\
    forall i, In i l -> exists w q,
      nth_error (gvert (q_graph s)) i = Some w /\ window_of E s radius v w /\ In q (q_quats s) /\ fltb (m_qdist E m q) radius = true /\
      nearest_vertex E (gvert (q_graph s)) v q = Ok i.
Proof.
  intros H. pose proof H as H'. unfold nearest_neighbors3 in H'. ob H' qq Hq. ob H' q0 H0. ob H' m Hm. apply idx_Ok in H0.
  exists qq, q0, m. split; [exact Hq|]. split; [exact H0|]. split.
  - destruct (closest_quat E (q_quats s) q0 qq) as [m'|] eqn:Q.
    + injection Hm as ->. left. apply closest_quat_some in Q. exact Q.
    + right. split; [apply closest_quat_none; exact Q|exact Hm].
  - destruct (quat_near_spec E m radius k (q_quats s) []) as [L1 L2]; [cbn [length]; lia|intros q []|auto|].
    set (qs := quat_near E m radius k (q_quats s) []) in *.
    assert (G : forall qs' acc l', ofold (fun acc q => obind (nearest_vertex E (gvert (q_graph s)) v q) (fun i =>
        obind (idx (gvert (q_graph s)) i) (fun w => obind (in_window3 E s v w radius) (fun b => Ok (if b then acc ++ [i] else acc))))) qs' acc = Ok l' ->
        length l' <= length acc + length qs' /\ forall i, In i l' -> In i acc \/ exists w q,
          nth_error (gvert (q_graph s)) i = Some w /\ window_of E s radius v w /\ In q qs' /\ nearest_vertex E (gvert (q_graph s)) v q = Ok i).
    { clear. induction qs' as [|q qs' IH]; intros acc l' H; cbn [ofold] in H.
      - injection H as <-. cbn [length]. split; [lia|auto].
      - ob H acc' Ha. ob Ha i Hi. ob Ha w Hw. ob Ha b Hb. apply idx_Ok in Hw. apply IH in H. destruct H as [H1 H2].
        destruct b; assert (Ea : acc' = acc ++ [i] \/ acc' = acc) by (injection Ha as <-; auto).
        + injection Ha as <-. rewrite app_length in H1. cbn [length] in *. split; [lia|]. intros i' Hi'. apply H2 in Hi'. destruct Hi' as [Hi'|(w' & q' & A & B & C & D)].
          * apply in_app_or in Hi'. destruct Hi' as [Hi'|[<-|[]]]; [left; exact Hi'|]. right. exists w, q. apply in_window3_true in Hb. split; [exact Hw|]. split; [exact Hb|]. split; [left; reflexivity|exact Hi].
          * right. exists w', q'. split; [exact A|]. split; [exact B|]. split; [right; exact C|exact D].
        + injection Ha as <-. cbn [length]. split; [lia|]. intros i' Hi'. apply H2 in Hi'. destruct Hi' as [Hi'|(w' & q' & A & B & C & D)]; [left; exact Hi'|].
          right. exists w', q'. split; [exact A|]. split; [exact B|]. split; [right; exact C|exact D]. }
    apply G in H'. destruct H' as [L3' N]. cbn [length] in L3'. split; [lia|]. intros i Hi. apply N in Hi.
    destruct Hi as [[]|(w & q & A & B & C & D)]. exists w, q. apply L2 in C. destruct C as [[]|[C1 C2]]. auto 10.
Qed.
