(** Vertices of the spatial roadmaps are clear of the meshes swept over, or corners. *)
From Coq Require Import List Bool Arith Reals Lra Lia ZArith Permutation.
From Flocq Require Import Core.Core.
From Verif.Base Require Import Outcome Float64 FloatFacts.
From Verif.Model Require Import MScalar MInterval MFreeSpace MLine3D MInterp MGraph MSearch MHRM3D.
From Verif.Spec Require Import SInterval SFreeSpace SGraph SPlanner2D SPlanner3D SClear.
From Verif.Proofs Require Import PInterval PFreeSpace PEnhance PTables PFreeAll PGraph PHRM2D PPlan2D PGraph3D PHRM3D PPlan3D PClear.
Import ListNotations.

(** ---- the shape of the tables never changes ---- *)
Lemma set_at2_shape n w tbl i j v tbl' : shape n w tbl -> set_at2 tbl i j v = Ok tbl' -> shape n w tbl'.
Proof.
  intros [L F] H. unfold set_at2 in H. ob H r Hr. ob H r' Hr'. unfold set_at in Hr', H.
  destruct (upd r j v) as [r1|] eqn:U1; [|discriminate Hr']. injection Hr' as <-.
  destruct (upd tbl i r1) as [t1|] eqn:U2; [|discriminate H]. injection H as <-.
  split; [rewrite (upd_length _ _ _ _ U2); exact L|]. apply (Forall_upd _ _ _ _ _ U2 F). rewrite (upd_length _ _ _ _ U1).
  unfold at_ in Hr. destruct (nth_error tbl i) as [r2|] eqn:N; [|discriminate Hr]. injection Hr as <-.
  rewrite Forall_forall in F. apply F. exact (nth_error_In _ _ N).
Qed.
Lemma compute_intersection_shape n na no low upp fA fO lines t t' : tables_shape n na no t ->
  compute_intersection low upp fA fO lines t = Ok t' -> tables_shape n na no t'.
Proof.
  intros T H. unfold compute_intersection in H. apply (ofold_inv _ (tables_shape n na no)) in H; [exact H|exact T|].
  clear. intros [i c] t t' _ T H. unfold intersect_line in H. ob H t1 H1.
  assert (T1 : tables_shape n na no t1).
  { apply (ofold_inv _ (tables_shape n na no)) in H1; [exact H1|exact T|]. clear. intros [j h] t t' _ (T1 & T2 & T3 & T4) H. ob H hits Hh. ob H lu Hl.
    unfold set_arena in H. ob H l L1. ob H u U1. injection H as <-. apply (set_at2_shape n na) in L1, U1; try assumption.
    unfold tables_shape. cbn [arenaLow arenaUpp obstacleLow obstacleUpp]. auto. }
  apply (ofold_inv _ (tables_shape n na no)) in H; [exact H|exact T1|]. clear. intros [j h] t t' _ (T1 & T2 & T3 & T4) H. ob H hits Hh. ob H lu Hl.
  unfold set_obstacle in H. ob H l L1. ob H u U1. injection H as <-. apply (set_at2_shape n no) in L1, U1; try assumption.
  unfold tables_shape. cbn [arenaLow arenaUpp obstacleLow obstacleUpp]. auto.
Qed.

(** ---- one sweep plane ---- *)
Definition zhit (x y : f64) (m : mesh64) : outcome (list f64) :=
  obind (vertical_line_mesh F64 (L3 (S := F64) (V3 (S := F64) x y (fofZ 0)) (V3 (S := F64) (fofZ 0) (fofZ 0) (fofZ 1))) m) (fun h => Ok (map vz h)).
Lemma zhits_map x ms y : zhits x (length ms) ms y = map (zhit x y) ms.
Proof.
  unfold zhits.
  assert (G : forall l pre, map (fun j => obind (at_ (pre ++ l) j) (fun m => zhit x y m)) (seq (length pre) (length l)) = map (zhit x y) l).
  { induction l as [|m l IH]; intros pre; [reflexivity|]. cbn [length seq map]. f_equal.
    - unfold at_. rewrite nth_error_app2 by lia. rewrite Nat.sub_diag. reflexivity.
    - specialize (IH (pre ++ [m])). rewrite <- app_assoc in IH. cbn [app] in IH. rewrite app_length in IH. cbn [length] in IH.
      rewrite Nat.add_1_r in IH. exact IH. }
  exact (G ms []).
Qed.

Section Space.
Variable E : env3.
Notation st := (state3 E).
Variable fsr : robot3 E.
Variable B : bmesh.
Variable nx ny : nat.
Variable l0 l1 l2 l3 l4 l5 : f64.
Hypothesis HB : m_mink E fsr = Ok B.
Hypothesis Hsrt : conforming (m_sort E).
Hypothesis Hl0 : nth_error (m_limits E) 0 = Some l0.
Hypothesis Hl1 : nth_error (m_limits E) 1 = Some l1.
Hypothesis Hl2 : nth_error (m_limits E) 2 = Some l2.
Hypothesis Hl3 : nth_error (m_limits E) 3 = Some l3.
Hypothesis Hl4 : nth_error (m_limits E) 4 = Some l4.
Hypothesis Hl5 : nth_error (m_limits E) 5 = Some l5.
Let nA := length (marena B).
Let nO := length (mobstacle B).
Let xs := grid nx l0 l1.
Let ys := grid ny l2 l3.
Let lc x := line_clear mesh64 (zhit x) l4 l5 (marena B) (mobstacle B).
Hypothesis Hmod : forall x c, In x xs -> In c ys -> arena_moderate (map (arena_pair l4 l5) (map (fun a => hits_of_o (zhit x c a)) (marena B))).

Lemma planes_clear (s' : st) t todo segs t' : q_nA s' = nA -> q_nO s' = nO -> q_fsmesh s' = B -> incl todo xs ->
  tables_shape ny nA nO t -> plane_segments E s' ys l4 l5 t todo segs t' ->
  tables_shape ny nA nO t' /\
  forall x seg, In (x, seg) segs -> In x xs /\ fty seg = ys /\
    forall i y zs z, nth_error ys i = Some y -> nth_error (fxM seg) i = Some zs -> In z zs -> lc x y z.
Proof.
  intros Qa Qo Qb I T P. revert I T. induction P as [t|t t1 t2 x todo seg segs C1 C2 Ft P IH]; intros I T.
  - split; [exact T|]. intros x seg [].
  - rewrite Qa, Qo, Qb in C1. unfold nA, nO in C1.
    rewrite (ci_ext l4 l5 _ _ (fun c => map (zhit x c) (marena B)) (fun c => map (zhit x c) (mobstacle B))) in C1 by (intros c _; rewrite !zhits_map; auto).
    assert (Ix : In x xs) by (apply I; left; reflexivity).
    destruct (sweep_clear (m_sort E) mesh64 (zhit x) l4 l5 Hsrt ny (marena B) (mobstacle B) ys t t1 seg T) as [T1 CL]; try assumption.
    { unfold ys. rewrite grid_length. lia. }
    { intros c Hc. exact (Hmod x c Ix Hc). }
    destruct (IH (fun a Ha => I a (or_intror Ha)) T1) as [T2 CL2]. split; [exact T2|].
    intros x' seg' [Q|Q]; [injection Q as <- <-|exact (CL2 x' seg' Q)]. split; [exact Ix|]. split; [exact Ft|].
    intros i y zs z Hy Hz Iz. exact (CL i y zs z Hy Hz Iz).
Qed.

(** ---- vertices ---- *)
Definition vclear3 (v : pose) : Prop := exists x y z tail, v = [x; y; z] ++ tail /\ In x xs /\ In y ys /\ lc x y z.
Definition vkind (vs : list pose) (k : nat) (v : pose) : Prop :=
  vclear3 v \/ exists i j v1 v2, (i < k)%nat /\ (j < k)%nat /\ nth_error vs i = Some v1 /\ nth_error vs j = Some v2 /\ corner3 B v1 v2 v.
Definition gkind (g : graph) : Prop := forall k v, nth_error (gvert g) k = Some v -> vkind (gvert g) k v.
Lemma gkind_more g vs e w : gkind g -> (forall v, In v vs -> vclear3 v \/ exists v1 v2, In v1 (gvert g) /\ In v2 (gvert g) /\ corner3 B v1 v2 v) ->
  gkind (Graph (gvert g ++ vs) e w).
Proof.
  intros G V k v Hk. cbn [gvert] in *. destruct (Nat.lt_ge_cases k (length (gvert g))) as [L|L].
  - rewrite nth_error_app1 in Hk by exact L. destruct (G k v Hk) as [C|(i & j & v1 & v2 & Li & Lj & H1 & H2 & C)]; [left; exact C|right].
    exists i, j, v1, v2. rewrite !nth_error_app1 by lia. auto.
  - rewrite nth_error_app2 in Hk by exact L. destruct (V v (nth_error_In _ _ Hk)) as [C|(v1 & v2 & H1 & H2 & C)]; [left; exact C|right].
    apply In_nth_error in H1, H2. destruct H1 as [i H1]. destruct H2 as [j H2].
    assert (Li : (i < length (gvert g))%nat) by (apply nth_error_Some; rewrite H1; discriminate).
    assert (Lj : (j < length (gvert g))%nat) by (apply nth_error_Some; rewrite H2; discriminate).
    exists i, j, v1, v2. rewrite !nth_error_app1 by lia. split; [lia|]. split; [lia|]. auto.
Qed.
Lemma gkind_edges g g' : gvert g' = gvert g -> gkind g -> gkind g'.
Proof. unfold gkind. intros ->. auto. Qed.
Notation free := (same_slice_free3 B).
Lemma try_edge_kind a b g g' : gkind g -> try_edge free a b g = Ok g' -> gkind g'.
Proof.
  intros G H. unfold try_edge in H. ob H v1 Hv1. ob H v2 Hv2. ob H fr F. apply idx_Ok in Hv1, Hv2. destruct fr.
  { apply add_edge_inv in H. destruct H as (? & ? & ? & _ & _ & _ & ->). exact (gkind_edges _ _ eq_refl G). }
  unfold bridge in H. ob H u1 Hu1. ob H u2 Hu2. apply at_Ok in Hu1, Hu2. rewrite Hv1 in Hu1. rewrite Hv2 in Hu2. injection Hu1 as <-. injection Hu2 as <-.
  ob H zb Hc2. apply at_Ok in Hc2. ob H new1 Hn1. ob H za Hc1. apply at_Ok in Hc1. ob H new2 Hn2.
  destruct v1 as [|x1 [|y1 [|z1 r1]]]; try discriminate Hc1. destruct v2 as [|x2 [|y2 [|z2 r2]]]; try discriminate Hc2.
  cbn [nth_error] in Hc1, Hc2. injection Hc1 as ->. injection Hc2 as ->. cbn [set_at upd] in Hn1, Hn2. injection Hn1 as <-. injection Hn2 as <-.
  ob H ba Hb1. ob H vn Vn.
  assert (AND : forall o1 o2, oand o1 o2 = Ok true -> o1 = Ok true /\ o2 = Ok true).
  { intros o1 o2 Q. unfold oand in Q. destruct o1 as [[|]| |]; cbn [obind] in Q; try discriminate Q. auto. }
  assert (K : forall v, vn = Some v -> corner3 B (x1 :: y1 :: za :: r1) (x2 :: y2 :: zb :: r2) v).
  { intros v Ev. destruct ba.
    - injection Vn as Vn. rewrite <- Vn in Ev. injection Ev as <-. apply AND in Hb1. split; [|exact Hb1].
      exists x1, y1, za, r1, x2, y2, zb, r2. auto.
    - ob Vn bb Hb2. injection Vn as Vn. destruct bb; [|rewrite <- Vn in Ev; discriminate Ev]. rewrite <- Vn in Ev. injection Ev as <-. apply AND in Hb2.
      split; [|exact Hb2]. exists x1, y1, za, r1, x2, y2, zb, r2. auto. }
  clear Vn Hb1 F. destruct vn as [v|]; [|injection H as <-; exact G]. ob H w1 Hw1. ob H w2 Hw2. injection H as <-.
  apply gkind_more; [exact G|]. intros v' [<- |[]]. right. exists (x1 :: y1 :: za :: r1), (x2 :: y2 :: zb :: r2).
  split; [exact (nth_error_In _ _ Hv1)|]. split; [exact (nth_error_In _ _ Hv2)|]. exact (K v eq_refl).
Qed.
Lemma connect2d_kind plane seg g g' : gkind g -> connect2d free plane seg g = Ok g' -> gkind g'.
Proof.
  intros G H. unfold connect2d in H. apply (ofold_inv _ gkind) in H; [exact H|exact G|].
  clear g g' G H. intros i g g' Hi G H. ob H n1 HE1. ob H xm HE2. apply (ofold_inv _ gkind) in H; [exact H|exact G|].
  clear g g' G H. intros j1 g g' Hj G H. ob H g2 HS2.
  assert (G2 : gkind g2).
  { unfold same_line in HS2. destruct (Nat.eqb _ _); [injection HS2 as <-; exact G|]. ob HS2 a1 HQ1. ob HS2 a2 HQ2. ob HS2 a3 HQ3. ob HS2 a4 HQ4.
    destruct (fltb _ _); [|injection HS2 as <-; exact G]. apply add_edge_inv in HS2. destruct HS2 as (? & ? & ? & _ & _ & _ & ->). exact (gkind_edges _ _ eq_refl G). }
  destruct (Nat.eqb i (length (fty seg) - 1)); [injection H as <-; exact G2|].
  ob H n2 HE3. ob H xm2 HE4. apply (ofold_inv _ gkind) in H; [exact H|exact G2|]. intros j2 t t' _ Gt Ht. exact (try_edge_kind _ _ _ _ Gt Ht).
Qed.
Definition segs_clear (segs : freeseg3) : Prop := forall x seg, In (x, seg) segs -> In x xs /\ fty seg = ys /\
    forall i y zs z, nth_error ys i = Some y -> nth_error (fxM seg) i = Some zs -> In z zs -> lc x y z.
Lemma connect3d_kind q js segs g g' line : segs_clear segs -> gkind g -> connect3d free q js segs g = Ok (g', line) -> gkind g'.
Proof.
  intros SC G H. unfold connect3d in H. ob H gl Hp. destruct gl as [g1 ln]. ob H g2 Hb. injection H as <- _. cbn [fst snd] in Hb.
  assert (G1 : gkind g1).
  { unfold connect_planes in Hp. change g1 with (fst (g1, ln)).
    apply (ofold_inv _ (fun p : graph * list (list nat) => gkind (fst p))) in Hp; [exact Hp|exact G|].
    clear g g1 g2 ln G Hp Hb. intros [x seg] [g l] p Hin G H. cbn [fst] in *. ob H gp Hg. destruct gp as [g2 plane]. ob H g3 Hc. injection H as <-. cbn [fst snd] in *.
    apply (connect2d_kind _ _ _ _) in Hc; [exact Hc|]. pose proof (gen_vertices_len _ _ _ _ _ Hg) as L. rewrite gen_vertices_spec in Hg by exact L. injection Hg as <- _.
    apply gkind_more; [exact G|]. intros v Hv. left. apply line_vertices_at in Hv.
    destruct Hv as (i & y & xm & z & N1 & N2 & N3 & ->). destruct (SC x seg Hin) as (Ix & Ft & CL). rewrite Ft in N1.
    exists x, y, z, (quat_list q ++ js). split; [reflexivity|]. split; [exact Ix|]. split; [exact (nth_error_In _ _ N1)|]. exact (CL i y xm z N1 N2 N3). }
  clear Hp G g. unfold between_planes in Hb. destruct segs as [|s0 segs0] eqn:Es; [discriminate Hb|]. rewrite <- Es in *. clear s0 segs0 Es.
  apply (ofold_inv _ gkind) in Hb; [exact Hb|exact G1|]. clear g1 g2 G1 Hb. intros i g g' Hi G H. ob H sg Hsg.
  apply (ofold_inv _ gkind) in H; [exact H|exact G|]. clear g g' G H. intros j g g' Hj G H. ob H pa Hp1. ob H na1 Hn1. ob H pb Hp2. ob H nb1 Hn2. ob H xa Hx1.
  apply (ofold_inv _ gkind) in H; [exact H|exact G|]. clear g g' G H. intros k1 g g' Hk1 G H. ob H sgb Hsg2. ob H xb Hx2.
  apply (ofold_inv _ gkind) in H; [exact H|exact G|]. clear g g' G H. intros k2 g g' Hk2 G H. exact (try_edge_kind _ _ _ _ G H).
Qed.

(** ---- the invariant ---- *)
Definition cinv3 (s : st) : Prop :=
  tables_shape ny nA nO (q_tables s) /\ q_fsrobot s = fsr /\ q_refine s = false /\ q_numLineX s = nx /\ q_numLineY s = ny /\ gkind (q_graph s).
Lemma slice_cinv3 i (s s' : st) : cinv3 s -> construct_slice3 E i s = Ok s' -> cinv3 s' /\ q_numSlice s' = q_numSlice s.
Proof.
  intros (T & Fr & Rf & Nx & Ny & V) H. apply construct_slice3_inv in H.
  destruct H as (v & js & segs & line & _ & _ & _ & Sg & Hc & _ & _ & _ & Bd & _ & _ & En & Ex & Ey & Ef & _ & _ & Er & _).
  rewrite Rf in Bd. destruct Bd as (Q1 & _ & Q2 & Q3 & Q4). rewrite Fr, HB in Q1. injection Q1 as Q1. rewrite <- Q1 in Q2, Q3, Q4, Hc.
  destruct Sg as (m0 & m1 & m2 & m3 & m4 & m5 & M0 & M1 & M2 & M3 & M4 & M5 & P).
  rewrite Hl0 in M0. rewrite Hl1 in M1. rewrite Hl2 in M2. rewrite Hl3 in M3. rewrite Hl4 in M4. rewrite Hl5 in M5.
  injection M0 as <-. injection M1 as <-. injection M2 as <-. injection M3 as <-. injection M4 as <-. injection M5 as <-.
  rewrite Nx, Ny in P. fold xs ys in P. destruct (planes_clear s' _ _ _ _ Q3 Q4 Q2 (incl_refl _) T P) as [T' SC].
  split; [|exact En]. unfold cinv3. rewrite Ef, Er, Ex, Ey. split; [exact T'|]. split; [exact Fr|]. split; [exact Rf|]. split; [exact Nx|]. split; [exact Ny|].
  exact (connect3d_kind _ _ _ _ _ _ SC V Hc).
Qed.
Lemma with_graph_cinv3 (s : st) g : gvert g = gvert (q_graph s) -> cinv3 s -> cinv3 (with_graph3 E s g).
Proof. intros V (T & Fr & Rf & Nx & Ny & K). unfold cinv3, with_graph3. cbn [q_tables q_fsrobot q_refine q_numLineX q_numLineY q_graph]. do 5 (split; [assumption|]). exact (gkind_edges _ _ V K). Qed.
Lemma search_cinv3 (s s' : st) : cinv3 s -> do_search3 E s = Ok s' -> cinv3 s'.
Proof. intros I H. apply do_search3_inv in H. destruct H as (ss & ts & r & _ & _ & _ & ->). exact I. Qed.
Lemma rows_cinv3 (s : st) : cinv3 s -> rows (q_tables s) = q_numLineY s.
Proof. intros (((L & _) & _) & _ & _ & _ & Ny & _). unfold rows. rewrite L, Ny. reflexivity. Qed.
Lemma prob_step_cinv3 d (s s' : st) : m_prob E = true -> cinv3 s -> prob_step E d s = Ok s' -> cinv3 s'.
Proof.
  intros Hp I H. unfold prob_step in H. ob H s1 H1. apply sample_prob_facts in H1. destruct H1 as (q & c & -> & _).
  set (sa := with_samples E s (q_quats s ++ [q]) (q_confs s ++ [c]) (q_numSlice s)) in *.
  assert (Ia : cinv3 sa) by exact I. clearbody sa. ob H s2 H2. apply slice_cinv3 in H2; [|exact Ia]. destruct H2 as [I2 N2].
  assert (Ib : cinv3 (record_slice3 E (bump E s2)) /\ q_numSlice (record_slice3 E (bump E s2)) <> 0).
  { unfold bump. rewrite (proj1 (proj2 (proj2 I2))). split; [exact I2|]. cbn [record_slice3 with_samples q_numSlice]. lia. }
  revert H Ib. generalize (record_slice3 E (bump E s2)) as sb. intros sb H [Ib Nb]. clear I2 N2 s2 Ia sa I.
  ob H s4 H4. assert (I4 : cinv3 s4 /\ q_numSlice s4 = q_numSlice sb).
  { destruct (Nat.leb 2 (q_numSlice sb)); [|injection H4 as <-; auto]. apply connect_last3_grew in H4; [|exact Hp].
    destruct H4 as (g & -> & _ & Gv). split; [exact (with_graph_cinv3 sb g Gv Ib)|reflexivity]. }
  destruct I4 as [I4 N4]. ob H s5 H5. pose proof (search_cinv3 _ _ I4 H5) as I5.
  assert (N5 : q_numSlice s5 = q_numSlice s4) by (apply do_search3_inv in H5; destruct H5 as (? & ? & ? & _ & _ & _ & ->); reflexivity).
  destruct (Nat.eqb (q_numSlice s5 mod 60) 0 && Nat.ltb (length (q_vidxAll s5)) (m_numPoint E))%bool; [|injection H as <-; exact I5].
  exfalso. eapply refine3_never; [apply rows_cinv3; exact I5| |exact H]. lia.
Qed.
Lemma prob_loop_cinv3 ds : m_prob E = true -> forall d (s s' : st), cinv3 s -> prob_loop E d ds s = Ok s' -> cinv3 s'.
Proof.
  intros Hp. induction ds as [|d' ds IH]; intros d s s' I H; cbn [prob_loop] in H; ob H s1 H1; apply prob_step_cinv3 in H1; try assumption.
  - destruct (s_solved (q_sol s1)); injection H as <-; exact H1.
  - destruct (s_solved (q_sol s1)); [injection H as <-; exact H1|]. exact (IH d' s1 s' H1 H).
Qed.
Lemma planned3_cinv s0 s : reachable3 E s0 -> cinv3 s0 -> planned3 E s0 s -> reachable3 E s /\ cinv3 s.
Proof.
  intros R0 I0 H. induction H as [|s rq rounds s' r Hp _ (R & I) H|s d ds s' r Hp _ (R & I) H|s bd s' segs _ (R & I) H]; [auto| | |].
  - split; [exact (reach3_plan E s rq rounds s' r Hp R H)|]. pose proof (reachable3_inv E s R) as (I3 & _).
    assert (I3' : inv3 E eq s) by (unfold rel3 in I3; rewrite Hp in I3; exact I3).
    destruct (plan3_keep E Hp rq rounds s s' r I3' H) as (s1 & H1 & H2 & _). apply (search_cinv3 s1); [|exact H2].
    unfold build_roadmap3 in H1. ob H1 s2 H3. apply connect_multi3_grew in H1; [|exact Hp]. destruct H1 as (g & -> & _ & Gv).
    apply with_graph_cinv3; [exact Gv|]. destruct (sample3_fields E rq s) as (qs & n & Es). rewrite Es in H3.
    apply (ofold_inv _ cinv3) in H3; [exact H3|exact I|]. intros i a b _ Ia Hab. ob Hab c Hc. injection Hab as <-. apply slice_cinv3 in Hc; [|exact Ia]. exact (proj1 Hc).
  - split; [exact (reach3_prob E s d ds s' r Hp R H)|]. unfold plan_prob in H. ob H s1 H1.
    assert (s' = s1) as -> by (destruct (s_solved (q_sol s1)); [ob H p Hpp; ob H ip Hip|]; injection H as <- _; auto).
    exact (prob_loop_cinv3 ds Hp d (with_samples E s (q_quats s) (q_confs s) 0) s1 I H1).
  - split; [exact (reach3_seg E s bd s' segs R H)|]. apply free_segment3_inv in H. destruct H as (t & -> & _ & Sg).
    destruct I as (T & Fr & Rf & Nx & Ny & K). unfold cinv3. cbn [q_tables q_fsrobot q_refine q_numLineX q_numLineY q_graph]. split; [|auto].
    destruct Sg as (m0 & m1 & m2 & m3 & m4 & m5 & _ & _ & _ & _ & _ & _ & P). cbn [q_tables] in P. revert P T. generalize (grid (q_numLineX s) m0 m1) as todo.
    generalize (q_tables s) as t0. intros t0 todo P. induction P as [t1|t1 t2 t3 x todo seg segs C1 C2 Ft P IH]; intros T; [exact T|].
    apply IH. exact (compute_intersection_shape _ _ _ _ _ _ _ _ _ _ T C1).
Qed.
Lemma construct3_cinv nS s0 : construct3 E fsr nS nx ny nA nO = Ok s0 -> cinv3 s0.
Proof.
  unfold construct3. intros H. ob H a0 Ha0. ob H a1 Ha1. injection H as <-. unfold cinv3. cbn [q_tables q_fsrobot q_refine q_numLineX q_numLineY q_graph].
  split; [apply setup_shape|]. do 4 (split; [reflexivity|]). intros k v Hk. destruct k; discriminate Hk.
Qed.
End Space.

Local Open Scope R_scope.
Lemma zhit_heights x y m hs : zhit x y m = Ok hs <-> heights3 m x y hs.
Proof.
  unfold zhit, heights3. split.
  - intros H. ob H h Hh. injection H as <-. exists h. auto.
  - intros (h & -> & ->). reflexivity.
Qed.
Lemma spatial_clear (E : env3) robot B nS nx ny s0 s l0 l1 l2 l3 l4 l5 : conforming (m_sort E) -> m_limits E = [l0; l1; l2; l3; l4; l5] ->
  fisnan l4 = false -> fisnan l5 = false -> Rabs (fval l4) <= bpow radix2 1022 -> Rabs (fval l5) <= bpow radix2 1022 ->
  m_mink E robot = Ok B ->
  (forall x y, In x (grid nx l0 l1) -> In y (grid ny l2 l3) -> moderate_arena3 B x y) ->
  construct3 E robot nS nx ny (length (marena B)) (length (mobstacle B)) = Ok s0 -> planned3 E s0 s ->
  forall k v, nth_error (gvert (q_graph s)) k = Some v ->
    (exists x y z tail, v = [x; y; z] ++ tail /\ In x (grid nx l0 l1) /\ In y (grid ny l2 l3) /\
       fisnan z = false /\ clear3 B x y z /\ in_arena3 B l4 l5 x y z) \/
    (exists i j v1 v2, (i < k)%nat /\ (j < k)%nat /\ nth_error (gvert (q_graph s)) i = Some v1 /\ nth_error (gvert (q_graph s)) j = Some v2 /\
       corner3 B v1 v2 v).
Proof.
  intros Hs Lm N0 N1 B0 B1 HB MO C P k v Hv.
  assert (HM : forall x c, In x (grid nx l0 l1) -> In c (grid ny l2 l3) -> arena_moderate (map (arena_pair l4 l5) (map (fun a => hits_of_o (zhit x c a)) (marena B)))).
  { intros x c Hx Hc. apply moderate_pair; try assumption. intros l h Il Ih. apply in_map_iff in Il. destruct Il as (p & <- & Ip).
    destruct (zhit x c p) as [hits| |] eqn:Q; cbn [hits_of_o] in Ih; try destruct Ih; apply zhit_heights in Q; exact (MO x c Hx Hc p hits h Ip Q Ih). }
  destruct (planned3_cinv E robot B nx ny l0 l1 l2 l3 l4 l5 HB Hs) with (s0 := s0) (s := s) as [_ (_ & _ & _ & _ & _ & VC)];
    try (rewrite Lm; reflexivity); try exact HM; try exact P.
  - exact (reach3_new E _ _ _ _ _ _ _ C).
  - exact (construct3_cinv E robot B nx ny l0 l1 l2 l3 l4 l5 nS s0 C).
  - destruct (VC k v Hv) as [(x & y & z & tail & -> & Hx & Hy & (Nz & (_ & AR & OB)))|K]; [left|right; exact K].
    exists x, y, z, tail. split; [reflexivity|]. split; [exact Hx|]. split; [exact Hy|]. split; [exact Nz|]. split.
    + intros p h0 h1 Ip (rest & Hh & M0 & M1). apply zhit_heights in Hh. apply (not_between h0 h1 _ _ M0 M1 OB). exists rest. apply in_map_iff. exists p. rewrite Hh. auto.
    + intros p h0 h1 Ip (rest & Hh & M0 & M1). apply zhit_heights in Hh. apply (within_arena l4 l5 h0 h1 _ _ N0 N1 M0 M1 AR). exists rest. apply in_map_iff. exists p. rewrite Hh. auto.
Qed.
