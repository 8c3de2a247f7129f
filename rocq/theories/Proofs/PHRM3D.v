(** One slice of the spatial planners and the linking of slices. *)
From Coq Require Import List Bool Arith Lia ZArith Reals Lra.
From Verif.Base Require Import Outcome Float64.
From Verif.Model Require Import MScalar MDistance MInterval MFreeSpace MLine3D MInterp MGraph MSearch MHRM3D.
From Verif.Spec Require Import SGraph SPlanner2D SPlanner3D.
From Verif.Proofs Require Import PGraph PHRM2D PPlan2D PGraph3D PNearest.
Import ListNotations.

(** ---- nearest slice ---- *)
Lemma fltb_ge_trans x y z : fltb x y = true -> fltb z y = false -> fltb x z = true \/ forall w, fltb z w = false.
Proof.
  intros H1 H2. destruct (fltb_num _ _ H1) as [A B]. destruct (fisnan z) eqn:N.
  - right. intros w. apply fltb_nan_l. auto.
  - left. apply fltb_val in H1; auto. apply fltb_val; auto. destruct (Rlt_le_dec (fval z) (fval y)) as [Q|Q]; [|lra].
    apply fltb_val in Q; auto. congruence.
Qed.

Lemma nearest_slice_spec d m j : nearest_slice d (seq 0 m) = Ok j ->
  exists e : nat -> f64, (forall i, i < m -> d i = Ok (e i)) /\ nearest_of m e j.
Proof.
  unfold nearest_slice. intros H. ob H r Hr. injection H as <-.
  set (e := fun i => match d i with Ok x => x | _ => fnan end).
  exists e.
  assert (G : forall k l st st', ofold (fun '(mm, best) j => obind (d j) (fun x => Ok (if fltb x mm then (x, j) else (mm, best)))) (seq k l) st = Ok st' ->
     (forall i, i < k -> d i = Ok (e i)) ->
     ((fst st = finf /\ snd st = 0 /\ forall i, i < k -> fltb (e i) finf = false) \/
      (snd st < k /\ fst st = e (snd st) /\ fltb (fst st) finf = true /\ (forall i, i < k -> fltb (e i) (fst st) = false) /\
         (forall i, i < snd st -> fltb (fst st) (e i) = true \/ fltb (e i) finf = false))) ->
     (forall i, i < k + l -> d i = Ok (e i)) /\
     ((fst st' = finf /\ snd st' = 0 /\ forall i, i < k + l -> fltb (e i) finf = false) \/
      (snd st' < k + l /\ fst st' = e (snd st') /\ fltb (fst st') finf = true /\ (forall i, i < k + l -> fltb (e i) (fst st') = false) /\
         (forall i, i < snd st' -> fltb (fst st') (e i) = true \/ fltb (e i) finf = false)))).
  { intros k l. revert k. induction l as [|l IH]; intros k [mm best] st' H D I.
    - cbn [seq ofold] in H. injection H as <-. rewrite Nat.add_0_r. auto.
    - cbn [seq ofold] in H. ob H st1 H1. ob H1 x Hx. injection H1 as <-.
      assert (Ek : e k = x) by (unfold e; rewrite Hx; reflexivity).
      replace (k + S l) with (S k + l) by lia. apply (IH (S k) _ _ H).
      + intros i Hi. destruct (Nat.eq_dec i k) as [->|]; [rewrite Ek; auto|apply D; lia].
      + cbn [fst snd] in I. destruct (fltb x mm) eqn:C; cbn [fst snd].
        * right. split; [lia|]. split; [auto|]. destruct I as [(I1 & I2 & I3)|(I1 & I2 & I3 & I4 & I5)].
          { rewrite I1 in C. split; [auto|]. split.
            - intros i Hi. destruct (Nat.eq_dec i k) as [->|]; [rewrite Ek; apply fltb_irrefl|].
              destruct (fltb (e i) x) eqn:Q; [|auto]. pose proof (fltb_trans _ _ _ Q C) as Q2. rewrite (I3 i) in Q2 by lia. discriminate Q2.
            - intros i Hi. right. apply I3. lia. }
          { split; [eapply fltb_trans; eauto|]. split.
            - intros i Hi. destruct (Nat.eq_dec i k) as [->|]; [rewrite Ek; apply fltb_irrefl|].
              destruct (fltb (e i) x) eqn:Q; [|auto]. pose proof (fltb_trans _ _ _ Q C) as Q2. rewrite (I4 i) in Q2 by lia. discriminate Q2.
            - intros i Hi. destruct (fltb_ge_trans x mm (e i) C (I4 i ltac:(lia))) as [Q|Q]; auto. }
        * destruct I as [(I1 & I2 & I3)|(I1 & I2 & I3 & I4 & I5)]; [left|right].
          { split; [auto|]. split; [auto|]. intros i Hi. destruct (Nat.eq_dec i k) as [->|]; [rewrite Ek; congruence|apply I3; lia]. }
          { split; [lia|]. split; [auto|]. split; [auto|]. split; [|auto].
            intros i Hi. destruct (Nat.eq_dec i k) as [->|]; [rewrite Ek; congruence|apply I4; lia]. } }
  destruct (G 0 m _ _ Hr) as [D I].
  - intros i Hi. lia.
  - left. split; [auto|]. split; [auto|]. intros i Hi. lia.
  - split; [exact D|]. destruct I as [(I1 & I2 & I3)|(I1 & I2 & I3 & I4 & I5)]; [right|left].
    + auto.
    + rewrite I2 in I3, I4, I5. auto.
Qed.

Section P.
Variable E : env3.
Notation st := (state3 E).

Lemma grid_length n lo hi : length (grid n lo hi) = n.
Proof. unfold grid. rewrite map_length, seq_length. reflexivity. Qed.

(** ---- the sweep-line process ---- *)
Lemma free_segment_ty srt t ty seg : compute_free_segment srt t ty = Ok seg -> fty seg = ty.
Proof. unfold compute_free_segment. intros H. ob H rs Hr. ob H er Her. injection H as <-. reflexivity. Qed.

Lemma plane_segments_app (s' : st) ty l4 l5 t xs segs t1 x seg t2 : plane_segments E s' ty l4 l5 t xs segs t1 ->
  compute_intersection l4 l5 (zhits x (q_nA s') (marena (q_fsmesh s'))) (zhits x (q_nO s') (mobstacle (q_fsmesh s'))) ty t1 = Ok t2 ->
  compute_free_segment (m_sort E) t2 ty = Ok seg ->
  plane_segments E s' ty l4 l5 t (xs ++ [x]) (segs ++ [(x, seg)]) t2.
Proof.
  induction 1 as [t|t u1 u2 y ys sg sgs A B C _ IH]; intros H1 H2; cbn [app].
  - eapply ps_cons; [exact H1|exact H2|eapply free_segment_ty; exact H2|constructor].
  - eapply ps_cons; [exact A|exact B|exact C|]. apply IH; assumption.
Qed.
Lemma plane_segments_rows (s' : st) ty l4 l5 t xs segs t1 : plane_segments E s' ty l4 l5 t xs segs t1 ->
  rows t1 = rows t /\ map fst segs = xs /\ (forall i x seg, nth_error segs i = Some (x, seg) -> fty seg = ty) /\
  (xs <> [] -> ty <> [] /\ length ty <= rows t).
Proof.
  induction 1 as [t|t u1 u2 y ys sg sgs A B C _ (I1 & I2 & I3 & I4)].
  - split; [auto|]. split; [auto|]. split; [intros [|i] x seg H; discriminate H|]. intros H. congruence.
  - apply compute_intersection_rows in A. split; [congruence|]. split; [cbn; congruence|]. split.
    + intros [|i] x seg H; cbn in H; [injection H as <- <-; auto|eauto].
    + intros _. apply free_segment_rows in B. rewrite A in B. auto.
Qed.

Lemma sweep3_spec (s s1 s' : st) ts : sweep_process3 E s1 = Ok ts ->
  q_numLineX s1 = q_numLineX s -> q_numLineY s1 = q_numLineY s -> q_tables s1 = q_tables s ->
  q_nA s' = q_nA s1 -> q_nO s' = q_nO s1 -> q_fsmesh s' = q_fsmesh s1 -> q_tables s' = fst ts ->
  slice_segments3 E s s' (snd ts).
Proof.
  unfold sweep_process3. intros H E1 E2 E3 E4 E5 E6 E7. unfold lim3 in H.
  ob H l0 Hl0. ob H l1 Hl1. ob H l2 Hl2. ob H l3 Hl3. ob H l4 Hl4. ob H l5 Hl5. apply idx_Ok in Hl0, Hl1, Hl2, Hl3, Hl4, Hl5.
  exists l0, l1, l2, l3, l4, l5. do 6 (split; [assumption|]). rewrite E7. rewrite <- E1, <- E2, <- E3.
  apply (ofold_inv_prefix _ (fun done (tt : tables * freeseg3) => plane_segments E s' (grid (q_numLineY s1) l2 l3) l4 l5 (q_tables s1) done (snd tt) (fst tt)))
    with (done := []) in H; auto.
  - cbn [fst snd]. constructor.
  - intros done x [t acc] st' _ I HH. cbn [fst snd] in *. ob HH t1 T1. ob HH seg S1. injection HH as <-. cbn [fst snd].
    eapply plane_segments_app; eauto. rewrite E4, E5, E6. exact T1.
Qed.

(** ---- construction of one slice ---- *)
Lemma construct_slice3_inv i (s s' : st) : construct_slice3 E i s = Ok s' ->
  exists v js segs line, slice_pose E i s = Ok v /\ set_transform3 E (q_robot s) v = Ok (q_robot s') /\
    joints_of E s = Ok js /\ slice_segments3 E s s' segs /\
    connect3d (same_slice_free3 (q_slice s')) (m_quat E (q_robot s')) js segs (q_graph s) = Ok (q_graph s', line) /\
    vstart (q_nv s') = length (gvert (q_graph s)) /\ vslice (q_nv s') = length (gvert (q_graph s')) /\ vline (q_nv s') = line /\
    (if q_refine s then nth_error (q_sliceAll s) i = Some (q_slice s') /\ q_sliceAll s' = q_sliceAll s
     else m_mink E (q_fsrobot s) = Ok (q_slice s') /\ q_sliceAll s' = q_sliceAll s ++ [q_slice s'] /\ q_fsmesh s' = q_slice s' /\
          q_nA s' = length (marena (q_slice s')) /\ q_nO s' = length (mobstacle (q_slice s'))) /\
    q_quats s' = q_quats s /\ q_confs s' = q_confs s /\ q_numSlice s' = q_numSlice s /\
    q_numLineX s' = q_numLineX s /\ q_numLineY s' = q_numLineY s /\ q_fsrobot s' = q_fsrobot s /\
    q_vidx s' = q_vidx s /\ q_vidxAll s' = q_vidxAll s /\ q_refine s' = q_refine s /\ q_sol s' = q_sol s.
Proof.
  unfold construct_slice3. intros H. ob H v Hv. ob H rb Hrb. ob H b Hb. destruct b as [[[[nA nO] fsm] sb] all].
  ob H ts Hts. ob H js Hj. ob H gl Hg. destruct gl as [g line]. cbn [fst snd] in H. injection H as <-.
  cbn [q_quats q_confs q_numSlice q_numLineX q_numLineY q_robot q_fsrobot q_nA q_nO q_fsmesh q_tables q_slice q_sliceAll q_graph q_nv q_vidx q_vidxAll q_refine q_sol vstart vslice vline].
  exists v, js, (snd ts), line. split; [auto|]. split; [auto|]. split; [exact Hj|].
  split; [eapply sweep3_spec; [exact Hts|reflexivity..]|]. split; [exact Hg|]. split; [auto|]. split; [auto|]. split; [auto|]. split; [|auto 12].
  destruct (q_refine s).
  - ob Hb b Hat. injection Hb as _ _ _ <- <-. apply at_Ok in Hat. auto.
  - ob Hb b Hat. injection Hb as <- <- <- <- <-. auto.
Qed.

Lemma slice_segments3_facts (s s' : st) segs : slice_segments3 E s s' segs ->
  exists l0 l1 l2 l3, nth_error (m_limits E) 0 = Some l0 /\ nth_error (m_limits E) 1 = Some l1 /\
    nth_error (m_limits E) 2 = Some l2 /\ nth_error (m_limits E) 3 = Some l3 /\
    rows (q_tables s') = rows (q_tables s) /\ map fst segs = grid (q_numLineX s) l0 l1 /\
    (forall i x seg, nth_error segs i = Some (x, seg) -> fty seg = grid (q_numLineY s) l2 l3) /\
    (segs <> [] -> 0 < q_numLineY s <= rows (q_tables s)).
Proof.
  intros (l0 & l1 & l2 & l3 & l4 & l5 & Hl0 & Hl1 & Hl2 & Hl3 & Hl4 & Hl5 & P).
  exists l0, l1, l2, l3. do 4 (split; [assumption|]). apply plane_segments_rows in P. destruct P as (A & B & C & D).
  split; [auto|]. split; [auto|]. split; [auto|]. intros Ne. rewrite grid_length in D.
  destruct D as [D1 D2]; [rewrite <- B; destruct segs; [congruence|discriminate]|].
  split; [|auto]. destruct (q_numLineY s) eqn:Q; [|lia]. exfalso. apply D1. reflexivity.
Qed.

(** ---- edges ---- *)
Definition good_edges3 (s : st) : Prop :=
  forall k a b, nth_error (gedge (q_graph s)) k = Some (a, b) ->
    exists v1 v2, nth_error (gvert (q_graph s)) a = Some v1 /\ nth_error (gvert (q_graph s)) b = Some v2 /\ justified3 E s a b v1 v2.
Definition incl_ctx3 (s s' : st) : Prop :=
  incl (q_sliceAll s) (q_sliceAll s') /\ incl (q_quats s) (q_quats s') /\ incl (q_confs s) (q_confs s').
Lemma justified3_mono s s' a b v1 v2 : incl_ctx3 s s' -> justified3 E s a b v1 v2 -> justified3 E s' a b v1 v2.
Proof.
  intros (I1 & I2 & I3) [H|[(bd & H1 & H2)|(r & br & B & C)]]; [left; auto|right; left; eauto|right; right].
  exists r, br. split; [|auto]. destruct B as [(P & q1 & q2 & A & B & D)|(P & q1 & q2 & A & B & D)]; [left|right]; split; auto; exists q1, q2; auto.
Qed.
Lemma good_edges3_grew (s s' : st) : incl_ctx3 s s' -> grew (justified3 E s') (q_graph s) (q_graph s') -> good_edges3 s -> good_edges3 s'.
Proof.
  intros HI (X & _ & N) H k a b Hk. destruct (Nat.lt_ge_cases k (length (gedge (q_graph s)))) as [L|L].
  - rewrite (extends_edge_inv _ _ _ X L) in Hk. destruct (H k a b Hk) as (v1 & v2 & A & B & C).
    exists v1, v2. split; [eapply extends_vert; eauto|]. split; [eapply extends_vert; eauto|]. eapply justified3_mono; eauto.
  - apply N with (k := k); auto.
Qed.

Lemma slice3_grew i (s s' : st) : construct_slice3 E i s = Ok s' ->
  incl_ctx3 s s' /\ grew (justified3 E s') (q_graph s) (q_graph s') /\ In (q_slice s') (q_sliceAll s').
Proof.
  intros H. apply construct_slice3_inv in H.
  destruct H as (v & js & segs & line & _ & _ & _ & Sg & Hc & _ & _ & _ & Hsl & Eq & Ec & _).
  assert (HIn : In (q_slice s') (q_sliceAll s') /\ incl (q_sliceAll s) (q_sliceAll s')).
  { destruct (q_refine s).
    - destruct Hsl as (A & B). rewrite B. split; [eapply nth_error_In; eauto|apply incl_refl].
    - destruct Hsl as (_ & B & _). rewrite B. split; [apply in_or_app; right; left; auto|apply incl_appl, incl_refl]. }
  destruct HIn as [HIn Hic].
  split; [split; [auto|]; rewrite Eq, Ec; split; apply incl_refl|]. split; [|auto].
  apply (connect3d_spec _ _ _ []) in Hc. destruct Hc as (_ & Ll & X & W & N & Ne & Po & _).
  split; [exact X|]. split; [exact W|]. intros k a b Hk Hn. destruct (Ne k a b Hk Hn) as (v1 & v2 & A & B & J).
  exists v1, v2. split; [auto|]. split; [auto|]. destruct J as [(i' & j & k' & x & seg & S0 & S1 & S2 & _)|[F _]].
  - left. pose proof (Po _ _ _ _ S1) as (x1 & sg1 & y1 & xm1 & z1 & P1 & P2 & P3 & P4 & P5).
    pose proof (Po _ _ _ _ S2) as (x2 & sg2 & y2 & xm2 & z2 & Q1 & Q2 & Q3 & Q4 & Q5).
    destruct S1 as (p1 & n1 & a1 & b1 & c1 & T1 & T2 & _ & _ & _ & ->). destruct S2 as (p2 & n2 & a2 & b2 & c2 & U1 & U2 & _ & _ & _ & ->).
    rewrite T1 in U1. injection U1 as <-. rewrite T2 in U2. injection U2 as <-. split; [lia|].
    rewrite P1 in Q1. injection Q1 as <- <-. rewrite P2 in Q2. injection Q2 as <-.
    rewrite A in P5. injection P5 as ->. rewrite B in Q5. injection Q5 as ->.
    exists x1, y1, z1, z2, (quat_list (m_quat E (q_robot s')) ++ js). auto.
  - right. left. exists (q_slice s'). auto.
Qed.

Lemma connect_multi3_grew (s s' : st) : m_prob E = false -> connect_multi3 E s = Ok s' ->
  exists g, s' = with_graph3 E s g /\ grew (justified3 E s) (q_graph s) g /\ gvert g = gvert (q_graph s).
Proof.
  unfold connect_multi3. intros Pf H. destruct (Nat.eqb (length (q_vidx s)) 1).
  { injection H as <-. exists (q_graph s). split; [destruct s; reflexivity|]. split; [apply grew_refl|auto]. }
  ob H g Hg. injection H as <-. exists g. split; [auto|].
  apply (ofold_inv _ (fun x => grew (justified3 E s) (q_graph s) x /\ gvert x = gvert (q_graph s))) in Hg; auto.
  { split; [apply grew_refl|auto]. }
  clear g Hg. intros i g g' _ [G V] H. ob H j Hj. ob H vi Hi. ob H vj Hvj. ob H qi Hqi. ob H qj Hqj. ob H br Hbr.
  apply link_ranges_grew in H. destruct H as [G' V']. split; [|congruence].
  eapply grew_trans; [exact G|]. eapply grew_weaken; [|exact G'].
  intros a b v1 v2 (_ & _ & _ & Hok). right. right. apply at_Ok in Hqi, Hqj.
  exists (q_robot s), br. split; [|auto]. left. split; [auto|]. exists qi, qj. split; [eapply nth_error_In; eauto|]. split; [eapply nth_error_In; eauto|auto].
Qed.
Lemma back_In {A} (l : list A) x : back_ l = Ok x -> In x l.
Proof. unfold back_. intros H. apply idx_Ok in H. eapply nth_error_In; eauto. Qed.
Lemma connect_last3_grew (s s' : st) : m_prob E = true -> connect_last3 E s = Ok s' ->
  exists g, s' = with_graph3 E s g /\ grew (justified3 E s) (q_graph s) g /\ gvert g = gvert (q_graph s).
Proof.
  unfold connect_last3. intros Pf H. destruct (Nat.eqb (q_numSlice s) 1).
  { injection H as <-. exists (q_graph s). split; [destruct s; reflexivity|]. split; [apply grew_refl|auto]. }
  ob H j Hj. ob H vn Hn. ob H vj Hvj. ob H a Ha. ob H b Hb. ob H br Hbr. ob H g Hg. injection H as <-. exists g. split; [auto|].
  apply link_ranges_grew in Hg. destruct Hg as [G' V']. split; [|auto]. eapply grew_weaken; [|exact G'].
  intros x y v1 v2 (_ & _ & _ & Hok). right. right. exists (q_robot s), br. split; [|auto]. right. split; [auto|].
  apply at_Ok in Hb. exists a, b. split; [apply back_In; auto|]. split; [eapply nth_error_In; eauto|auto].
Qed.
Lemma do_search3_inv (s s' : st) : do_search3 E s = Ok s' -> exists ss ts r,
  nearest_neighbors3 E s (m_start E) (m_numNeighbor E) (m_radius E) = Ok ss /\
  nearest_neighbors3 E s (m_goal E) (m_numNeighbor E) (m_radius E) = Ok ts /\
  search (m_astar E) (q_graph s) ss ts (q_sol s) = Ok r /\ s' = with_sol3 E s r.
Proof.
  unfold do_search3. intros H. ob H ss Hs. ob H ts Ht. ob H r Hr. injection H as <-. exists ss, ts, r. auto.
Qed.
Lemma do_search3_quats (s s' : st) : do_search3 E s = Ok s' -> q_quats s <> [].
Proof.
  intros H. apply do_search3_inv in H. destruct H as (ss & ts & r & H & _). unfold nearest_neighbors3 in H.
  ob H qq Hq. ob H q0 H0. apply idx_Ok in H0. intros Z. rewrite Z in H0. discriminate H0.
Qed.

(** A slice is not built again on finer sweep lines: the interval tables keep their size. *)
Lemma refine3_never late (s s' : st) : rows (q_tables s) = q_numLineY s -> q_numSlice s <> 0 -> refine3 E late s <> Ok s'.
Proof.
  intros R1 Hn H. unfold refine3 in H. destruct (q_numSlice s) as [|k]; [lia|]. cbn [seq refine_slices3] in H.
  ob H s1 H1. clear H. apply construct_slice3_inv in H1.
  destruct H1 as (v & js & segs & line & _ & _ & _ & Sg & Hc & _).
  apply (connect3d_spec _ _ _ []) in Hc. destruct Hc as (Ne & _). apply slice_segments3_facts in Sg.
  destruct Sg as (l0 & l1 & l2 & l3 & _ & _ & _ & _ & _ & _ & _ & Q). cbn [refine_begin3 q_numLineY q_tables] in Q.
  specialize (Q Ne). lia.
Qed.
End P.
