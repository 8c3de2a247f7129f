(** Spatial planners: edges, neighbour queries and the search part of planning calls. *)
From Coq Require Import List Bool Arith Lia ZArith.
From Verif.Base Require Import Outcome Float64.
From Verif.Model Require Import MScalar MDistance MInterval MFreeSpace MLine3D MInterp MGraph MSearch MHRM3D.
From Verif.Spec Require Import SGraph SSearch SPlanner2D SPlanner3D.
From Verif.Proofs Require Import PGraph PLinks PHRM2D PPlan2D PGraph3D PHRM3D PPlan3D PSearch PNearest.
Import ListNotations.

Lemma nearest_of_ext m d e j : (forall i, i < m -> d i = e i) -> nearest_of m d j -> nearest_of m e j.
Proof.
  intros H [(A & B & C & D)|[-> B]]; [left|right].
  - rewrite <- (H j A). split; [auto|]. split; [auto|]. split.
    + intros i Hi. rewrite <- H by auto. auto.
    + intros i Hi. rewrite <- H by lia. auto.
  - split; [auto|]. intros i Hi. rewrite <- H by auto. auto.
Qed.

Section P.
Variable E : env3.
Notation st := (state3 E).

(** ---- edges of one slice ---- *)
Lemma slice3_edges i (s s' : st) : construct_slice3 E i s = Ok s' ->
  exists segs line, slice_segments3 E s s' segs /\ vline (q_nv s') = line /\ extends (q_graph s) (q_graph s') /\
    length line = length segs /\
    (forall i j k x seg xm, nth_error segs i = Some (x, seg) -> j < length (fty seg) -> nth_error (fxM seg) j = Some xm -> k < length xm ->
       exists a y z js, plane_vertex line segs i j k a /\ length (gvert (q_graph s)) <= a /\ nth_error (fty seg) j = Some y /\ nth_error xm k = Some z /\
         nth_error (gvert (q_graph s')) a = Some ([x; y; z] ++ quat_list (m_quat E (q_robot s')) ++ js)) /\
    new_edges (q_graph s) (q_graph s') (fun a b v1 v2 =>
      line_neighbours line segs a b \/
      (same_slice_free3 (q_slice s') v1 v2 = Ok true /\ (grid_neighbours line segs a b \/ ~ grid_vertex line segs a \/ ~ grid_vertex line segs b))) /\
    (forall a b, line_neighbours line segs a b -> In (a, b) (gedge (q_graph s'))) /\
    (forall a b v1 v2, grid_neighbours line segs a b -> nth_error (gvert (q_graph s')) a = Some v1 -> nth_error (gvert (q_graph s')) b = Some v2 ->
       same_slice_free3 (q_slice s') v1 v2 = Ok true -> In (a, b) (gedge (q_graph s'))).
Proof.
  intros H. apply construct_slice3_inv in H.
  destruct H as (v & js & segs & line & _ & _ & _ & Sg & Hc & _ & _ & N3 & _).
  apply (connect3d_spec _ _ _ []) in Hc. destruct Hc as (_ & Ll & X & _ & Nm & Ne & Po & Ln & C1 & C2 & _).
  exists segs, line. split; [exact Sg|]. split; [exact N3|]. split; [exact X|]. split; [exact Ll|]. split; [|split; [exact Ne|split; [exact C1|]]].
  - intros i0 j k x seg xm Hs Hj Hx Hk.
    destruct (nth_error line i0) as [p|] eqn:Hp; [|apply nth_error_None in Hp; apply nth_error_lt in Hs; lia].
    pose proof (Ln i0 p x seg Hp Hs) as Lp. destruct (nth_error p j) as [n|] eqn:Hn; [|apply nth_error_None in Hn; lia].
    assert (P : plane_vertex line segs i0 j k (n + k)) by (exists p, n, x, seg, xm; auto 10).
    destruct (Po _ _ _ _ P) as (x' & seg' & y & xm' & z & Q1 & Q2 & Q3 & Q4 & Q5). rewrite Hs in Q1. injection Q1 as <- <-. rewrite Hx in Q3. injection Q3 as <-.
    exists (n + k), y, z, js. split; [exact P|]. split; [apply Nm in P; lia|]. auto.
  - intros a b v1 v2 G Hv1 Hv2 F. destruct (C2 a b G) as [Q|(u1 & u2 & U1 & U2 & U3)]; [exact Q|]. congruence.
Qed.

(** ---- links between slices ---- *)
Lemma near3_true nx ny v1 v2 : near3 E false nx ny v1 v2 = Ok true -> window_near E nx ny v1 v2.
Proof.
  unfold near3, lim3, gap. intros H. ob H x1 A. ob H x2 B. ob H l0 C. ob H l1 D. destruct (fltb _ _) eqn:F; [discriminate H|].
  ob H y1 A'. ob H y2 B'. ob H l2 C'. ob H l3 D'. apply at_Ok in A, B, A', B'. apply idx_Ok in C, D, C', D'.
  exists x1, x2, y1, y2, l0, l1, l2, l3. do 8 (split; [assumption|]). split; [exact F|].
  injection H as H. apply negb_true_iff in H. exact H.
Qed.

Lemma near3_of nx ny v1 v2 : window_near E nx ny v1 v2 -> near3 E false nx ny v1 v2 = Ok true.
Proof.
  intros (x1 & x2 & y1 & y2 & l0 & l1 & l2 & l3 & A & B & A' & B' & C & D & C' & D' & F & F'). unfold near3, lim3, gap.
  unfold at_, idx. rewrite A, B, C, D, A', B', C', D'. cbn [obind]. rewrite F. cbn [obind]. rewrite F'. reflexivity.
Qed.
Lemma link3_links (s : st) br v1 v2 g g' : gvert g = gvert (q_graph s) ->
  link_ranges (near3 E false (q_numLineX s) (q_numLineY s)) (multi_slice_free3 E (q_robot s) br)
    (vstart v1) (vslice v1) (vstart v2) (vslice v2) g = Ok g' ->
  exists es, gvert g' = gvert (q_graph s) /\ gedge g' = gedge g ++ es /\ slice_links E s (q_robot s) br v1 v2 es.
Proof.
  intros V H. pose proof (link_ranges_complete _ _ _ _ _ _ _ _ H) as (es2 & Ee2 & Cp).
  apply link_ranges_spec in H. destruct H as (es & ws & V' & Ee & _ & _ & P & M). exists es.
  assert (Es : es2 = es) by exact (same_suffix _ _ _ _ Ee2 Ee). subst es2.
  split; [congruence|]. split; [auto|]. split; [|split; [intros k k' e e' Hlt H1 H2; exact (M k k' e e' Hlt H1 H2)|]].
  2: { intros a b p1 p2 Ha Hb H1 H2 N O. rewrite <- V in H1, H2. exact (Cp a b p1 p2 Ha Hb H1 H2 (near3_of _ _ _ _ N) O). }
  intros a b Hin. apply In_nth_error in Hin. destruct Hin as (k & Hk). destruct (P _ _ Hk) as (P1 & P2 & p1 & p2 & w & A & B & _ & _ & N & O).
  cbn [fst snd] in *. rewrite V in *. split; [auto|]. split; [auto|]. exists p1, p2. split; [auto|]. split; [auto|]. split; [apply near3_true; auto|auto].
Qed.

Lemma connect_multi3_edges (s s' : st) : connect_multi3 E s = Ok s' -> length (q_vidx s) <> 1 ->
  exists ess, length ess = length (q_vidx s) /\ gvert (q_graph s') = gvert (q_graph s) /\
    gedge (q_graph s') = gedge (q_graph s) ++ concat ess /\
    forall i es, nth_error ess i = Some es -> exists j vi vj qi qj br,
      nth_error (q_vidx s) i = Some vi /\ nth_error (q_vidx s) j = Some vj /\
      nth_error (q_quats s) i = Some qi /\ nth_error (q_quats s) j = Some qj /\
      nearest_of (Nat.min i (q_numSlice s)) (orientation_distance E s qi) j /\
      m_tfe_q E (q_robot s) qi qj = Ok br /\ slice_links E s (q_robot s) br vj vi es.
Proof.
  unfold connect_multi3. intros H L. destruct (Nat.eqb_spec (length (q_vidx s)) 1) as [Q|_]; [lia|].
  ob H g Hg. injection H as <-. cbn [with_graph3 q_graph].
  set (P := fun i es => exists j vi vj qi qj br,
      nth_error (q_vidx s) i = Some vi /\ nth_error (q_vidx s) j = Some vj /\
      nth_error (q_quats s) i = Some qi /\ nth_error (q_quats s) j = Some qj /\
      nearest_of (Nat.min i (q_numSlice s)) (orientation_distance E s qi) j /\
      m_tfe_q E (q_robot s) qi qj = Ok br /\ slice_links E s (q_robot s) br vj vi es).
  apply (ofold_inv_prefix _ (fun done x => done = seq 0 (length done) -> exists ess, length ess = length done /\ gvert x = gvert (q_graph s) /\
    gedge x = gedge (q_graph s) ++ concat ess /\ forall i es, nth_error ess i = Some es -> P i es)) with (done := []) in Hg.
  - cbn [app] in Hg. rewrite !seq_length in Hg. exact Hg.
  - intros _. exists []. cbn. split; [auto|]. split; [auto|]. split; [rewrite app_nil_r; auto|]. intros [|i] es Q; discriminate Q.
  - clear g Hg. intros done i g g' _ IH H Hd. rewrite app_length in Hd. cbn [length] in Hd. rewrite Nat.add_1_r, seq_S in Hd.
    apply app_inj_tail in Hd. destruct Hd as [Hd Hi]. destruct (IH Hd) as (ess & L1 & V1 & E1 & C1).
    ob H j Hj. ob H vi Hvi. ob H vj Hvj. ob H qi Hqi. ob H qj Hqj. ob H br Hbr.
    pose proof Hqi as Hqi'. apply at_Ok in Hvi, Hvj, Hqi', Hqj.
    apply link3_links in H; [|exact V1]. destruct H as (es & V & Ee & Lk).
    exists (ess ++ [es]). split; [rewrite !app_length; cbn [length]; lia|]. split; [congruence|].
    split; [rewrite Ee, E1, concat_app; cbn [concat]; rewrite app_nil_r, app_assoc; auto|].
    intros i' es' Hn. apply snoc_nth in Hn. destruct Hn as [Hn|[-> ->]]; [auto|]. rewrite L1. cbn [Nat.add] in Hi. subst i.
    exists j, vi, vj, qi, qj, br. do 4 (split; [assumption|]). split; [|split; assumption].
    apply nearest_slice_spec in Hj. destruct Hj as (e & He & Hj). eapply nearest_of_ext; [|exact Hj].
    intros k Hk. specialize (He k Hk). cbv beta in He. rewrite Hqi in He. cbn [obind] in He. ob He b Hb. apply at_Ok in Hb.
    unfold orientation_distance. rewrite Hb. congruence.
  - cbn [app]. rewrite seq_length. reflexivity.
Qed.

Lemma connect_last3_edges (s s' : st) : connect_last3 E s = Ok s' -> q_numSlice s <> 1 ->
  exists j vn vj c cj br es, nth_error (q_vidx s) (q_numSlice s - 1) = Some vn /\ nth_error (q_vidx s) j = Some vj /\
    nth_error (q_confs s) (length (q_confs s) - 1) = Some c /\ nth_error (q_confs s) j = Some cj /\
    nearest_of (q_numSlice s - 1) (configuration_distance E s c) j /\
    m_tfe_v E (q_robot s) c cj = Ok br /\ slice_links E s (q_robot s) br vj vn es /\
    gvert (q_graph s') = gvert (q_graph s) /\ gedge (q_graph s') = gedge (q_graph s) ++ es.
Proof.
  unfold connect_last3. intros H L. destruct (Nat.eqb_spec (q_numSlice s) 1) as [Q|_]; [lia|].
  ob H j Hj. ob H vn Hvn. ob H vj Hvj. ob H c Hc. ob H cj Hcj. ob H br Hbr. ob H g Hg. injection H as <-. cbn [with_graph3 q_graph].
  apply link3_links in Hg; [|reflexivity]. destruct Hg as (es & V & Ee & Lk).
  pose proof Hc as Hc'. unfold back_ in Hc'. apply idx_Ok in Hc'. apply at_Ok in Hvn, Hvj, Hcj.
  exists j, vn, vj, c, cj, br, es. do 4 (split; [assumption|]). split; [|auto 10].
  apply nearest_slice_spec in Hj. destruct Hj as (e & He & Hj). eapply nearest_of_ext; [|exact Hj].
  intros k Hk. specialize (He k Hk). cbv beta in He. rewrite Hc in He. cbn [obind] in He. ob He b Hb. apply at_Ok in Hb.
  unfold configuration_distance. rewrite Hb, He. reflexivity.
Qed.

(** ---- neighbour queries ---- *)
Lemma nearest_vertex_spec vs v q i : nearest_vertex E vs v q = Ok i ->
  (exists d, oriented E vs q i /\ at_distance vs v i d /\ fltb d finf = true /\
     forall j e, oriented E vs q j -> at_distance vs v j e -> fltb e d = false) \/
  (i = 0 /\ forall j e, oriented E vs q j -> at_distance vs v j e -> fltb e finf = false).
Proof.
  unfold nearest_vertex. intros H. ob H r Hr. injection H as <-.
  set (f := fun '((d, best) : f64 * nat) '((i, w) : nat * pose) =>
     obind (vec_euclid F64 v w) (fun e => if fltb e d then obind (get_quat F64 w) (fun qw =>
       Ok (if fltb (m_qdist E q qw) cEPS then (e, i) else (d, best))) else Ok (d, best))) in *.
  set (I := fun k (r : f64 * nat) =>
    (oriented E vs q (snd r) /\ at_distance vs v (snd r) (fst r) /\ fltb (fst r) finf = true /\
       forall j e, j < k -> oriented E vs q j -> at_distance vs v j e -> fltb e (fst r) = false) \/
    (fst r = finf /\ snd r = 0 /\ forall j e, j < k -> oriented E vs q j -> at_distance vs v j e -> fltb e finf = false)).
  assert (G : forall l k st st', (forall i w, nth_error l i = Some w -> nth_error vs (k + i) = Some w) ->
     ofold f (combine (seq k (length l)) l) st = Ok st' -> I k st -> I (k + length l) st').
  { induction l as [|w l IH]; intros k st0 st' Hv H HI.
    - cbn [length seq combine ofold] in H. injection H as <-. rewrite Nat.add_0_r. auto.
    - cbn [length seq combine ofold] in H. ob H st1 H1. cbn [length]. replace (k + S (length l)) with (S k + length l) by lia.
      apply (IH (S k) st1 st'); [intros i0 w0 Hi; replace (S k + i0) with (k + S i0) by lia; apply Hv; exact Hi|exact H|].
      clear H IH. pose proof (Hv 0 w eq_refl) as Hw. rewrite Nat.add_0_r in Hw. clear Hv.
      destruct st0 as [d best]. unfold f in H1. ob H1 e He.
      assert (Dk : forall e', at_distance vs v k e' -> e' = e) by (intros e' (w' & W1 & W2); congruence).
      destruct (fltb e d) eqn:C.
      + ob H1 qw Hq. injection H1 as <-. destruct (fltb (m_qdist E q qw) cEPS) eqn:Q.
        * left. cbn [fst snd]. split; [exists w, qw; auto|]. split; [exists w; auto|].
          destruct HI as [(_ & _ & I3 & I4)|(I1 & _ & I3)]; cbn [fst snd] in *.
          { split; [eapply fltb_trans; eauto|]. intros j e' Hj O D'. destruct (Nat.eq_dec j k) as [->|]; [rewrite (Dk _ D'); apply fltb_irrefl|].
            destruct (fltb e' e) eqn:Z; [|auto]. rewrite <- (I4 j e' ltac:(lia) O D'). symmetry. eapply fltb_trans; eauto. }
          { subst d. split; [auto|]. intros j e' Hj O D'. destruct (Nat.eq_dec j k) as [->|]; [rewrite (Dk _ D'); apply fltb_irrefl|].
            destruct (fltb e' e) eqn:Z; [|auto]. rewrite <- (I3 j e' ltac:(lia) O D'). symmetry. eapply fltb_trans; eauto. }
        * assert (NO : ~ oriented E vs q k) by (intros (w' & qw' & W1 & W2 & W3); rewrite Hw in W1; injection W1 as <-; rewrite Hq in W2; injection W2 as <-; congruence).
          destruct HI as [(I1 & I2 & I3 & I4)|(I1 & I2 & I3)]; [left|right]; cbn [fst snd] in *.
          { split; [auto|]. split; [auto|]. split; [auto|]. intros j e' Hj O D'. destruct (Nat.eq_dec j k) as [->|]; [contradiction|]. apply (I4 j); auto; lia. }
          { split; [auto|]. split; [auto|]. intros j e' Hj O D'. destruct (Nat.eq_dec j k) as [->|]; [contradiction|]. apply (I3 j); auto; lia. }
      + injection H1 as <-. destruct HI as [(I1 & I2 & I3 & I4)|(I1 & I2 & I3)]; [left|right]; cbn [fst snd] in *.
        * split; [auto|]. split; [auto|]. split; [auto|]. intros j e' Hj O D'. destruct (Nat.eq_dec j k) as [->|]; [rewrite (Dk _ D'); auto|]. apply (I4 j); auto; lia.
        * subst d. split; [auto|]. split; [auto|]. intros j e' Hj O D'. destruct (Nat.eq_dec j k) as [->|]; [rewrite (Dk _ D'); auto|]. apply (I3 j); auto; lia. }
  pose proof (G vs 0 _ _ (fun i w H => H) Hr) as Z. cbn [plus] in Z.
  assert (Lt : forall j, oriented E vs q j -> j < length vs) by (intros j (w & _ & W & _); apply nth_error_lt in W; auto).
  destruct Z as [(I1 & I2 & I3 & I4)|(I1 & I2 & I3)].
  - right. split; [auto|]. split; [auto|]. intros j e Hj. lia.
  - left. exists (fst r). split; [auto|]. split; [auto|]. split; [auto|]. intros j e O. apply I4; auto.
  - right. split; [auto|]. intros j e O. apply I3; auto.
Qed.

Lemma quat_near_spec m radius k qs acc : length acc <= Nat.max 1 k ->
  (forall q, In q acc -> fltb (m_qdist E m q) radius = true) -> (acc = [] \/ length acc < k) ->
  length (quat_near E m radius k qs acc) <= Nat.max 1 k /\
  (forall q, In q (quat_near E m radius k qs acc) -> In q acc \/ (In q qs /\ fltb (m_qdist E m q) radius = true)).
Proof.
  revert acc. induction qs as [|q qs IH]; intros acc L A B; cbn [quat_near]; [auto|].
  set (acc' := if fltb (m_qdist E m q) radius then acc ++ [q] else acc).
  assert (In' : forall x, In x acc' -> In x acc \/ (x = q /\ fltb (m_qdist E m q) radius = true)).
  { unfold acc'. destruct (fltb (m_qdist E m q) radius); [|auto]. intros x Hx. apply in_app_or in Hx. destruct Hx as [Hx|[<-|[]]]; auto. }
  assert (L' : length acc' <= Nat.max 1 k).
  { unfold acc'. destruct (fltb (m_qdist E m q) radius); [|auto]. rewrite app_length. cbn [length]. destruct B as [->|B]; cbn [length]; lia. }
  destruct (Nat.leb_spec k (length acc')) as [Q|Q].
  - split; [auto|]. intros x Hx. apply In' in Hx. destruct Hx as [Hx|[-> F]]; [left; exact Hx|right; split; [left; reflexivity|exact F]].
  - destruct (IH acc' L') as [I1 I2]; [|right; exact Q|].
    + intros x Hx. apply In' in Hx. destruct Hx as [Hx|[-> F]]; auto.
    + split; [exact I1|]. intros x Hx. apply I2 in Hx. destruct Hx as [Hx|[Hx F]].
      * apply In' in Hx. destruct Hx as [Hx|[-> F]]; [left; exact Hx|right; split; [left; reflexivity|exact F]].
      * right. split; [right; exact Hx|exact F].
Qed.

Lemma in_window3_true (s : st) v w radius : in_window3 E s v w radius = Ok true -> window_of E s radius v w.
Proof.
  unfold in_window3, lim3. intros H. ob H x1 A. ob H x2 B. ob H l0 C. ob H l1 D. destruct (fltb _ _) eqn:F in H; [|discriminate H].
  ob H y1 A'. ob H y2 B'. ob H l2 C'. ob H l3 D'. apply idx_Ok in A, B, A', B', C, D, C', D'. injection H as H.
  exists x1, x2, y1, y2, l0, l1, l2, l3. auto 12.
Qed.

Lemma nearest_neighbors3_spec (s : st) v k radius l : nearest_neighbors3 E s v k radius = Ok l ->
  length l <= Nat.max 1 k /\ exists m, forall i, In i l -> exists w q,
    nth_error (gvert (q_graph s)) i = Some w /\ window_of E s radius v w /\ In q (q_quats s) /\ fltb (m_qdist E m q) radius = true /\
    nearest_vertex E (gvert (q_graph s)) v q = Ok i.
Proof.
  unfold nearest_neighbors3. intros H. ob H qq Hq. ob H q0 H0. ob H m Hm.
  destruct (quat_near_spec m radius k (q_quats s) []) as [L1 L2]; [cbn [length]; lia|intros q []|auto|].
  set (qs := quat_near E m radius k (q_quats s) []) in *.
  assert (G : forall qs' acc l', ofold (fun acc q => obind (nearest_vertex E (gvert (q_graph s)) v q) (fun i =>
      obind (idx (gvert (q_graph s)) i) (fun w => obind (in_window3 E s v w radius) (fun b => Ok (if b then acc ++ [i] else acc))))) qs' acc = Ok l' ->
      length l' <= length acc + length qs' /\ forall i, In i l' -> In i acc \/ exists w q, nth_error (gvert (q_graph s)) i = Some w /\
        window_of E s radius v w /\ In q qs' /\ nearest_vertex E (gvert (q_graph s)) v q = Ok i).
  { clear. induction qs' as [|q qs' IH]; intros acc l' H; cbn [ofold] in H.
    - injection H as <-. split; [lia|auto].
    - ob H acc1 H1. ob H1 i Hi. ob H1 w Hw. ob H1 b Hb. injection H1 as <-. apply IH in H. destruct H as [H1 H2]. split.
      + destruct b; rewrite ?app_length in H1; cbn [length] in *; lia.
      + intros i' Hi'. apply H2 in Hi'. destruct Hi' as [Hi'|(w' & q' & A & B & C & D)].
        * destruct b; [|auto]. apply in_app_or in Hi'. destruct Hi' as [Hi'|[<-|[]]]; [auto|]. right. exists w, q.
          apply idx_Ok in Hw. apply in_window3_true in Hb. split; [auto|]. split; [auto|]. split; [left; auto|auto].
        * right. exists w', q'. split; [auto|]. split; [auto|]. split; [right; auto|auto]. }
  apply G in H. destruct H as [H1 H2]. cbn [length plus] in H1. split; [lia|]. exists m.
  intros i Hi. apply H2 in Hi. destruct Hi as [[]|(w & q & A & B & C & D)]. apply L2 in C. destruct C as [[]|[C1 C2]].
  exists w, q. auto 10.
Qed.

(** ---- the search part of a planning call ---- *)
Lemma do_search3_ids (s s' : st) : do_search3 E s = Ok s' -> s_path (q_sol s) = [] -> astar_sound (q_graph s) (m_astar E) ->
  exists ss ts, nearest_neighbors3 E s (m_start E) (m_numNeighbor E) (m_radius E) = Ok ss /\
    nearest_neighbors3 E s (m_goal E) (m_numNeighbor E) (m_radius E) = Ok ts /\
    ((q_sol s' = q_sol s /\ forall a b, In a ss -> In b ts -> m_astar E (q_graph s) a b = None) \/
     (s_solved (q_sol s') = true /\ exists a b, In a ss /\ In b ts /\ path_ids (q_graph s) a b (s_path (q_sol s')) /\
        id_cost (gweight (q_graph s)) (fofZ 0) (rev (s_path (q_sol s'))) = Ok (s_cost (q_sol s')))).
Proof.
  intros H Hp Snd. apply do_search3_inv in H. destruct H as (ss & ts & r & N1 & N2 & Sr & ->). exists ss, ts. split; [auto|]. split; [auto|].
  cbn [with_sol3 q_sol]. pose proof (nearest_neighbors3_spec _ _ _ _ _ N1) as (_ & m1 & B1). pose proof (nearest_neighbors3_spec _ _ _ _ _ N2) as (_ & m2 & B2).
  apply search_spec in Sr; auto.
  - destruct Sr as [[-> Hn]|(a & b & Ha & Hb & Q & P & C)]; [left; auto|right]. split; [auto|]. exists a, b. auto.
  - intros x [Hx|Hx]; [apply B1 in Hx|apply B2 in Hx]; destruct Hx as (w & q & W & _); apply nth_error_lt in W; auto.
Qed.

Lemma plan3_result rq rounds (s s' : st) r : plan3 E rq rounds s = Ok (s', r) ->
  (s_solved (q_sol s') = false /\ r = None) \/
  (s_solved (q_sol s') = true /\ exists path, r = Some (path, path) /\
     solution_path (q_graph s') (m_start E) (m_goal E) (s_path (q_sol s')) = Ok path).
Proof.
  unfold plan3. intros H. ob H s1 H1. ob H s2 H2. ob H s3 H3. destruct (s_solved (q_sol s3)) eqn:Q.
  - ob H path Hp. injection H as <- <-. right. eauto.
  - injection H as <- <-. auto.
Qed.
Lemma plan_prob_result d ds (s s' : st) r : plan_prob E d ds s = Ok (s', r) ->
  (s_solved (q_sol s') = false /\ r = None) \/
  (s_solved (q_sol s') = true /\ exists path ip, r = Some (path, ip) /\
     solution_path (q_graph s') (m_start E) (m_goal E) (s_path (q_sol s')) = Ok path /\
     interpolated_path3 E (s_cost (q_sol s')) (m_numPoint E) path = Ok ip).
Proof.
  unfold plan_prob. intros H. ob H s1 H1. destruct (s_solved (q_sol s1)) eqn:Q.
  - ob H path Hp. ob H ip Hi. injection H as <- <-. right. eauto 10.
  - injection H as <- <-. auto.
Qed.

(** What is reported by a first planning call, in terms of the final roadmap. *)
Definition reports (s' : st) (path : option (list pose)) : Prop :=
  exists ss ts, nearest_neighbors3 E s' (m_start E) (m_numNeighbor E) (m_radius E) = Ok ss /\
    nearest_neighbors3 E s' (m_goal E) (m_numNeighbor E) (m_radius E) = Ok ts /\
    match path with
    | None => forall a b, In a ss -> In b ts -> m_astar E (q_graph s') a b = None
    | Some p => exists a b, In a ss /\ In b ts /\ path_ids (q_graph s') a b (s_path (q_sol s')) /\
        solution_path (q_graph s') (m_start E) (m_goal E) (s_path (q_sol s')) = Ok p /\
        id_cost (gweight (q_graph s')) (fofZ 0) (rev (s_path (q_sol s'))) = Ok (s_cost (q_sol s'))
    end.

Lemma plan3_search rq rounds (s s' : st) r : m_prob E = false -> inv3 E eq s ->
  plan3 E rq rounds s = Ok (s', r) -> astar_sound (q_graph s') (m_astar E) -> reports s' (option_map fst r).
Proof.
  intros Pf I H Snd. pose proof (plan3_result _ _ _ _ _ H) as Res. pose proof (plan3_fresh E Pf _ _ _ _ _ H) as V.
  apply (plan3_keep E Pf) in H; auto. destruct H as (s1 & _ & Hs & _ & _ & _ & _ & _ & _ & _ & _ & Q1 & _).
  pose proof (k_fresh _ _ _ I V) as F. rewrite F in Q1.
  assert (Eg : q_graph s' = q_graph s1) by (apply do_search3_inv in Hs; destruct Hs as (? & ? & ? & _ & _ & _ & ->); reflexivity).
  pose proof Hs as Hs'. apply do_search3_ids in Hs; [|rewrite Q1; reflexivity|rewrite <- Eg; exact Snd].
  destruct Hs as (ss & ts & N1 & N2 & R).
  apply do_search3_inv in Hs'. destruct Hs' as (ss' & ts' & rr & _ & _ & _ & Es).
  exists ss, ts. split; [rewrite Es; exact N1|]. split; [rewrite Es; exact N2|].
  destruct R as [[R1 R2]|(R1 & a & b & Ha & Hb & P & C)].
  - destruct Res as [[_ ->]|[Q _]]; [|rewrite R1, Q1 in Q; discriminate Q]. cbn [option_map]. rewrite Eg. exact R2.
  - destruct Res as [[Q _]|(_ & path & -> & Sp)]; [congruence|]. cbn [option_map fst]. exists a, b. rewrite Eg in *. auto 10.
Qed.

Section Prob.
Hypothesis Hp : m_prob E = true.

Lemma prob_loop_search R base ds : forall d (s s' : st), inv3 E R s -> length (q_confs s) = length (q_vidx s) ->
  (forall j, R (base + j) j) -> length (q_vidx s) = base + q_numSlice s ->
  q_sol s = Sol false [] (fofZ 0) -> prob_loop E d ds s = Ok s' ->
  (forall g, well_formed g -> extends g (q_graph s') -> astar_sound g (m_astar E)) ->
  exists ss ts, nearest_neighbors3 E s' (m_start E) (m_numNeighbor E) (m_radius E) = Ok ss /\
    nearest_neighbors3 E s' (m_goal E) (m_numNeighbor E) (m_radius E) = Ok ts /\
    ((q_sol s' = Sol false [] (fofZ 0) /\ forall a b, In a ss -> In b ts -> m_astar E (q_graph s') a b = None) \/
     (s_solved (q_sol s') = true /\ exists a b, In a ss /\ In b ts /\ path_ids (q_graph s') a b (s_path (q_sol s')) /\
        id_cost (gweight (q_graph s')) (fofZ 0) (rev (s_path (q_sol s'))) = Ok (s_cost (q_sol s')))).
Proof.
  assert (Step : forall d (s s1 : st), inv3 E R s -> length (q_confs s) = length (q_vidx s) -> R (length (q_vidx s)) (q_numSlice s) ->
    q_sol s = Sol false [] (fofZ 0) -> prob_step E d s = Ok s1 -> astar_sound (q_graph s1) (m_astar E) ->
    exists ss ts, nearest_neighbors3 E s1 (m_start E) (m_numNeighbor E) (m_radius E) = Ok ss /\
    nearest_neighbors3 E s1 (m_goal E) (m_numNeighbor E) (m_radius E) = Ok ts /\
    ((q_sol s1 = Sol false [] (fofZ 0) /\ forall a b, In a ss -> In b ts -> m_astar E (q_graph s1) a b = None) \/
     (s_solved (q_sol s1) = true /\ exists a b, In a ss /\ In b ts /\ path_ids (q_graph s1) a b (s_path (q_sol s1)) /\
        id_cost (gweight (q_graph s1)) (fofZ 0) (rev (s_path (q_sol s1))) = Ok (s_cost (q_sol s1))))).
  { intros d s s1 I Hl HR F H Snd. apply (prob_step_keep E Hp R) in H; auto. destruct H as (_ & _ & _ & _ & _ & _ & _ & _ & _ & (s4 & F4 & G4 & Hs) & _).
    pose proof Hs as Hs'. apply do_search3_ids in Hs; [|rewrite F4, F; reflexivity|rewrite G4; exact Snd].
    destruct Hs as (ss & ts & N1 & N2 & Q). apply do_search3_inv in Hs'. destruct Hs' as (ss' & ts' & rr & _ & _ & _ & Es).
    exists ss, ts. split; [rewrite Es; exact N1|]. split; [rewrite Es; exact N2|]. rewrite <- G4. rewrite F4, F in Q. exact Q. }
  assert (Ext : forall ds d (s s' : st), inv3 E R s -> length (q_confs s) = length (q_vidx s) -> length (q_vidx s) = base + q_numSlice s ->
    (forall j, R (base + j) j) -> prob_loop E d ds s = Ok s' -> extends (q_graph s) (q_graph s')).
  { clear Step ds. induction ds as [|d' ds IH]; intros d s s' I Hl Hb HR H; cbn [prob_loop] in H; ob H s1 H1;
      apply (prob_step_keep E Hp R) in H1; auto; try (rewrite Hb; apply HR); destruct H1 as (I1 & L1 & V1 & N1 & _ & _ & _ & _ & _ & _ & X).
    - assert (s' = s1) as -> by (destruct (s_solved (q_sol s1)); injection H as <-; auto). exact X.
    - destruct (s_solved (q_sol s1)); [injection H as <-; exact X|]. eapply extends_trans; [exact X|]. apply (IH d'); auto. lia. }
  induction ds as [|d' ds IH]; intros d s s' I Hl HR Hb F H Snd; cbn [prob_loop] in H; ob H s1 H1; pose proof H1 as H1';
    apply (prob_step_keep E Hp R) in H1'; auto; try (rewrite Hb; apply HR); destruct H1' as (I1 & L1 & V1 & N1 & _).
  - assert (s' = s1) as -> by (destruct (s_solved (q_sol s1)); injection H as <-; auto).
    apply (Step d s); auto; [rewrite Hb; apply HR|]. apply Snd; [apply (k_wf _ _ _ I1)|apply extends_refl].
  - destruct (s_solved (q_sol s1)) eqn:Sv.
    + injection H as <-. apply (Step d s); auto; [rewrite Hb; apply HR|]. apply Snd; [apply (k_wf _ _ _ I1)|apply extends_refl].
    + pose proof (Ext ds d' s1 s' I1 L1 ltac:(lia) HR H) as X.
      destruct (Step d s s1) as (ss & ts & _ & _ & [[Q _]|[Q _]]); auto; [rewrite Hb; apply HR|apply Snd; [apply (k_wf _ _ _ I1)|exact X]| |congruence].
      apply (IH d' s1 s'); auto. lia.
Qed.

Lemma plan_prob_search R d ds (s s' : st) r : inv3 E R s -> length (q_confs s) = length (q_vidx s) ->
  (forall j, R (length (q_vidx s) + j) j) -> q_vidx s = [] -> plan_prob E d ds s = Ok (s', r) ->
  (forall g, well_formed g -> extends g (q_graph s') -> astar_sound g (m_astar E)) -> reports s' (option_map fst r).
Proof.
  intros I Hl HR V H Snd. pose proof (plan_prob_result _ _ _ _ _ H) as Res. unfold plan_prob in H. ob H s1 H1.
  assert (s' = s1) as ->.
  { destruct (s_solved (q_sol s1)); [ob H p Hpp; ob H ip Hip|]; injection H as <- _; auto. }
  clear H. pose proof (k_fresh _ _ _ I V) as F. apply (with_num_inv E R _ 0) in I.
  apply (prob_loop_search R (length (q_vidx s))) in H1; auto.
  destruct H1 as (ss & ts & N1 & N2 & Q). exists ss, ts. split; [exact N1|]. split; [exact N2|].
  destruct Q as [[Q1 Q2]|(Q1 & a & b & Ha & Hb & P & C)].
  - destruct Res as [[_ ->]|[Q _]]; [|rewrite Q1 in Q; discriminate Q]. exact Q2.
  - destruct Res as [[Q _]|(_ & path & ip & -> & Sp & _)]; [congruence|]. cbn [option_map fst]. exists a, b. auto 10.
Qed.
End Prob.
End P.
