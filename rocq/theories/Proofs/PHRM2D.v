From Coq Require Import List Bool Arith Lia ZArith.
From Verif.Base Require Import Outcome Float64.
From Verif.Model Require Import MScalar MDistance MInterval MFreeSpace MLine2D MGraph MSearch MHRM2D MPointInPoly.
From Verif.Spec Require Import SGraph SPlanner2D.
From Verif.Proofs Require Import PGraph.
Import ListNotations.

Ltac ob E x H := apply obind_Ok in E; destruct E as (x & H & E).

(** ---- vertices of a slice ---- *)
Lemma gen_vertices_len mk seg g g' plane : gen_vertices mk seg g = Ok (g', plane) -> length (fty seg) <= length (fxM seg).
Proof.
  unfold gen_vertices. intros E.
  destruct (le_lt_dec (length (fty seg)) (length (fxM seg))) as [L|L]; [exact L|exfalso].
  set (n := length (fxM seg)) in *.
  assert (Split : combine (seq 0 (length (fty seg))) (fty seg) =
    combine (seq 0 n) (firstn n (fty seg)) ++ combine (seq n (length (fty seg) - n)) (skipn n (fty seg))).
  { rewrite <- (firstn_skipn n (fty seg)) at 2. replace (length (fty seg)) with (n + (length (fty seg) - n)) at 1 by lia.
    rewrite seq_app. simpl (0 + n).
    assert (F : length (seq 0 n) = length (firstn n (fty seg))) by (rewrite seq_length, firstn_length; lia).
    revert F. generalize (seq 0 n) (firstn n (fty seg)). clear. induction l as [|a l IH]; intros [|b l'] F; simpl in *; try lia; auto.
    f_equal. apply IH. lia. }
  rewrite Split, ofold_app in E. ob E x Hx.
  destruct (skipn n (fty seg)) as [|y r] eqn:Sk.
  { apply (f_equal (@length _)) in Sk. rewrite skipn_length in Sk. simpl in Sk. lia. }
  destruct (length (fty seg) - n) as [|k] eqn:Lk; [lia|]. cbn [seq combine ofold] in E. ob E z Hz.
  destruct x. ob Hz xm Hm. apply idx_Ok in Hm. apply nth_error_lt in Hm. lia.
Qed.

Lemma line_vertices_nth mk ty xms i y xm : nth_error ty i = Some y -> nth_error xms i = Some xm ->
  nth_error (line_vertices mk ty xms) i = Some (map (mk y) xm).
Proof.
  unfold line_vertices. intros H1 H2. rewrite nth_error_map.
  replace (nth_error (combine ty xms) i) with (Some (y, xm)); [reflexivity|].
  revert ty xms H1 H2. induction i as [|i IH]; intros [|a ty] [|b xms] H1 H2; simpl in *; try discriminate.
  - congruence.
  - auto.
Qed.
Lemma nth_concat {A} (ls : list (list A)) i l j x : nth_error ls i = Some l -> nth_error l j = Some x ->
  nth_error (concat ls) (length (concat (firstn i ls)) + j) = Some x.
Proof.
  revert i. induction ls as [|a ls IH]; intros [|i] H1 H2; simpl in *; try discriminate.
  - injection H1 as ->. apply nth_error_app_old; auto.
  - rewrite app_length. rewrite nth_error_app2 by lia.
    replace (length a + length (concat (firstn i ls)) + j - length a) with (length (concat (firstn i ls)) + j) by lia. auto.
Qed.

(** The vertex of segment j on line i. *)
Lemma gen_vertices_at mk seg g g' plane i j a : gen_vertices mk seg g = Ok (g', plane) ->
  seg_vertex plane seg i j a -> exists y x xm, nth_error (fty seg) i = Some y /\ nth_error (fxM seg) i = Some xm /\
    nth_error xm j = Some x /\ nth_error (gvert g') a = Some (mk y x) /\ length (gvert g) <= a.
Proof.
  intros E (n & xm & P & X & J & ->). pose proof (gen_vertices_len _ _ _ _ _ E) as L.
  rewrite gen_vertices_spec in E by auto. injection E as <- <-.
  rewrite nth_error_map in P. destruct (nth_error (seq 0 (length (fty seg))) i) as [i'|] eqn:Ei; [|discriminate].
  pose proof (nth_error_lt _ _ _ Ei) as Li. rewrite seq_length in Li.
  assert (i' = i). { apply nth_error_nth with (d := 0) in Ei. rewrite seq_nth in Ei by auto. lia. } subst i'.
  injection P as <-. destruct (nth_error (fty seg) i) as [y|] eqn:Ey; [|apply nth_error_None in Ey; lia].
  destruct (nth_error xm j) as [x|] eqn:Ex; [|apply nth_error_None in Ex; lia].
  exists y, x, xm. split; [auto|]. split; [auto|]. split; [auto|]. cbn. split; [|lia].
  rewrite nth_error_app2 by lia.
  replace (length (gvert g) + length (concat (firstn i (line_vertices mk (fty seg) (fxM seg)))) + j - length (gvert g))
    with (length (concat (firstn i (line_vertices mk (fty seg) (fxM seg)))) + j) by lia.
  eapply nth_concat; [eapply line_vertices_nth; eauto|]. apply map_nth_error. auto.
Qed.

Section P.
Variable E : env.
Notation st := (state E).

(** ---- collision test of a slice ---- *)
Lemma seg_polygon_total v1 v2 p : 2 <= length v1 -> 2 <= length v2 -> exists b, seg_polygon F64 (e_solve E) v1 v2 p = Ok b.
Proof.
  intros H1 H2. unfold seg_polygon, at_.
  destruct v1 as [|a1 [|a2 v1]]; simpl in H1; try lia. destruct v2 as [|b1 [|b2 v2]]; simpl in H2; try lia.
  cbn [nth_error obind]. eauto.
Qed.
Lemma any_crossing_total v1 v2 ps : 2 <= length v1 -> 2 <= length v2 -> exists b, any_crossing E v1 v2 ps = Ok b.
Proof.
  intros H1 H2. induction ps as [|p ps IH]; cbn [any_crossing]; [eauto|].
  destruct (seg_polygon_total v1 v2 p H1 H2) as ([] & ->); cbn [obind]; eauto.
Qed.
Lemma same_slice_total bd v1 v2 : 2 <= length v1 -> 2 <= length v2 -> exists b, same_slice_free E bd v1 v2 = Ok b.
Proof. intros H1 H2. unfold same_slice_free. destruct (any_crossing_total v1 v2 (bobstacle bd) H1 H2) as (b & ->). cbn. eauto. Qed.
Lemma seg_polygon_len v1 v2 p b : seg_polygon F64 (e_solve E) v1 v2 p = Ok b -> 2 <= length v1 /\ 2 <= length v2.
Proof.
  unfold seg_polygon. intros H. ob H a A. ob H b' B. ob H c C. ob H d D.
  apply at_Ok in A, B, C, D. apply nth_error_lt in A, B, C, D. lia.
Qed.
Lemma same_slice_false_refl bd v1 v2 : same_slice_free E bd v1 v2 = Ok false -> exists b, same_slice_free E bd v1 v1 = Ok b.
Proof.
  intros H. unfold same_slice_free in *. destruct (bobstacle bd) as [|p ps]; [discriminate|].
  ob H c C. cbn [any_crossing] in C. ob C b B. apply seg_polygon_len in B. destruct B as [B _].
  apply (same_slice_total (Bound [] (p :: ps)) v1 v1) in B; auto.
Qed.

(** ---- one slice ---- *)
Definition mk3 (ang : f64) (y m : f64) : pose := [m; y; ang].

Lemma construct_slice_inv i (s s' : st) : construct_slice E i s = Ok s' ->
  exists h t seg g1 plane, nth_error (p_headings s) i = Some h /\
    p_robot s' = e_move E (p_robot s) (fofZ 0) (fofZ 0) h /\
    gen_vertices (mk3 (e_angle E (p_robot s'))) seg (p_graph s) = Ok (g1, plane) /\
    connect2d (same_slice_free E (p_slice s')) plane seg g1 = Ok (p_graph s') /\
    p_nv s' = VIdx (length (gvert (p_graph s))) (vslice (p_nv s)) plane [plane] /\
    (if p_refine s then nth_error (p_sliceAll s) i = Some (p_slice s') /\ p_sliceAll s' = p_sliceAll s /\ p_fsbound s' = p_fsbound s
     else p_slice s' = e_mink E (p_fsrobot s) /\ p_sliceAll s' = p_sliceAll s ++ [p_slice s'] /\ p_fsbound s' = p_slice s') /\
    (exists l0 l1 l2 l3, nth_error (e_limits E) 0 = Some l0 /\ nth_error (e_limits E) 1 = Some l1 /\
       nth_error (e_limits E) 2 = Some l2 /\ nth_error (e_limits E) 3 = Some l3 /\
       fty seg = sweep_heights (p_numLineY s) l2 l3 /\
       compute_intersection l0 l1 (fun c => map (hline_polygon F64 c) (barena (p_fsbound s')))
            (fun c => map (hline_polygon F64 c) (bobstacle (p_fsbound s'))) (sweep_heights (p_numLineY s) l2 l3) (p_tables s) = Ok t /\
       compute_free_segment (e_sort E) t (sweep_heights (p_numLineY s) l2 l3) = Ok seg) /\
    p_tables s' = t /\
    p_headings s' = p_headings s /\ p_numLineX s' = p_numLineX s /\ p_numLineY s' = p_numLineY s /\
    p_fsrobot s' = p_fsrobot s /\ p_vidx s' = p_vidx s /\ p_vidxAll s' = p_vidxAll s /\
    p_refine s' = p_refine s /\ p_sol s' = p_sol s.
Proof.
  unfold construct_slice. intros H. ob H h Hh. apply at_Ok in Hh. ob H b Hb. destruct b as [[fsb sb] all].
  ob H ts Hts. ob H gv Hgv. ob H g Hg. injection H as <-. cbn [p_robot p_graph p_nv p_slice p_sliceAll p_fsbound p_tables
    p_headings p_numLineX p_numLineY p_fsrobot p_vidx p_vidxAll p_refine p_sol].
  unfold sweep_process in Hts. cbn [p_numLineY p_fsbound p_tables] in Hts. unfold lim in Hts.
  ob Hts l0 L0. ob Hts l1 L1. ob Hts l2 L2. ob Hts l3 L3. ob Hts t Ht. ob Hts seg Hseg. injection Hts as <-.
  cbn [fst snd] in *. apply idx_Ok in L0, L1, L2, L3.
  unfold generate_vertices in Hgv. cbn [p_robot p_graph p_nv] in Hgv. ob Hgv r Hr. injection Hgv as <-. cbn [fst snd vplane] in *.
  destruct r as [g1 plane]. cbn [fst snd] in *.
  exists h, t, seg, g1, plane. split; [auto|]. split; [auto|]. split; [exact Hr|]. split; [exact Hg|]. split; [auto|].
  split.
  { destruct (p_refine s).
    - ob Hb b Hat. injection Hb as <- <- <-. apply at_Ok in Hat. auto.
    - injection Hb as <- <- <-. auto. }
  split.
  { exists l0, l1, l2, l3. split; [auto|]. split; [auto|]. split; [auto|]. split; [auto|]. split; [|auto].
    unfold compute_free_segment in Hseg. ob Hseg rows Hrows. ob Hseg er Her. injection Hseg as <-. reflexivity. }
  auto 10.
Qed.

(** Bridging never happens: the vertex list is exactly the generated one. *)
Lemma slice_vertices i (s s' : st) : construct_slice E i s = Ok s' ->
  exists seg plane, gvert (p_graph s') = gvert (p_graph s) ++
      concat (line_vertices (mk3 (e_angle E (p_robot s'))) (fty seg) (fxM seg)) /\
    plane = map (fun k => length (gvert (p_graph s)) +
       length (concat (firstn k (line_vertices (mk3 (e_angle E (p_robot s'))) (fty seg) (fxM seg))))) (seq 0 (length (fty seg))) /\
    gen_vertices (mk3 (e_angle E (p_robot s'))) seg (p_graph s) =
      Ok (Graph (gvert (p_graph s')) (gedge (p_graph s)) (gweight (p_graph s)), plane) /\
    connect2d (same_slice_free E (p_slice s')) plane seg (Graph (gvert (p_graph s')) (gedge (p_graph s)) (gweight (p_graph s)))
      = Ok (p_graph s') /\
    p_nv s' = VIdx (length (gvert (p_graph s))) (vslice (p_nv s)) plane [plane] /\
    slice_segments E s s' seg /\ length (fty seg) <= length (fxM seg).
Proof.
  intros H. apply construct_slice_inv in H.
  destruct H as (h & t & seg & g1 & plane & _ & _ & Hg & Hc & Hn & _ & Hs & _). exists seg, plane.
  assert (V : gvert (p_graph s') = gvert g1).
  { eapply connect2d_same_vert; [| |exact Hc].
    - intros v1 v2 _ _ F. eapply same_slice_false_refl; eauto.
    - intros k j1 j2 a b v1 v2 A B N1 N2. eapply gen_vertices_at in A; eauto. eapply gen_vertices_at in B; eauto.
      destruct A as (y & x & xm & _ & _ & _ & A & _). destruct B as (y' & x' & xm' & _ & _ & _ & B & _).
      rewrite A in N1. rewrite B in N2. injection N1 as <-. injection N2 as <-. unfold mk3. cbn. eauto. }
  pose proof (gen_vertices_len _ _ _ _ _ Hg) as L. rewrite V.
  pose proof Hg as Hg'. rewrite gen_vertices_spec in Hg' by auto. injection Hg' as <- <-.
  cbn [gvert gedge gweight]. split; [auto|]. split; [auto|]. split; [apply gen_vertices_spec; auto|]. split; [exact Hc|]. split; [exact Hn|].
  split; [|exact L]. destruct Hs as (l0 & l1 & l2 & l3 & A0 & A1 & A2 & A3 & A4 & A5 & A6).
  exists l0, l1, l2, l3, t. auto 10.
Qed.

(** ---- the planner invariant ---- *)
Definition good_edges (s : st) : Prop :=
  forall k a b, nth_error (gedge (p_graph s)) k = Some (a, b) ->
    exists v1 v2, nth_error (gvert (p_graph s)) a = Some v1 /\ nth_error (gvert (p_graph s)) b = Some v2 /\ justified E s a b v1 v2.
Definition incl_ctx (s s' : st) : Prop :=
  incl (p_sliceAll s) (p_sliceAll s') /\ incl (p_headings s) (p_headings s').
Lemma justified_mono s s' a b v1 v2 : incl_ctx s s' -> justified E s a b v1 v2 -> justified E s' a b v1 v2.
Proof.
  intros [I1 I2] [H|[(bd & H1 & H2)|(r & h1 & h2 & br & A & B & C)]]; [left; auto|right; left; eauto|right; right].
  exists r, h1, h2, br. auto.
Qed.
Lemma good_edges_grew (s s' : st) : incl_ctx s s' -> grew (justified E s') (p_graph s) (p_graph s') -> good_edges s -> good_edges s'.
Proof.
  intros HI (X & _ & N) H k a b Hk. destruct (Nat.lt_ge_cases k (length (gedge (p_graph s)))) as [L|L].
  - rewrite (extends_edge_inv _ _ _ X L) in Hk. destruct (H k a b Hk) as (v1 & v2 & A & B & C).
    exists v1, v2. split; [eapply extends_vert; eauto|]. split; [eapply extends_vert; eauto|]. eapply justified_mono; eauto.
  - apply N with (k := k); auto.
Qed.

(** Everything the planner keeps true. *)
Record inv (r0 : robot_t E) (s : st) : Prop := Inv {
  i_wf : well_formed (p_graph s);
  i_good : good_edges s;
  i_slice : forall b, In b (p_sliceAll s) -> b = e_mink E r0;
  i_rob : p_fsrobot s = r0
}.

Lemma construct_slice_step i (s s' : st) : construct_slice E i s = Ok s' ->
  incl_ctx s s' /\ grew (justified E s') (p_graph s) (p_graph s') /\ In (p_slice s') (p_sliceAll s').
Proof.
  intros H. pose proof (slice_vertices _ _ _ H) as (seg & plane & V & _ & Hg & Hc & _).
  apply construct_slice_inv in H. destruct H as (h & t & seg' & g1' & plane' & Hh & _ & _ & _ & _ & Hsl & _ & _ & Hhd & _).
  assert (In (p_slice s') (p_sliceAll s')).
  { destruct (p_refine s).
    - destruct Hsl as (A & B & _). rewrite B. eapply nth_error_In; eauto.
    - destruct Hsl as (_ & B & _). rewrite B. apply in_or_app. right; left; auto. }
  split; [|split; [|auto]].
  - split; [|rewrite Hhd; apply incl_refl]. destruct (p_refine s); [destruct Hsl as (_ & -> & _); apply incl_refl|].
    destruct Hsl as (_ & -> & _). apply incl_appl, incl_refl.
  - destruct (gen_vertices_grew (justified E s') _ _ _ _ _ Hg) as [G1 _].
    apply connect2d_grew in Hc. destruct Hc as (X & W & N).
    eapply grew_trans; [exact G1|]. split; [exact X|]. split; [exact W|].
    intros k a b Hk Hn. destruct (N k a b Hk Hn) as (v1 & v2 & A & B & J). exists v1, v2. split; [auto|]. split; [auto|].
    cbn [gvert] in *. destruct J as [(i' & j & S1 & S2 & _)|[F _]].
    + left. assert (b = a + 1).
      { destruct S1 as (n & xm & P1 & P2 & _ & ->). destruct S2 as (n' & xm' & P1' & P2' & _ & ->).
        rewrite P1 in P1'. injection P1' as <-. lia. }
      split; [auto|]. eapply gen_vertices_at in S1; eauto. eapply gen_vertices_at in S2; eauto. cbn [gvert] in *.
      destruct S1 as (y & x & xm & Y & _ & _ & M & _). destruct S2 as (y' & x' & xm' & Y' & _ & _ & M' & _).
      rewrite A in M. rewrite B in M'. injection M as ->. injection M' as ->.
      rewrite Y in Y'. injection Y' as <-. exists x, x', y, (e_angle E (p_robot s')). auto.
    + right. left. exists (p_slice s'). auto.
Qed.

Lemma construct_slice_inv_keep r0 i (s s' : st) : construct_slice E i s = Ok s' -> inv r0 s -> inv r0 s'.
Proof.
  intros H [W G Sl R]. pose proof (construct_slice_step _ _ _ H) as (I & Gr & _).
  apply construct_slice_inv in H. destruct H as (h & t & seg' & g1' & plane' & Hh & _ & _ & _ & _ & Hsl & _ & _ & Hhd & _ & _ & Hr & _).
  constructor.
  - apply Gr; auto.
  - eapply good_edges_grew; eauto.
  - destruct (p_refine s); [destruct Hsl as (_ & -> & _); auto|]. destruct Hsl as (E1 & -> & _).
    intros b Hb. apply in_app_or in Hb. destruct Hb as [Hb|[<-|[]]]; [auto|]. rewrite E1, R. reflexivity.
  - congruence.
Qed.

Lemma record_slice_keep r0 (s : st) : inv r0 s -> inv r0 (record_slice E s).
Proof. intros [W G Sl R]. constructor; auto. Qed.
Lemma sample_keep r0 (s : st) : inv r0 s -> inv r0 (sample_orientations E s).
Proof.
  intros [W G Sl R]. constructor; auto. intros k a b Hk. cbn [p_graph] in *.
  destruct (G k a b Hk) as (v1 & v2 & A & B & J). exists v1, v2. split; [auto|]. split; [auto|].
  eapply justified_mono; [|exact J]. split; [apply incl_refl|]. cbn. apply incl_appl, incl_refl.
Qed.

Lemma with_graph_keep r0 (s : st) g : inv r0 s -> grew (justified E (with_graph E s g)) (p_graph s) g -> inv r0 (with_graph E s g).
Proof.
  intros [W G Sl R] Gr. constructor; auto.
  - apply Gr; auto.
  - eapply good_edges_grew; [|exact Gr|exact G]. split; apply incl_refl.
Qed.

Lemma justified_with_graph s g a b v1 v2 : justified E (with_graph E s g) a b v1 v2 <-> justified E s a b v1 v2.
Proof. reflexivity. Qed.

Lemma connect_multi_grew (s s' : st) : connect_multi E s = Ok s' ->
  exists g, s' = with_graph E s g /\ grew (justified E s) (p_graph s) g /\ gvert g = gvert (p_graph s).
Proof.
  unfold connect_multi. intros H. destruct (Nat.eqb (length (p_vidx s)) 1).
  { injection H as <-. exists (p_graph s). split; [destruct s; reflexivity|]. split; [apply grew_refl|auto]. }
  ob H g Hg. injection H as <-. exists g. split; [auto|].
  apply (ofold_inv _ (fun x => grew (justified E s) (p_graph s) x /\ gvert x = gvert (p_graph s))) in Hg; auto.
  { split; [apply grew_refl|auto]. }
  clear g Hg. intros i g g' _ [G V] H. ob H vi Hi. ob H vj Hj. ob H hi Hhi. ob H hj Hhj. ob H br Hbr.
  apply link_ranges_grew in H. destruct H as [G' V']. split; [|congruence].
  eapply grew_trans; [exact G|]. eapply grew_weaken; [|exact G'].
  intros a b v1 v2 (_ & _ & _ & Hok). right. right. apply idx_Ok in Hhi, Hhj.
  exists (p_robot s), hi, hj, br. split; [eapply nth_error_In; eauto|]. split; [eapply nth_error_In; eauto|auto].
Qed.

Lemma connect_exist_grew i (s s' : st) : In (p_slice s) (p_sliceAll s) -> connect_exist E i s = Ok s' ->
  exists g, s' = with_graph E s g /\ grew (justified E s) (p_graph s) g /\ gvert g = gvert (p_graph s).
Proof.
  unfold connect_exist. intros HI H. ob H cur Hc. ob H old Ho. ob H exs He. ob H g Hg. injection H as <-.
  apply link_ranges_grew in Hg. destruct Hg as [G V]. exists g. split; [auto|]. split; [|auto].
  eapply grew_weaken; [|exact G]. intros a b v1 v2 (_ & _ & _ & Hok). right. left. exists (p_slice s). auto.
Qed.

Lemma do_search_inv (s s' : st) : do_search E s = Ok s' -> exists ss ts r,
  nearest_neighbors E s (e_start E) (e_numNeighbor E) (e_radius E) = Ok ss /\
  nearest_neighbors E s (e_goal E) (e_numNeighbor E) (e_radius E) = Ok ts /\
  search (e_astar E) (p_graph s) ss ts (p_sol s) = Ok r /\ s' = with_sol E s r.
Proof.
  unfold do_search. intros H. ob H ss Hs. ob H ts Ht. ob H r Hr. injection H as <-. exists ss, ts, r. auto.
Qed.
Lemma do_search_keep r0 (s s' : st) : do_search E s = Ok s' -> inv r0 s -> inv r0 s'.
Proof. intros H [W G Sl R]. apply do_search_inv in H. destruct H as (? & ? & r & _ & _ & _ & ->). constructor; auto. Qed.

(** ---- HRM2DKC adds nothing ---- *)
Lemma middle_none n v1 v2 rnd c r : middle_vertex [] n v1 v2 rnd c = Ok r -> fst r = None.
Proof.
  revert c r; induction n as [|n IH]; intros c r; cbn [middle_vertex]; [intros [= <-]; auto|].
  intros H. ob H t Ht. destruct t as [[[p p1] p2] c']. ob H f1 F1.
  unfold is_pt_in_poly in F1. ob F1 x Hx. ob F1 y Hy. ob F1 z Hz. cbn in F1. injection F1 as <-.
  eapply IH; eauto.
Qed.
Lemma kc_scan_noop rnd m v1 ms : forall gc gc', kc_scan E [] rnd m v1 ms gc = Ok gc' -> fst gc' = fst gc.
Proof.
  induction ms as [|m2 ms IH]; intros [g c] gc'; cbn [kc_scan]; [intros [= <-]; auto|].
  intros H. ob H v2 Hv. ob H r Hr. apply middle_none in Hr. destruct r as [[v|] c']; [discriminate|].
  apply IH in H. exact H.
Qed.
Lemma kc_connect_noop rnd (s s' : st) : kc_connect E [] rnd s = Ok s' -> s' = s.
Proof.
  unfold kc_connect. intros H. ob H r Hr. injection H as <-.
  assert (X : fst (fst r) = p_graph s).
  { apply (ofold_inv _ (fun x : graph * nat * nat => fst (fst x) = p_graph s)) in Hr; auto.
    clear r Hr. intros i [[g c] start] r _ G H. cbn [fst] in G. ob H vi Hi. ob H p Hp. destruct p as [n12 n2].
    ob H gc Hgc. injection H as <-. cbn [fst].
    apply (ofold_inv _ (fun x : graph * nat => fst x = p_graph s)) in Hgc; auto.
    clear gc Hgc. intros m [g1 c1] [g2 c2] _ G1 H. cbn [fst] in *. ob H v1 Hv.
    apply kc_scan_noop in H. cbn [fst] in H. congruence. }
  rewrite X. destruct s; reflexivity.
Qed.

Section Planning.
Variable connect : st -> outcome st.
Hypothesis connect_grew : forall s s', connect s = Ok s' ->
  exists g, s' = with_graph E s g /\ grew (justified E s) (p_graph s) g /\ gvert g = gvert (p_graph s).

Lemma connect_keep r0 s s' : connect s = Ok s' -> inv r0 s -> inv r0 s'.
Proof. intros H I. apply connect_grew in H. destruct H as (g & -> & G & _). apply with_graph_keep; auto. Qed.

Lemma build_keep r0 (s s' : st) : build_roadmap E connect s = Ok s' -> inv r0 s -> inv r0 s'.
Proof.
  unfold build_roadmap. intros H I. ob H s1 H1. eapply connect_keep; eauto.
  apply (ofold_inv _ (inv r0)) in H1; auto; [apply sample_keep; auto|].
  intros i t t' _ It Ht. ob Ht u Hu. injection Ht as <-. apply record_slice_keep. eapply construct_slice_inv_keep; eauto.
Qed.

Lemma refine_slices_keep r0 late is : forall s s', refine_slices E late is s = Ok s' -> inv r0 s -> inv r0 s'.
Proof.
  induction is as [|i is IH]; intros s s' H I; cbn [refine_slices] in H.
  - injection H as <-. destruct I as [W G Sl R]. constructor; auto.
  - ob H s1 H1. ob H s2 H2. ob H s3 H3.
    pose proof (construct_slice_step _ _ _ H1) as (_ & _ & In1).
    assert (I1 : inv r0 (record_slice E s1)) by (apply record_slice_keep; eapply construct_slice_inv_keep; eauto).
    apply connect_exist_grew in H2; [|exact In1]. destruct H2 as (g & -> & G & _).
    assert (I2 : inv r0 (with_graph E (record_slice E s1) g)) by (apply with_graph_keep; auto).
    pose proof (do_search_keep r0 _ _ H3 I2) as I3.
    destruct (s_solved (p_sol s3) || late i); [injection H as <-; auto|]. eapply IH; eauto.
Qed.

Lemma refine_keep r0 late (s s' : st) : refine E late s = Ok s' -> inv r0 s -> inv r0 s'.
Proof.
  unfold refine. intros H I. eapply refine_slices_keep; eauto. destruct I as [W G Sl R]. constructor; auto.
Qed.

Lemma refine_loop_keep r0 rounds : forall s s', refine_loop E rounds s = Ok s' -> inv r0 s -> inv r0 s'.
Proof.
  induction rounds as [|late rounds IH]; intros s s' H I; cbn [refine_loop] in H.
  - destruct (s_solved (p_sol s)); injection H as <-; auto.
  - destruct (s_solved (p_sol s)); [injection H as <-; auto|]. ob H s1 H1. eapply IH; eauto. eapply refine_keep; eauto.
Qed.

Lemma plan_keep r0 rounds (s s' : st) res : plan E connect rounds s = Ok (s', res) -> inv r0 s -> inv r0 s'.
Proof.
  unfold plan. intros H I. ob H s1 H1. ob H s2 H2. ob H s3 H3.
  assert (I3 : inv r0 s3).
  { eapply refine_loop_keep; eauto. eapply do_search_keep; eauto. eapply build_keep; eauto. }
  destruct (s_solved (p_sol s3)); [ob H p Hp|]; injection H as <- _; auto.
Qed.
End Planning.

Lemma construct_inv robot fsr nx ny nA nO s : construct E robot fsr nx ny nA nO = Ok s -> inv fsr s.
Proof.
  unfold construct. intros H. ob H l0 L0. ob H l1 L1. injection H as <-. constructor; cbn; auto.
  - split; [auto|]. intros k a b Hk. destruct k; discriminate.
  - intros k a b Hk. cbn in Hk. destruct k; discriminate.
  - intros b [].
Qed.

Lemma kc_grew rnd s s' : kc_connect E [] rnd s = Ok s' ->
  exists g, s' = with_graph E s g /\ grew (justified E s) (p_graph s) g /\ gvert g = gvert (p_graph s).
Proof.
  intros H. apply kc_connect_noop in H. subst. exists (p_graph s). split; [destruct s; auto|]. split; [apply grew_refl|auto].
Qed.

Lemma reachable_inv s : reachable E s -> exists r0, inv r0 s.
Proof.
  induction 1 as [robot fsr nx ny nA nO s H|s rounds s' r _ [r0 I] H|s rnd rounds s' r _ [r0 I] H].
  - exists fsr. eapply construct_inv; eauto.
  - exists r0. eapply plan_keep; [|exact H|exact I]. apply connect_multi_grew.
  - exists r0. eapply plan_keep; [|exact H|exact I]. apply kc_grew.
Qed.
End P.
