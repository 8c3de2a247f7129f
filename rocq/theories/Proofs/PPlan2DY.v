(** Planar planner: what one slice and one slice-connection step add. *)
From Coq Require Import List Bool Arith Lia ZArith.
From Verif.Base Require Import Outcome Float64.
From Verif.Model Require Import MScalar MDistance MInterval MFreeSpace MLine2D MGraph MSearch MHRM2D.
From Verif.Spec Require Import SFreeSpace SGraph SPlanner2D.
From Verif.Proofs Require Import PTables PGraph PLinks PHRM2D PPlan2D.
Import ListNotations.

Section P.
Variable E : env.
Notation st := (state E).

Lemma seg_line_vertex i (s s' : st) seg plane : construct_slice E i s = Ok s' ->
  gen_vertices (mk3 (e_angle E (p_robot s'))) seg (p_graph s) =
      Ok (Graph (gvert (p_graph s')) (gedge (p_graph s)) (gweight (p_graph s)), plane) ->
  vplane (p_nv s') = plane -> forall k j a, seg_vertex plane seg k j a -> line_vertex E s' seg k j a.
Proof.
  intros H Hg Hp k j a Hs. pose proof Hs as (n & xm & P & X & J & ->).
  eapply gen_vertices_at in Hs; [|exact Hg]. destruct Hs as (y & x & xm' & A & B & C & D & _). cbn [gvert] in D.
  rewrite X in B. injection B as <-. exists n, y, xm, x, (e_angle E (p_robot s')). subst plane. auto 10.
Qed.
Lemma line_seg_vertex (s' : st) seg k j a : line_vertex E s' seg k j a -> seg_vertex (vplane (p_nv s')) seg k j a.
Proof.
  intros (n & y & xm & x & ang & A & B & _ & C & D & _). exists n, xm. split; [auto|]. split; [auto|].
  split; [apply nth_error_lt in D; auto|auto].
Qed.

(** Edges of one slice. *)
Lemma slice_edges i (s s' : st) : construct_slice E i s = Ok s' -> exists seg, slice_segments E s s' seg /\
  extends (p_graph s) (p_graph s') /\
  new_edges (p_graph s) (p_graph s') (fun a b v1 v2 =>
    (exists k j, line_vertex E s' seg k j a /\ line_vertex E s' seg k (j + 1) b /\ touching seg k j) \/
    (exists k j1 j2, line_vertex E s' seg k j1 a /\ line_vertex E s' seg (k + 1) j2 b /\
       same_slice_free E (p_slice s') v1 v2 = Ok true)) /\
  (forall k j a b, line_vertex E s' seg k j a -> line_vertex E s' seg k (j + 1) b -> touching seg k j ->
     In (a, b) (gedge (p_graph s'))) /\
  (forall k j1 j2 a b v1 v2, line_vertex E s' seg k j1 a -> line_vertex E s' seg (k + 1) j2 b ->
     nth_error (gvert (p_graph s')) a = Some v1 -> nth_error (gvert (p_graph s')) b = Some v2 ->
     same_slice_free E (p_slice s') v1 v2 = Ok true -> In (a, b) (gedge (p_graph s'))).
Proof.
  intros H. pose proof (slice_vertices E _ _ _ H) as (seg & plane & V & _ & Hg & Hc & Hn & Hs & L).
  exists seg. split; [exact Hs|].
  assert (Hp : vplane (p_nv s') = plane) by (rewrite Hn; auto).
  pose proof (connect2d_grew _ _ _ _ _ Hc) as (X & _ & N). pose proof (connect2d_complete _ _ _ _ _ Hc) as [C1 C2].
  cbn [gvert gedge gweight] in *.
  split; [|split; [|split]].
  - destruct X as (_ & X2 & X3). cbn [gedge gweight] in *. split; [exists (concat (line_vertices (mk3 (e_angle E (p_robot s'))) (fty seg) (fxM seg))); auto|].
    split; auto.
  - intros k a b Hk Ha. destruct (N k a b Hk Ha) as (v1 & v2 & A & B & J). exists v1, v2. split; [auto|]. split; [auto|].
    destruct J as [(k' & j & P1 & P2 & T)|(F & [(k' & j1 & j2 & P1 & P2)|[Q|Q]])].
    + left. exists k', j. split; [|split]; auto; eapply seg_line_vertex; eauto.
    + right. exists k', j1, j2. split; [|split]; auto; eapply seg_line_vertex; eauto.
    + apply nth_error_lt in A. exfalso. lia.
    + apply nth_error_lt in B. exfalso. lia.
  - intros k j a b A B T. pose proof A as A'. apply line_seg_vertex in A, B. rewrite Hp in *. eapply C1; eauto.
    destruct A' as (n & y & _ & _ & _ & _ & _ & A' & _). apply nth_error_lt in A'. auto.
  - intros k j1 j2 a b v1 v2 A B H1 H2 F. pose proof B as B'. apply line_seg_vertex in A, B. rewrite Hp in *.
    destruct B' as (n & y & _ & _ & _ & _ & _ & B' & _). apply nth_error_lt in B'.
    destruct (C2 k j1 j2 a b B' A B) as [Q|(u1 & u2 & U1 & U2 & U3)]; [auto|]. congruence.
Qed.

(** Edges between slices. *)
Definition cross_edges (s : st) (i : nat) (es : list (nat * nat)) : Prop :=
  exists vi vj hi hj br, nth_error (p_vidx s) i = Some vi /\ nth_error (p_vidx s) (adjacent E i) = Some vj /\
    nth_error (p_headings s) i = Some hi /\ nth_error (p_headings s) (adjacent E i) = Some hj /\
    e_tfe E (p_robot s) hi hj = Ok br /\
    (forall a b, In (a, b) es -> vstart vi <= a < vslice vi /\ vstart vj <= b < vslice vj /\
       exists v1 v2, nth_error (gvert (p_graph s)) a = Some v1 /\ nth_error (gvert (p_graph s)) b = Some v2 /\
         heights_near E (p_numLineY s) v1 v2 /\ multi_slice_free E (p_robot s) br v1 v2 = Ok true) /\
    (forall k k' e e', k < k' -> nth_error es k = Some e -> nth_error es k' = Some e' ->
       fst e < fst e' /\ snd e <= snd e') /\
    (forall a b v1 v2, vstart vi <= a < vslice vi -> vstart vj <= b < vslice vj ->
       nth_error (gvert (p_graph s)) a = Some v1 -> nth_error (gvert (p_graph s)) b = Some v2 ->
       heights_near E (p_numLineY s) v1 v2 -> multi_slice_free E (p_robot s) br v1 v2 = Ok true ->
       (exists b', In (a, b') es /\ b' <= b) \/ (exists a' b', In (a', b') es /\ a' < a /\ b < b')).

Lemma near2d_of n v1 v2 : heights_near E n v1 v2 -> near2d E n v1 v2 = Ok true.
Proof.
  intros (y1 & y2 & l2 & l3 & A & B & C & D & F). unfold near2d, lim, idx. rewrite A, B, C, D. cbn [obind]. rewrite F. reflexivity.
Qed.
Lemma near2d_true n v1 v2 : near2d E n v1 v2 = Ok true -> heights_near E n v1 v2.
Proof.
  unfold near2d, lim. intros H. ob H y1 A. ob H y2 B. ob H l2 C. ob H l3 D. apply idx_Ok in A, B, C, D.
  exists y1, y2, l2, l3. split; [auto|]. split; [auto|]. split; [auto|]. split; [auto|]. injection H as H.
  destruct (fltb _ _); [discriminate H|reflexivity].
Qed.

Lemma connect_multi_edges (s s' : st) : connect_multi E s = Ok s' -> length (p_vidx s) <> 1 ->
  exists ess, length ess = length (p_vidx s) /\ gvert (p_graph s') = gvert (p_graph s) /\
    gedge (p_graph s') = gedge (p_graph s) ++ concat ess /\
    forall i es, nth_error ess i = Some es -> cross_edges s i es.
Proof.
  unfold connect_multi. intros H L. destruct (Nat.eqb_spec (length (p_vidx s)) 1) as [Q|_]; [lia|].
  ob H g Hg. injection H as <-. cbn [with_graph p_graph].
  apply (ofold_inv_prefix _ (fun done x => done = seq 0 (length done) -> exists ess, length ess = length done /\ gvert x = gvert (p_graph s) /\
    gedge x = gedge (p_graph s) ++ concat ess /\ forall i es, nth_error ess i = Some es -> cross_edges s i es)) with (done := []) in Hg.
  - cbn [app] in Hg. rewrite !seq_length in Hg. exact Hg.
  - intros _. exists []. cbn. split; [auto|]. split; [auto|]. split; [rewrite app_nil_r; auto|]. intros [|i] es Q; discriminate Q.
  - clear g Hg. intros done i g g' _ IH H Hd. rewrite app_length in Hd. cbn [length] in Hd. rewrite Nat.add_1_r, seq_S in Hd.
    apply app_inj_tail in Hd. destruct Hd as [Hd Hi]. destruct (IH Hd) as (ess & L1 & V1 & E1 & C1).
    ob H vi Hvi. ob H vj Hvj. ob H hi Hhi. ob H hj Hhj. ob H br Hbr. apply at_Ok in Hvi, Hvj. apply idx_Ok in Hhi, Hhj.
    pose proof (link_ranges_complete _ _ _ _ _ _ _ _ H) as (es2 & Ee2 & Cp).
    apply link_ranges_spec in H. destruct H as (es & ws & V & Ee & _ & _ & P & M).
    assert (Es : es2 = es) by exact (same_suffix _ _ _ _ Ee2 Ee). subst es2.
    exists (ess ++ [es]). split; [rewrite !app_length; cbn [length]; lia|]. split; [congruence|].
    split; [rewrite Ee, E1, concat_app; cbn [concat]; rewrite app_nil_r, app_assoc; auto|].
    intros i' es' Hn. apply snoc_nth in Hn. destruct Hn as [Hn|[-> ->]]; [auto|]. rewrite L1. cbn [Nat.add] in Hi. subst i.
    exists vi, vj, hi, hj, br. split; [auto|]. split; [auto|]. split; [auto|]. split; [auto|]. split; [auto|]. split.
    + intros a b Hin. apply In_nth_error in Hin. destruct Hin as (k & Hk). destruct (P _ _ Hk) as (P1 & P2 & v1 & v2 & w & A & B & _ & _ & N & O).
      cbn [fst snd] in *. rewrite V1 in *. split; [auto|]. split; [auto|]. exists v1, v2. split; [auto|]. split; [auto|].
      split; [apply near2d_true; auto|auto].
    + split; [intros k k' e e' Hlt H1 H2; exact (M k k' e e' Hlt H1 H2)|].
      intros a b v1 v2 Ha Hb H1 H2 N O. rewrite <- V1 in H1, H2. exact (Cp a b v1 v2 Ha Hb H1 H2 (near2d_of _ _ _ N) O).
  - cbn [app]. rewrite seq_length. reflexivity.
Qed.

Lemma bridge_noop_same_heading bd i1 i2 g v1 v2 c : nth_error (gvert g) i1 = Some v1 -> nth_error (gvert g) i2 = Some v2 ->
  nth_error v1 2 = Some c -> nth_error v2 2 = Some c -> same_slice_free E bd v1 v2 = Ok false ->
  bridge (same_slice_free E bd) i1 i2 g = Ok g.
Proof.
  intros H1 H2 C1 C2 F. destruct (same_slice_false_refl E bd v1 v2 F) as (b & Hb). eapply bridge_noop; eauto.
Qed.

(** The path a solved plan returns. *)
Lemma plan_result connect rounds (s s' : st) r : plan E connect rounds s = Ok (s', r) ->
  (s_solved (p_sol s') = false /\ r = None) \/
  (s_solved (p_sol s') = true /\ exists path, r = Some (path, path) /\
     solution_path (p_graph s') (e_start E) (e_goal E) (s_path (p_sol s')) = Ok path).
Proof.
  unfold plan. intros H. ob H s1 H1. ob H s2 H2. ob H s3 H3. destruct (s_solved (p_sol s3)) eqn:Q.
  - ob H path Hp. injection H as <- <-. right. eauto.
  - injection H as <- <-. auto.
Qed.

Lemma plan_keep_fsrobot connect rounds (s s' : st) r :
  (forall s s', connect s = Ok s' -> p_fsrobot s' = p_fsrobot s) ->
  plan E connect rounds s = Ok (s', r) -> p_fsrobot s' = p_fsrobot s.
Proof.
  intros Hc H. unfold plan in H. ob H s1 H1. ob H s2 H2. ob H s3 H3.
  assert (C : forall i (t t' : st), construct_slice E i t = Ok t' -> p_fsrobot t' = p_fsrobot t).
  { intros i t t' Ht. apply construct_slice_inv in Ht. destruct Ht as (? & ? & ? & ? & ? & _ & _ & _ & _ & _ & _ & _ & _ & _ & _ & _ & R & _). auto. }
  assert (D : forall (t t' : st), do_search E t = Ok t' -> p_fsrobot t' = p_fsrobot t).
  { intros t t' Ht. apply do_search_inv in Ht. destruct Ht as (? & ? & ? & _ & _ & _ & ->). reflexivity. }
  assert (R1 : p_fsrobot s1 = p_fsrobot s).
  { unfold build_roadmap in H1. ob H1 t Ht. apply Hc in H1. rewrite H1.
    apply (ofold_inv _ (fun x : st => p_fsrobot x = p_fsrobot s)) in Ht; auto.
    intros i u u' _ Hu Q. ob Q v Hv. injection Q as <-. cbn [record_slice p_fsrobot]. apply C in Hv. congruence. }
  apply D in H2.
  assert (R3 : p_fsrobot s3 = p_fsrobot s2).
  { assert (Rs : forall late is (t t' : st), refine_slices E late is t = Ok t' -> p_fsrobot t' = p_fsrobot t).
    { intros late is. induction is as [|i is IH]; intros t t' Ht; cbn [refine_slices] in Ht; [injection Ht as <-; auto|].
      ob Ht u1 U1. ob Ht u2 U2. ob Ht u3 U3. apply C in U1. apply D in U3.
      assert (U2' : p_fsrobot u2 = p_fsrobot u1).
      { unfold connect_exist in U2. ob U2 a A. ob U2 b B. ob U2 c D'. ob U2 g G. injection U2 as <-. reflexivity. }
      destruct (_ || _); [injection Ht as <-; congruence|]. apply IH in Ht. congruence. }
    clear - H3 Rs. revert s2 H3. induction rounds as [|late rounds IH]; intros s2 H3; cbn [refine_loop] in H3.
    - destruct (s_solved (p_sol s2)); injection H3 as <-; auto.
    - destruct (s_solved (p_sol s2)); [injection H3 as <-; auto|]. ob H3 u U. unfold refine in U. apply Rs in U. apply IH in H3.
      rewrite H3, U. reflexivity. }
  destruct (s_solved (p_sol s3)); [ob H p Hp|]; injection H as <- _; congruence.
Qed.

Lemma plan_multi_fsrobot rounds (s s' : st) r : plan E (connect_multi E) rounds s = Ok (s', r) -> p_fsrobot s' = p_fsrobot s.
Proof.
  apply plan_keep_fsrobot. intros t t' H. apply connect_multi_grew in H. destruct H as (g & -> & _). reflexivity.
Qed.
Lemma plan_kc_fsrobot rnd rounds (s s' : st) r : plan E (kc_connect E [] rnd) rounds s = Ok (s', r) -> p_fsrobot s' = p_fsrobot s.
Proof. apply plan_keep_fsrobot. intros t t' H. apply kc_connect_noop in H. congruence. Qed.
Lemma slices_one_boundary (s : st) : reachable E s -> forall b, In b (p_sliceAll s) -> b = e_mink E (p_fsrobot s).
Proof. intros H. apply reachable_inv in H. destruct H as [r0 [_ _ A B]]. intros b Hb. rewrite B. auto. Qed.
End P.
