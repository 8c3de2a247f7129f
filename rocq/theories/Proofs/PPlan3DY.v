(** Spatial planners: replanning, the closest sampled orientation, settings under which
    a call cannot return, single-sample line tests, interpolation by length. *)
From Coq Require Import List Bool Arith Lia ZArith Reals Lra.
From Flocq Require Import IEEE754.BinarySingleNaN.
From Verif.Base Require Import Outcome Float64 FloatFacts.
From Verif.Model Require Import MScalar MDistance MInterval MFreeSpace MLine3D MInterp MGraph MSearch MHRM3D.
From Verif.Spec Require Import SGraph SSearch SPlanner2D SPlanner3D.
From Verif.Proofs Require Import PGraph PHRM2D PPlan2D PGraph3D PHRM3D PPlan3D PPlan3DX PSearch PNearest.
Import ListNotations.

Lemma fltb_ge_num x y z : fltb x y = true -> fltb z y = false -> fisnan z = false -> fltb x z = true.
Proof.
  intros H1 H2 N. destruct (fltb_num _ _ H1) as [A B].
  apply fltb_val in H1; auto. apply fltb_val; auto. destruct (Rlt_le_dec (fval z) (fval y)) as [Q|Q]; [|lra].
  apply fltb_val in Q; auto. congruence.
Qed.

(** ---- a result once solved stays solved ---- *)
Lemma try_pair_solved astar g s t r r' b : try_pair astar g s t r = Ok (r', b) -> s_solved r = true -> s_solved r' = true.
Proof.
  unfold try_pair. intros H Q. destruct (astar g s t) as [p|]; [|injection H as <- _; exact Q].
  ob H w Hw. destruct w as [[path cost] num]. destruct (Nat.eqb num (length (gvert g) + 1)); injection H as <- _; auto.
Qed.
Lemma try_pairs_solved astar g ps : forall r r', try_pairs astar g ps r = Ok r' -> s_solved r = true -> s_solved r' = true.
Proof.
  induction ps as [|[s t] ps IH]; intros r r' H Q; cbn [try_pairs] in H; [injection H as <-; auto|].
  ob H x Hx. destruct x as [r1 b]. cbn [fst snd] in H. apply try_pair_solved in Hx; auto. destruct b; [injection H as <-; auto|eauto].
Qed.
Lemma search_solved astar g ss ts r r' : search astar g ss ts r = Ok r' -> s_solved r = true -> s_solved r' = true.
Proof. unfold search. destruct (Nat.ltb _ _); intros H; [discriminate H|]. eapply try_pairs_solved; eauto. Qed.

Section P.
Variable E : env3.
Notation st := (state3 E).

Lemma do_search3_solved (s s' : st) : do_search3 E s = Ok s' -> s_solved (q_sol s) = true -> s_solved (q_sol s') = true.
Proof. intros H. apply do_search3_inv in H. destruct H as (ss & ts & r & _ & _ & Sr & ->). intros Q. eapply search_solved; eauto. Qed.

Lemma plan_prob_stale R d ds (s s' : st) r : m_prob E = true -> inv3 E R s -> length (q_confs s) = length (q_vidx s) ->
  (forall j, R (length (q_vidx s) + j) j) -> s_solved (q_sol s) = true -> plan_prob E d ds s = Ok (s', r) ->
  length (q_vidx s') = length (q_vidx s) + 1 /\ q_numSlice s' = 1 /\ exists path ip, r = Some (path, ip).
Proof.
  intros Hp I Hl HR Q H. pose proof (plan_prob_result E _ _ _ _ _ H) as Res. unfold plan_prob in H. ob H s1 H1.
  assert (s' = s1) as ->.
  { destruct (s_solved (q_sol s1)); [ob H p Hpp; ob H ip Hip|]; injection H as <- _; auto. }
  clear H. apply (with_num_inv E R _ 0) in I.
  assert (Z : exists s2, prob_step E d (with_samples E s (q_quats s) (q_confs s) 0) = Ok s2 /\ (s_solved (q_sol s2) = true -> s1 = s2)).
  { destruct ds as [|d' ds]; cbn [prob_loop] in H1; ob H1 s2 H2; exists s2; (split; [auto|]); intros Q2; rewrite Q2 in H1; injection H1 as <-; auto. }
  destruct Z as (s2 & H2 & Z). apply (prob_step_keep E Hp R) in H2; auto; [|specialize (HR 0); rewrite Nat.add_0_r in HR; exact HR].
  destruct H2 as (_ & _ & V & N & _ & _ & _ & _ & _ & (s4 & F4 & _ & Hs) & _).
  assert (Q2 : s_solved (q_sol s2) = true) by (eapply do_search3_solved; [exact Hs|]; rewrite F4; exact Q).
  rewrite (Z Q2) in *. split; [exact V|]. split; [exact N|].
  destruct Res as [[Q' _]|(_ & path & ip & -> & _)]; [congruence|]. eauto.
Qed.

(** ---- closest sampled orientation ---- *)
Lemma closest_quat_none qs q0 qq : closest_quat E qs q0 qq = None <->
  forall q, In q qs -> fltb (m_qdist E qq q) (m_qdist E qq q0) = false.
Proof.
  unfold closest_quat.
  assert (S' : forall l d x, snd (fold_left (fun '(d, best) q => let e := m_qdist E qq q in if fltb e d then (e, Some q) else (d, best)) l (d, Some x)) <> None).
  { induction l as [|q l IH]; intros d x; cbn [fold_left snd]; [discriminate|]. cbv zeta. destruct (fltb (m_qdist E qq q) d); apply IH. }
  revert S'. generalize (m_qdist E qq q0). intros d0 S'. induction qs as [|q l IH]; cbn [fold_left].
  - split; [intros _ q []|auto].
  - cbv zeta. destruct (fltb (m_qdist E qq q) d0) eqn:F.
    + split; [intros Hn; apply S' in Hn; destruct Hn|]. intros H. rewrite (H q (or_introl eq_refl)) in F. discriminate F.
    + rewrite IH. split; [intros H x [<-|Hx]; auto|]. intros H x Hx. apply H. right. exact Hx.
Qed.
Lemma closest_quat_some qs q0 qq q : closest_quat E qs q0 qq = Some q ->
  In q qs /\ fltb (m_qdist E qq q) (m_qdist E qq q0) = true /\ forall q', In q' qs -> fltb (m_qdist E qq q') (m_qdist E qq q) = false.
Proof.
  unfold closest_quat. intros H.
  assert (G : forall l d b, (b = None -> d = m_qdist E qq q0) -> (forall x, b = Some x -> d = m_qdist E qq x /\ fltb d (m_qdist E qq q0) = true) ->
     snd (fold_left (fun '(d, best) q => let e := m_qdist E qq q in if fltb e d then (e, Some q) else (d, best)) l (d, b)) = Some q ->
     (In q l \/ b = Some q) /\ fltb (m_qdist E qq q) (m_qdist E qq q0) = true /\ fltb d (m_qdist E qq q) = false /\
     forall q', In q' l -> fltb (m_qdist E qq q') (m_qdist E qq q) = false).
  { clear H. induction l as [|x l IH]; intros d b N S' H; cbn [fold_left] in H.
    - cbn [snd] in H. destruct (S' q H) as [-> F]. split; [auto|]. split; [auto|]. split; [apply fltb_irrefl|]. intros q' [].
    - cbv zeta in H. destruct (fltb (m_qdist E qq x) d) eqn:F.
      + assert (F0 : fltb (m_qdist E qq x) (m_qdist E qq q0) = true).
        { destruct b as [y|]; [destruct (S' y eq_refl) as [_ Z]; eapply fltb_trans; eauto|rewrite <- (N eq_refl); exact F]. }
        apply IH in H; [|discriminate|intros y Hy; injection Hy as <-; auto].
        destruct H as ([A|A] & B & C & D).
        * split; [left; right; exact A|]. split; [exact B|]. split; [destruct (fltb d (m_qdist E qq q)) eqn:Z; [rewrite (fltb_trans _ _ _ F Z) in C; discriminate C|auto]|].
          intros q' [Hq|Hq]; [subst q'; exact C|auto].
        * injection A as <-. split; [left; left; auto|]. split; [exact B|].
          split; [destruct (fltb d (m_qdist E qq x)) eqn:Z; [rewrite (fltb_trans _ _ _ F Z) in C; discriminate C|auto]|]. intros q' [Hq|Hq]; [subst q'; exact C|auto].
      + apply IH in H; auto. destruct H as (A & B & C & D). split; [destruct A; [left; right|]; auto|]. split; [exact B|]. split; [exact C|].
        intros q' [Hq|Hq]; [subst q'|auto]. destruct (fltb (m_qdist E qq x) (m_qdist E qq q)) eqn:Z; [|auto].
        assert (Nd : fisnan d = false).
        { destruct b as [y|]; [destruct (S' y eq_refl) as [_ K]|rewrite (N eq_refl); pose proof B as K]; apply fltb_num in K; tauto. }
        rewrite (fltb_ge_num _ _ _ Z C Nd) in F. discriminate F. }
  apply G in H; [|auto|discriminate]. destruct H as ([A|A] & B & _ & D); [auto|discriminate A].
Qed.

Lemma quat_of_Ok v q : get_quat F64 v = Ok q -> exists x, nth_error v 3 = Some x.
Proof. unfold get_quat. intros H. ob H w Hw. apply idx_Ok in Hw. eauto. Qed.

(** Reading the uninitialised quaternion is undefined: a query that returns had a
    sample strictly closer than the first one. *)
Lemma nearest_neighbors3_closer (s : st) v k radius l : m_uninit E = (fun _ _ => UB) -> nearest_neighbors3 E s v k radius = Ok l ->
  exists qq q0 q, get_quat F64 v = Ok qq /\ nth_error (q_quats s) 0 = Some q0 /\ In q (q_quats s) /\
    fltb (m_qdist E qq q) (m_qdist E qq q0) = true.
Proof.
  intros U H. unfold nearest_neighbors3 in H. ob H qq Hq. ob H q0 H0. ob H m Hm. apply idx_Ok in H0.
  destruct (closest_quat E (q_quats s) q0 qq) as [q|] eqn:C; [|rewrite U in Hm; discriminate Hm].
  apply closest_quat_some in C. destruct C as (A & B & _). exists qq, q0, q. auto.
Qed.
Lemma do_search3_closer (s s' : st) v : m_uninit E = (fun _ _ => UB) -> do_search3 E s = Ok s' -> (v = m_start E \/ v = m_goal E) ->
  exists qq q0 q, get_quat F64 v = Ok qq /\ nth_error (q_quats s) 0 = Some q0 /\ In q (q_quats s) /\
    fltb (m_qdist E qq q) (m_qdist E qq q0) = true.
Proof.
  intros U H Hv. apply do_search3_inv in H. destruct H as (ss & ts & r & N1 & N2 & _).
  destruct Hv as [-> | ->]; [exact (nearest_neighbors3_closer _ _ _ _ _ U N1)|exact (nearest_neighbors3_closer _ _ _ _ _ U N2)].
Qed.

Lemma prob_step_one d (s s' : st) R : m_prob E = true -> inv3 E R s -> length (q_confs s) = length (q_vidx s) ->
  R (length (q_vidx s)) (q_numSlice s) -> q_quats s = [] -> m_uninit E = (fun _ _ => UB) -> prob_step E d s <> Ok s'.
Proof.
  intros Hp I Hl HR Q0 U H. apply (prob_step_keep E Hp R) in H; auto.
  destruct H as (_ & _ & _ & _ & _ & _ & _ & _ & (q & c & Q & _) & (s4 & _ & _ & Hs) & _).
  pose proof (do_search3_inv E _ _ Hs) as (ss & ts & r & _ & _ & _ & Es).
  destruct (do_search3_closer _ _ _ U Hs (or_introl eq_refl)) as (qq & q0 & q' & _ & H0 & Hi & F).
  assert (X : q_quats s4 = [q]) by (rewrite Es in Q; cbn [with_sol3 q_quats] in Q; rewrite Q, Q0; reflexivity).
  rewrite X in *. injection H0 as <-. destruct Hi as [<-|[]]. rewrite fltb_irrefl in F. discriminate F.
Qed.

Lemma prob_never_returns s : m_prob E = true -> m_uninit E = (fun _ _ => UB) -> reachable3 E s ->
  q_quats s = [] /\ forall d ds x, plan_prob E d ds s <> Ok x.
Proof.
  intros Hp U.
  assert (G : forall s : st, reachable3 E s -> q_quats s = [] -> forall d ds x, plan_prob E d ds s <> Ok x).
  { clear s. intros s Hr Q d ds x H. destruct (reachable3_inv E s Hr) as [I L]. specialize (L Hp).
    apply (with_num_inv E _ _ 0) in I. unfold plan_prob in H. ob H s1 H1.
    assert (Z : exists s2, prob_step E d (with_samples E s (q_quats s) (q_confs s) 0) = Ok s2)
      by (destruct ds; cbn [prob_loop] in H1; ob H1 s2 H2; eauto).
    destruct Z as [s2 Z]. eapply prob_step_one; [exact Hp|exact I|exact L| |exact Q|exact U|exact Z].
    unfold rel3. rewrite Hp. cbn [with_samples q_numSlice]. lia. }
  intros Hr. assert (Q : q_quats s = []).
  { induction Hr as [robot nS nx ny nA nO s H|s rq rounds s' r P Hr IH H|s d ds s' r P Hr IH H|s bd s' segs Hr IH H].
    - unfold construct3 in H. ob H l4 Hl4. ob H l5 Hl5. injection H as <-. reflexivity.
    - congruence.
    - exfalso. eapply G; [exact Hr|exact IH|exact H].
    - apply free_segment3_inv in H. destruct H as (t & -> & _). exact IH. }
  split; [exact Q|]. apply G; auto.
Qed.

(** ---- settings that no call survives ---- *)
Lemma plan3_not_rigid rq rounds (s : st) : m_prob E = false -> m_rigid E = false -> reachable3 E s ->
  (m_samples E <> [] \/ 0 < q_numSlice s) -> plan3 E rq rounds s = Throw OutOfRange.
Proof.
  intros Hp Hr Hs Hn. destruct (reachable3_inv E s Hs) as [I _]. pose proof (k_conf _ _ _ I) as C. rewrite Hp in C.
  destruct (sample3_fields E rq s) as (qs & n & Es).
  assert (Pn : exists k, q_numSlice (sample_so3 E rq s) = S k).
  { unfold sample_so3. destruct (m_samples E) as [|x l]; cbn [with_samples q_numSlice].
    - destruct Hn as [Hn|Hn]; [congruence|]. destruct (q_numSlice s); [lia|eauto].
    - cbn [length]. eauto. }
  destruct Pn as [k Pn]. unfold plan3, build_roadmap3. cbv zeta. rewrite Pn. cbn [seq ofold].
  replace (construct_slice3 E 0 (sample_so3 E rq s)) with (@Throw st OutOfRange); [reflexivity|].
  unfold construct_slice3, slice_pose. rewrite Hr, Es. cbn [with_samples q_confs]. rewrite C. reflexivity.
Qed.

Lemma omap_at_len {A} (v : list A) a : forall n, a + n <= length v -> exists c, omap (fun i => at_ v (a + i)) (seq 0 n) = Ok c.
Proof.
  intros n. assert (G : forall n k, a + k + n <= length v -> exists c, omap (fun i => at_ v (a + i)) (seq k n) = Ok c).
  { clear n. induction n as [|n IH]; intros k H; cbn [seq omap]; [eauto|].
    destruct (IH (S k) ltac:(lia)) as [c Hc]. unfold at_ at 1. destruct (nth_error v (a + k)) as [x|] eqn:N; [|apply nth_error_None in N; lia].
    cbn [obind]. rewrite Hc. cbn [obind]. eauto. }
  intros H. apply G. lia.
Qed.
Lemma idx_out {A} (v : list A) i : length v <= i -> idx v i = UB.
Proof. intros H. unfold idx. apply nth_error_None in H. rewrite H. reflexivity. Qed.
Lemma omap_idx_out {A} (v : list A) k n : length v < k + n -> k <= length v -> omap (idx v) (seq k n) = UB.
Proof.
  revert k. induction n as [|n IH]; intros k H H2; [lia|]. cbn [seq omap].
  destruct (Nat.eq_dec k (length v)) as [->|Ne]; [rewrite idx_out by lia; reflexivity|].
  unfold idx at 1. destruct (nth_error v k) as [x|] eqn:N; [|apply nth_error_None in N; lia]. cbn [obind].
  rewrite IH by lia. reflexivity.
Qed.

Lemma plan_prob_rigid d ds (s : st) : m_prob E = true -> m_rigid E = true -> 0 < m_dof E ->
  (forall x, plan_prob E d ds s <> Ok x) /\
  (q_quats s = [] -> 7 + m_dof E <= length (m_start E) -> plan_prob E d ds s = UB).
Proof.
  intros Hp Hr Hd.
  assert (T : forall r q, set_transform3 E r ([fofZ 0; fofZ 0; fofZ 0] ++ quat_list q) = UB).
  { intros r [[[w x] y] z]. unfold set_transform3. rewrite Hp. cbn [quat_list app]. rewrite omap_idx_out; [reflexivity|cbn [length]; lia|cbn [length]; lia]. }
  assert (C : forall i (s : st), (exists q, nth_error (q_quats s) i = Some q) -> construct_slice3 E i s = UB).
  { intros i s0 [q Hq]. unfold construct_slice3, slice_pose. rewrite Hr. unfold at_. rewrite Hq. cbn [obind]. rewrite T. reflexivity. }
  assert (C' : forall i (s s' : st), construct_slice3 E i s <> Ok s').
  { intros i s0 s1 H. destruct (nth_error (q_quats s0) i) as [q|] eqn:Hq; [rewrite C in H by eauto; discriminate H|].
    unfold construct_slice3, slice_pose in H. rewrite Hr in H. unfold at_ in H. rewrite Hq in H. discriminate H. }
  split.
  - intros x H. unfold plan_prob in H. ob H s1 H1. destruct ds; cbn [prob_loop] in H1; ob H1 s2 H2; unfold prob_step in H2; ob H2 s3 H3; ob H2 s4 H4; eapply C'; exact H4.
  - intros Q L. unfold plan_prob.
    assert (Z : prob_step E d (with_samples E s (q_quats s) (q_confs s) 0) = UB).
    { unfold prob_step, sample_prob. cbn [with_samples q_numSlice]. cbn [Nat.eqb].
      destruct (omap_at_len (m_start E) 7 (m_dof E)) as [c Hc]; [exact L|].
      assert (Hq : exists q, at_quat (m_start E) = Ok q).
      { unfold at_quat, at_. destruct (m_start E) as [|a0 [|a1 [|a2 [|a3 [|a4 [|a5 [|a6 l]]]]]]]; cbn [length] in L; try lia. cbn [nth_error obind]. eauto. }
      destruct Hq as [q Hq]. rewrite Hq. cbn [obind]. rewrite Hc. cbn [obind with_samples q_numSlice q_quats q_confs]. rewrite C; [reflexivity|].
      cbn [with_samples q_quats]. rewrite Q. cbn [app nth_error]. eauto. }
    destruct ds; cbn [prob_loop]; rewrite Z; reflexivity.
Qed.

(** A call that returns swept at least one line of at least one plane. *)
Lemma slice3_lines i (s s' : st) : construct_slice3 E i s = Ok s' -> 0 < q_numLineX s /\ 0 < q_numLineY s <= rows (q_tables s).
Proof.
  intros H. apply construct_slice3_inv in H. destruct H as (v & js & segs & line & _ & _ & _ & Sg & Hc & _).
  apply (connect3d_spec _ _ _ []) in Hc. destruct Hc as (Ne & _). apply slice_segments3_facts in Sg.
  destruct Sg as (l0 & l1 & l2 & l3 & _ & _ & _ & _ & _ & M & _ & R). split; [|auto].
  destruct (q_numLineX s) eqn:Z; [|lia]. exfalso. assert (length segs = 0) by (rewrite <- (map_length fst), M, grid_length; reflexivity). destruct segs; [congruence|discriminate].
Qed.
Lemma plan3_lines rq rounds (s s' : st) r : plan3 E rq rounds s = Ok (s', r) ->
  0 < q_numLineX s /\ 0 < q_numLineY s.
Proof.
  unfold plan3, build_roadmap3. intros H. ob H s1 H1. ob H s2 H2. clear H. ob H1 s0 H0.
  destruct (sample3_facts E rq s) as (Ls & _ & _). destruct (sample3_fields E rq s) as (qs & n & Es).
  destruct (q_numSlice (sample_so3 E rq s)) as [|k] eqn:N.
  - exfalso. cbn [seq ofold] in H0. injection H0 as <-. assert (Q : q_quats (sample_so3 E rq s) = []) by (destruct (q_quats (sample_so3 E rq s)); [auto|discriminate Ls]).
    apply do_search3_quats in H2. apply H2. unfold connect_multi3 in H1. destruct (Nat.eqb _ 1); [injection H1 as <-; exact Q|].
    ob H1 g Hg. injection H1 as <-. exact Q.
  - cbn [seq ofold] in H0. ob H0 sx Hx. ob Hx sy Hy. apply slice3_lines in Hy. rewrite Es in Hy. cbn [with_samples q_numLineX q_numLineY] in Hy. lia.
Qed.
Lemma plan_prob_lines d ds (s s' : st) r : plan_prob E d ds s = Ok (s', r) -> 0 < q_numLineX s /\ 0 < q_numLineY s.
Proof.
  unfold plan_prob. intros H. ob H s1 H1. clear H.
  assert (Z : exists s2, prob_step E d (with_samples E s (q_quats s) (q_confs s) 0) = Ok s2)
      by (destruct ds; cbn [prob_loop] in H1; ob H1 s2 H2; eauto).
  destruct Z as [s2 Z]. unfold prob_step in Z. ob Z s3 H3. ob Z s4 H4. apply slice3_lines in H4.
  unfold sample_prob in H3. ob H3 q Hq. ob H3 js Hj. injection H3 as <-. cbn [with_samples q_numLineX q_numLineY] in H4. lia.
Qed.
End P.
