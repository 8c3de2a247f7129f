(** Planning calls of the spatial planners. *)
From Coq Require Import List Bool Arith Lia ZArith.
From Verif.Base Require Import Outcome Float64.
From Verif.Model Require Import MScalar MDistance MInterval MFreeSpace MLine3D MInterp MGraph MSearch MHRM3D.
From Verif.Spec Require Import SGraph SPlanner2D SPlanner3D.
From Verif.Proofs Require Import PGraph PHRM2D PPlan2D PGraph3D PHRM3D.
Import ListNotations.

Lemma omap_idx_seq {A} (v : list A) : forall pre, omap (idx (pre ++ v)) (seq (length pre) (length v)) = Ok v.
Proof.
  induction v as [|a v IH]; intros pre; [reflexivity|]. cbn [length seq omap].
  unfold idx at 1. rewrite nth_error_app2, Nat.sub_diag by lia. cbn [nth_error obind].
  specialize (IH (pre ++ [a])). rewrite <- app_assoc in IH. cbn [app] in IH. rewrite app_length in IH. cbn [length] in IH.
  rewrite Nat.add_1_r in IH. rewrite IH. reflexivity.
Qed.
Lemma omap_idx_all {A} (v : list A) n c : omap (idx v) (seq 0 n) = Ok c -> length v = n -> c = v.
Proof. intros H <-. pose proof (omap_idx_seq v []) as Q. cbn [app length] in Q. congruence. Qed.
Lemma omap_idx_len {A} (v : list A) n c : omap (idx v) (seq 0 n) = Ok c -> n <= length v.
Proof.
  intros H. destruct n as [|n]; [lia|]. apply omap_Ok in H. rewrite seq_S in H. apply Forall2_app_inv_l in H.
  destruct H as (l1 & l2 & _ & H2 & _). inversion H2 as [|? ? ? ? Q]; subst. cbn [plus] in Q. apply idx_Ok in Q. apply nth_error_lt in Q. lia.
Qed.
Lemma Forall2_same_len {A B} (P : A -> B -> Prop) l l' : Forall2 P l l' -> length l = length l'.
Proof. induction 1; cbn [length]; congruence. Qed.
Lemma quat_list_length q : length (quat_list q) = 4.
Proof. destruct q as [[[w x] y] z]. reflexivity. Qed.

Section P.
Variable E : env3.
Notation st := (state3 E).

(** The invariant; [R k i]: slice [k] may have been built from sample [i]. *)
Record inv3 (R : nat -> nat -> Prop) (s : st) : Prop := Inv3 {
  k_wf : well_formed (q_graph s);
  k_good : good_edges3 E s;
  k_refine : q_refine s = false;
  k_rows : rows (q_tables s) = q_numLineY s;
  k_ranges : ranges 0 (q_vidx s) (length (gvert (q_graph s)));
  k_all : q_vidxAll s = [];
  k_mink : forall b, In b (q_sliceAll s) -> m_mink E (q_fsrobot s) = Ok b;
  k_len : length (q_sliceAll s) = length (q_vidx s);
  k_slice : forall k v a, nth_error (q_vidx s) k = Some v -> vstart v <= a < vslice v ->
     exists i p, R k i /\ nth_error (gvert (q_graph s)) a = Some p /\ slice_vertex3 E s k i p;
  k_conf : if m_prob E then Forall2 (config_of E) (q_quats s) (q_confs s) else q_confs s = [];
  k_fresh : q_vidx s = [] -> q_sol s = Sol false [] (fofZ 0)
}.

Lemma slice_vertex3_mono (s s' : st) k i p : (exists l, q_quats s' = q_quats s ++ l) -> (exists l, q_confs s' = q_confs s ++ l) ->
  q_numLineX s' = q_numLineX s -> q_numLineY s' = q_numLineY s -> slice_vertex3 E s k i p -> slice_vertex3 E s' k i p.
Proof.
  intros (l1 & E1) (l2 & E2) E3 E4. unfold slice_vertex3. rewrite E1, E2, E3, E4. destruct (m_prob E).
  - intros (r & ci & ck & H1 & H2 & H3). exists r, ci, ck. split; [apply nth_error_app_old; auto|]. split; [apply nth_error_app_old; auto|auto].
  - intros (r & q & H1 & H2). exists r, q. split; [apply nth_error_app_old; auto|auto].
Qed.

Lemma inv3_weaken (R R' : nat -> nat -> Prop) s : (forall k i, R k i -> R' k i) -> inv3 R s -> inv3 R' s.
Proof.
  intros W [A1 A2 A3 A4 A5 A6 A7 A8 A9 A10 A11]. constructor; auto. intros k v a H1 H2. destruct (A9 k v a H1 H2) as (i & p & X & Y). exists i, p. auto.
Qed.

(** The pose at which slice [i] is built. *)
Lemma slice_pose3 (s : st) i v rb : (if m_prob E then Forall2 (config_of E) (q_quats s) (q_confs s) else q_confs s = []) ->
  slice_pose E i s = Ok v -> set_transform3 E (q_robot s) v = Ok rb ->
  if m_prob E then exists c, nth_error (q_confs s) i = Some c /\ rb = m_move E (q_robot s) c
  else exists q, nth_error (q_quats s) i = Some q /\ rb = m_move E (q_robot s) ([fofZ 0; fofZ 0; fofZ 0] ++ quat_list q).
Proof.
  unfold slice_pose, set_transform3. intros C Hv Hs. ob Hs c Hc. injection Hs as <-. destruct (m_prob E).
  - destruct (m_rigid E).
    + ob Hv q Hq. apply at_Ok in Hq. assert (v = [fofZ 0; fofZ 0; fofZ 0] ++ quat_list q) by congruence. subst v. clear Hv.
      pose proof (omap_idx_len _ _ _ Hc) as Hl. rewrite app_length, quat_list_length in Hl. cbn [length] in Hl.
      assert (D : m_dof E = 0) by lia. apply omap_idx_all in Hc; [|rewrite app_length, quat_list_length, D; reflexivity]. subst c.
      assert (X : exists c, nth_error (q_confs s) i = Some c /\ config_of E q c).
      { clear - C Hq. revert i Hq. induction C as [|q' c' qs cs H _ IH]; intros [|i] Hq; cbn in *; try discriminate Hq; [injection Hq as <-; eauto|eauto]. }
      destruct X as (c & Hc & js & -> & Lj). exists ([fofZ 0; fofZ 0; fofZ 0] ++ quat_list q ++ js). split; [auto|].
      rewrite D in Lj. destruct js; [|discriminate Lj]. rewrite app_nil_r. reflexivity.
    + apply at_Ok in Hv. exists v. split; [auto|]. f_equal.
      assert (X : exists q, config_of E q v).
      { clear - C Hv. revert i Hv. induction C as [|q' c' qs cs H _ IH]; intros [|i] Hq; cbn in *; try discriminate Hq; [injection Hq as <-; eauto|eauto]. }
      destruct X as (q & js & -> & Lj). symmetry. eapply omap_idx_all in Hc; [symmetry; exact Hc|].
      rewrite !app_length, quat_list_length, Lj. reflexivity.
  - destruct (m_rigid E).
    + ob Hv q Hq. apply at_Ok in Hq. assert (v = [fofZ 0; fofZ 0; fofZ 0] ++ quat_list q) by congruence. subst v. clear Hv. exists q. split; [auto|]. f_equal.
      apply omap_idx_all in Hc; [auto|]. rewrite app_length, quat_list_length. reflexivity.
    + rewrite C in Hv. unfold at_ in Hv. destruct i; discriminate Hv.
Qed.

Lemma joints3 (s : st) js : joints_of E s = Ok js ->
  if m_prob E then exists c, nth_error (q_confs s) (length (q_confs s) - 1) = Some c /\ js = skipn 7 c else js = [].
Proof.
  unfold joints_of. destruct (m_prob E); [|intros [= <-]; auto]. intros H. ob H c Hc. unfold back_ in Hc. apply idx_Ok in Hc.
  destruct (Nat.ltb (length c) 7); [discriminate H|]. injection H as <-. eauto.
Qed.

(** Construction and recording of a slice. *)
Lemma slice3_step R i (s s' : st) : inv3 R s -> construct_slice3 E i s = Ok s' ->
  (m_prob E = true -> length (q_confs s) = length (q_vidx s) + 1) -> R (length (q_vidx s)) i ->
  inv3 R (record_slice3 E s') /\ length (q_vidx (record_slice3 E s')) = length (q_vidx s) + 1 /\
  q_quats s' = q_quats s /\ q_confs s' = q_confs s /\ q_numSlice s' = q_numSlice s /\
  q_numLineX s' = q_numLineX s /\ q_numLineY s' = q_numLineY s /\ q_fsrobot s' = q_fsrobot s /\ q_sol s' = q_sol s /\ q_refine s' = false /\ extends (q_graph s) (q_graph s').
Proof.
  intros [A1 A2 A3 A4 A5 A6 A7 A8 A9 A10 A11] H Hcl HR. pose proof (slice3_grew E _ _ _ H) as (Ic & Gr & _).
  apply construct_slice3_inv in H.
  destruct H as (v & js & segs & line & Hv & Hs & Hj & Sg & Hc & N1 & N2 & N3 & Sl & B1 & B2 & B3 & B4 & B5 & B6 & B7 & B8 & B9 & B10).
  rewrite A3 in Sl. destruct Sl as (M1 & M2 & _).
  pose proof (slice_pose3 _ _ _ _ A10 Hv Hs) as Pz. pose proof (joints3 _ _ Hj) as Jz.
  apply slice_segments3_facts in Sg. destruct Sg as (l0 & l1 & l2 & l3 & Hl0 & Hl1 & Hl2 & Hl3 & Rw & Fst & Fty & _).
  apply (connect3d_spec _ _ _ (grid (q_numLineY s) l2 l3)) in Hc. destruct Hc as (_ & _ & X & _ & _ & _ & _ & _ & _ & _ & Sh).
  specialize (Sh Fty). rewrite Fst in Sh. pose proof (extends_vlen _ _ X) as Lv.
  split; [|split; [cbn [record_slice3 q_vidx]; rewrite B7, app_length; reflexivity|repeat (split; [first [assumption|congruence]|]); assumption]].
  constructor; cbn [record_slice3 q_graph q_refine q_tables q_numLineY q_vidx q_vidxAll q_sliceAll q_fsrobot q_quats q_confs q_sol].
  - apply Gr; auto.
  - eapply good_edges3_grew in A2; eauto.
  - congruence.
  - congruence.
  - rewrite B7, N1. apply (ranges_app 0 (q_vidx s) (length (gvert (q_graph s))) (VIdx (length (gvert (q_graph s))) (length (gvert (q_graph s'))) (vplane (q_nv s')) (vline (q_nv s')))); auto.
  - congruence.
  - rewrite M2, B6. intros b Hb. apply in_app_or in Hb. destruct Hb as [Hb|[<-|[]]]; auto.
  - rewrite M2, B7, !app_length, A8. reflexivity.
  - rewrite B7. intros k w a Hk Ha. apply snoc_nth in Hk. destruct Hk as [Hk|[-> ->]].
    + destruct (A9 k w a Hk Ha) as (i' & p & R1 & P1 & P2). exists i', p. split; [auto|]. split; [eapply extends_vert; eauto|].
      eapply slice_vertex3_mono; [| | | |exact P2]; cbn [record_slice3 q_quats q_confs q_numLineX q_numLineY]; auto;
        exists []; rewrite app_nil_r; auto.
    + cbn [vstart vslice] in Ha. rewrite N1 in Ha.
      destruct (nth_error (gvert (q_graph s')) a) as [p|] eqn:Ea; [|apply nth_error_None in Ea; lia].
      exists i, p. split; [auto|]. split; [auto|]. destruct (Sh a p ltac:(lia) Ea) as (x & y & z & -> & Hx & Hy).
      unfold slice_vertex3. cbn [record_slice3 q_quats q_confs q_numLineX q_numLineY]. rewrite B1, B2, B4, B5. destruct (m_prob E).
      * destruct Pz as (c & Pc & Pr). destruct Jz as (ck & Jc & ->). rewrite Hcl, Nat.add_sub in Jc by auto.
        exists (q_robot s), c, ck. split; [auto|]. split; [auto|]. rewrite <- Pr. exists x, y, z, l0, l1, l2, l3. auto 10.
      * destruct Pz as (q & Pq & Pr). rewrite Jz. exists (q_robot s), q. split; [auto|]. rewrite <- Pr. exists x, y, z, l0, l1, l2, l3. auto 10.
  - destruct (m_prob E); rewrite ?B1, ?B2; auto.
  - intros Z. destruct (q_vidx s'); discriminate Z.
Qed.

Lemma with_graph3_inv R (s : st) g : gvert g = gvert (q_graph s) -> grew (justified3 E s) (q_graph s) g -> inv3 R s -> inv3 R (with_graph3 E s g).
Proof.
  intros V G [A1 A2 A3 A4 A5 A6 A7 A8 A9 A10 A11].
  constructor; cbn [with_graph3 q_graph q_refine q_tables q_numLineY q_vidx q_vidxAll q_sliceAll q_fsrobot q_quats q_confs q_sol]; rewrite ?V; auto.
  - apply G; auto.
  - eapply (good_edges3_grew E s (with_graph3 E s g)); [split; [apply incl_refl|split; apply incl_refl]|exact G|exact A2].
Qed.
Lemma with_sol3_inv R (s : st) r : q_vidx s <> [] -> inv3 R s -> inv3 R (with_sol3 E s r).
Proof. intros N [A1 A2 A3 A4 A5 A6 A7 A8 A9 A10 A11]. constructor; auto. intros Z. destruct (N Z). Qed.

(** ---- HRM3D ---- *)
Section HRM.
Hypothesis Hp : m_prob E = false.

Lemma slices3_fold R k i (s s' : st) : inv3 R s -> length (q_vidx s) = i -> (forall j, R j j) ->
  ofold (fun s i => obind (construct_slice3 E i s) (fun s' => Ok (record_slice3 E s'))) (seq i k) s = Ok s' ->
  inv3 R s' /\ length (q_vidx s') = i + k /\ q_quats s' = q_quats s /\ q_numSlice s' = q_numSlice s /\
  q_numLineX s' = q_numLineX s /\ q_numLineY s' = q_numLineY s /\ q_fsrobot s' = q_fsrobot s /\ q_sol s' = q_sol s.
Proof.
  revert i s. induction k as [|k IH]; intros i s I Hl HR H.
  - cbn [seq ofold] in H. injection H as <-. rewrite Nat.add_0_r. auto 10.
  - cbn [seq ofold] in H. ob H s1 H1. ob H1 s2 H2. injection H1 as <-.
    apply (slice3_step R) in H2; auto; [|congruence|rewrite Hl; auto].
    destruct H2 as (I' & L' & Q1 & Q2 & Q3 & Q4 & Q5 & Q6 & Q7 & _).
    destruct (IH (S i) _ I' ltac:(lia) HR H) as (C1 & C2 & C3 & C4 & C5 & C6 & C7 & C8).
    cbn [record_slice3 q_quats q_numSlice q_numLineX q_numLineY q_fsrobot q_sol] in *.
    split; [auto|]. split; [lia|]. repeat (split; [congruence|]). congruence.
Qed.

Lemma sample3_facts rq (s : st) : length (q_quats (sample_so3 E rq s)) = q_numSlice (sample_so3 E rq s) /\
  q_confs (sample_so3 E rq s) = q_confs s /\
  q_quats (sample_so3 E rq s) = match m_samples E with [] => map rq (seq 0 (q_numSlice s)) | qs => qs end.
Proof. unfold sample_so3. destruct (m_samples E); cbn; rewrite ?map_length, ?seq_length; auto. Qed.
Lemma sample3_fields rq (s : st) : exists qs n, sample_so3 E rq s = with_samples E s qs (q_confs s) n.
Proof. unfold sample_so3. destruct (m_samples E); eauto. Qed.

Lemma ranges_nil_len n : ranges 0 [] n -> n = 0.
Proof. inversion 1; auto. Qed.

Lemma sample3_inv R rq (s : st) : inv3 R s -> q_vidx s = [] -> inv3 R (sample_so3 E rq s).
Proof.
  intros [A1 A2 A3 A4 A5 A6 A7 A8 A9 A10 A11] V. destruct (sample3_fields rq s) as (qs & n & ->). rewrite V in *. apply ranges_nil_len in A5.
  constructor; cbn [with_samples q_graph q_refine q_tables q_numLineY q_vidx q_vidxAll q_sliceAll q_fsrobot q_quats q_confs q_sol]; rewrite ?V; auto.
  - intros k a b Hk. cbn [q_graph with_samples] in Hk. destruct (A2 k a b Hk) as (v1 & v2 & Hv & _). apply nth_error_lt in Hv. lia.
  - rewrite A5. constructor.
  - intros [|k] v a Q; discriminate Q.
  - rewrite Hp in *. auto.
Qed.

(** Length of the slice list over the construction loop, whatever the state. *)
Lemma slices3_len k i (s s' : st) :
  ofold (fun s i => obind (construct_slice3 E i s) (fun s' => Ok (record_slice3 E s'))) (seq i k) s = Ok s' ->
  length (q_vidx s') = length (q_vidx s) + k /\ q_quats s' = q_quats s.
Proof.
  revert i s. induction k as [|k IH]; intros i s H.
  - cbn [seq ofold] in H. injection H as <-. split; [lia|auto].
  - cbn [seq ofold] in H. ob H s1 H1. ob H1 s2 H2. injection H1 as <-. apply construct_slice3_inv in H2.
    destruct H2 as (v & js & segs & line & _ & _ & _ & _ & _ & _ & _ & _ & _ & B1 & _ & _ & _ & _ & _ & B7 & _).
    apply IH in H. cbn [record_slice3 q_vidx q_quats] in H. rewrite B7, app_length in H. cbn [length] in H.
    split; [lia|]. destruct H as [_ ->]. exact B1.
Qed.
Lemma connect_multi3_len (s s' : st) : connect_multi3 E s = Ok s' ->
  length (q_vidx s) = 1 \/ length (q_vidx s) <= length (q_quats s).
Proof.
  unfold connect_multi3. intros H. destruct (Nat.eqb_spec (length (q_vidx s)) 1) as [L|L]; [left; lia|].
  destruct (length (q_vidx s)) as [|l] eqn:Ll; [right; lia|]. right. ob H g Hg.
  destruct (ofold_in _ _ _ _ Hg l) as (t & t' & Ht); [apply in_seq; lia|].
  ob Ht j Hj. ob Ht vi Hi. ob Ht vj Hvj. ob Ht qi Hqi. apply at_Ok in Hqi. apply nth_error_lt in Hqi. lia.
Qed.

(** A call that returns had no slices before it, and never refined. *)
Lemma plan3_fresh rq rounds (s s' : st) r : plan3 E rq rounds s = Ok (s', r) -> q_vidx s = [].
Proof.
  unfold plan3, build_roadmap3. intros H. ob H s1 H1. ob H s2 H2. clear H. ob H1 s0 H0.
  apply slices3_len in H0. destruct H0 as [L0 Q0]. apply do_search3_quats in H2.
  destruct (sample3_facts rq s) as (Ls & _ & _). destruct (sample3_fields rq s) as (qs & n & Es).
  assert (V : q_vidx (sample_so3 E rq s) = q_vidx s) by (rewrite Es; reflexivity). rewrite V in L0.
  pose proof H1 as Hm. apply connect_multi3_len in H1. apply connect_multi3_grew in Hm; auto. destruct Hm as (g & -> & _).
  cbn [with_graph3 q_quats] in H2. rewrite Q0 in H1, H2. destruct (q_vidx s) as [|x l]; [auto|]. exfalso. cbn [length] in L0.
  destruct (q_quats (sample_so3 E rq s)) as [|y l'] eqn:Z; [congruence|]. cbn [length] in *. lia.
Qed.

Lemma plan3_keep rq rounds (s s' : st) r : inv3 eq s -> plan3 E rq rounds s = Ok (s', r) ->
  exists s1, build_roadmap3 E rq s = Ok s1 /\ do_search3 E s1 = Ok s' /\ inv3 eq s1 /\ inv3 eq s' /\ (s_solved (q_sol s') = true \/ rounds = []) /\
    length (q_vidx s') = length (q_quats s') /\ q_quats s' = q_quats (sample_so3 E rq s) /\ q_quats s' <> [] /\
    q_numSlice s' = length (q_quats s') /\ q_fsrobot s' = q_fsrobot s /\ q_sol s1 = q_sol s /\
    q_numLineX s' = q_numLineX s /\ q_numLineY s' = q_numLineY s.
Proof.
  intros I H. pose proof (plan3_fresh _ _ _ _ _ H) as V. unfold plan3 in H. ob H s1 H1. ob H s2 H2. ob H s3 H3.
  pose proof H1 as Hb. unfold build_roadmap3 in H1. ob H1 s0 H0.
  destruct (sample3_facts rq s) as (Ls & _ & _). destruct (sample3_fields rq s) as (qs & n & Es).
  apply (slices3_fold eq) in H0; auto; [|apply sample3_inv; auto|rewrite Es; cbn [with_samples q_vidx]; rewrite V; reflexivity].
  destruct H0 as (I0 & L0 & C1 & C2 & C3 & C4 & C5 & C6). cbn [plus] in L0.
  pose proof H1 as Hm. apply connect_multi3_grew in Hm; auto. destruct Hm as (g & Eg & Gr & Gv).
  assert (I1 : inv3 eq s1) by (rewrite Eg; apply with_graph3_inv; auto).
  pose proof (do_search3_quats E _ _ H2) as Nq.
  assert (F1 : q_quats s1 = q_quats (sample_so3 E rq s)) by (rewrite Eg; exact C1).
  assert (F2 : length (q_vidx s1) = length (q_quats s1)) by (rewrite F1, Eg; cbn [with_graph3 q_vidx]; lia).
  assert (F3 : q_numSlice s1 = length (q_quats s1)) by (rewrite F1, Eg; cbn [with_graph3 q_numSlice]; lia).
  pose proof (do_search3_inv E _ _ H2) as (ss & ts & rr & _ & _ & _ & E2).
  assert (I2 : inv3 eq s2) by (subst s2; apply with_sol3_inv; auto; intros Z; rewrite Z in F2; destruct (q_quats s1); [congruence|discriminate F2]).
  assert (Ns : q_numSlice s2 <> 0) by (subst s2; cbn [with_sol3 q_numSlice]; rewrite F3; destruct (q_quats s1); [congruence|discriminate]).
  assert (X : s3 = s2 /\ (s_solved (q_sol s2) = true \/ rounds = [])).
  { destruct rounds as [|late rounds]; cbn [refine_loop3] in H3.
    - destruct (s_solved (q_sol s2)); injection H3 as <-; auto.
    - destruct (s_solved (q_sol s2)); [injection H3 as <-; auto|].
      ob H3 s4 H4. exfalso. eapply refine3_never; [apply (k_rows _ _ I2)|exact Ns|exact H4]. }
  destruct X as [-> X].
  assert (s' = s2) as -> by (destruct (s_solved (q_sol s2)); [ob H p Hpp|]; injection H as <- _; auto).
  exists s1. split; [auto|]. split; [auto|]. split; [auto|]. split; [auto|]. split; [auto|].
  subst s2. cbn [with_sol3 q_vidx q_quats q_numSlice q_fsrobot q_numLineX q_numLineY]. split; [auto|]. split; [auto|]. split; [auto|]. split; [auto|].
  rewrite Eg. cbn [with_graph3 q_fsrobot q_sol q_numLineX q_numLineY]. rewrite C3, C4, C5, C6, Es. auto.
Qed.
End HRM.

(** ---- ProbHRM3D ---- *)
Section Prob.
Hypothesis Hp : m_prob E = true.

Lemma at_Ok {A} (l : list A) i x : at_ l i = Ok x -> nth_error l i = Some x.
Proof. unfold at_. destruct (nth_error l i); intros H; [injection H as <-; reflexivity|discriminate H]. Qed.
Lemma copied_quat v q js : at_quat v = Ok q -> omap (fun i => at_ v (7 + i)) (seq 0 (m_dof E)) = Ok js ->
  turned_like E v ([fofZ 0; fofZ 0; fofZ 0] ++ quat_list q ++ js).
Proof.
  intros H J. unfold at_quat in H. ob H w0 Hw. ob H x0 Hx. ob H y0 Hy. ob H z0 Hz. injection H as <-.
  apply at_Ok in Hw, Hx, Hy, Hz. apply omap_Ok in J.
  assert (L : length js = m_dof E) by (apply Forall2_same_len in J; rewrite seq_length in J; lia).
  assert (N : forall k, k < m_dof E -> nth_error js k = nth_error v (7 + k)).
  { clear - J. revert J. generalize (m_dof E) as n. intros n J.
    assert (G : forall a n (js : list f64), Forall2 (fun i y => at_ v (7 + i) = Ok y) (seq a n) js -> forall k, k < n -> nth_error js k = nth_error v (7 + (a + k))).
    { clear. intros a n. revert a. induction n as [|n IH]; intros a js J k K; [lia|]. cbn [seq] in J. inversion J as [|i0 y0 l0 js0 J1 J2]; subst. destruct k as [|k].
      - rewrite Nat.add_0_r. cbn [nth_error]. symmetry. apply at_Ok. exact J1.
      - cbn [nth_error]. rewrite (IH (S a) js0 J2 k) by lia. f_equal. lia. }
    intros k K. exact (G 0 n js J k K). }
  split; [|split].
  - rewrite !app_length. cbn [length quat_list]. lia.
  - intros [|[|[|i]]] Hi; [reflexivity..|lia].
  - intros i Hi. destruct i as [|[|[|i]]]; try lia. cbn [app nth_error quat_list].
    destruct i as [|[|[|[|i]]]]; cbn [nth_error]; [symmetry; assumption..|]. apply N. lia.
Qed.
Lemma sample_prob_facts d (s s' : st) : sample_prob E (d_quat d) (d_joint d) s = Ok s' ->
  exists q c, s' = with_samples E s (q_quats s ++ [q]) (q_confs s ++ [c]) (q_numSlice s) /\ config_of E q c /\ sampled_as E d (q_numSlice s) c.
Proof.
  unfold sample_prob. intros H. ob H q Hq. ob H js Hj. injection H as <-.
  exists q, ([fofZ 0; fofZ 0; fofZ 0] ++ quat_list q ++ js). split; [auto|]. split.
  - exists js. split; [auto|].
    destruct (Nat.eqb (q_numSlice s) 0); [apply omap_Ok in Hj; apply Forall2_same_len in Hj; rewrite seq_length in Hj; lia|].
    destruct (Nat.eqb (q_numSlice s) 1); [apply omap_Ok in Hj; apply Forall2_same_len in Hj; rewrite seq_length in Hj; lia|].
    injection Hj as <-. rewrite map_length, seq_length. auto.
  - destruct (q_numSlice s) as [|[|n]]; cbn [Nat.eqb] in Hq, Hj; cbn [sampled_as].
    + exact (copied_quat _ _ _ Hq Hj).
    + exact (copied_quat _ _ _ Hq Hj).
    + injection Hq as <-. injection Hj as <-. reflexivity.
Qed.

Lemma with_samples_inv R (s : st) q c n : inv3 R s -> config_of E q c -> inv3 R (with_samples E s (q_quats s ++ [q]) (q_confs s ++ [c]) n).
Proof.
  intros [A1 A2 A3 A4 A5 A6 A7 A8 A9 A10 A11] C.
  constructor; cbn [with_samples q_graph q_refine q_tables q_numLineY q_vidx q_vidxAll q_sliceAll q_fsrobot q_quats q_confs q_sol]; auto.
  - intros k a b Hk. destruct (A2 k a b Hk) as (v1 & v2 & B1 & B2 & J). exists v1, v2. split; [auto|]. split; [auto|].
    eapply justified3_mono; [|exact J]. split; [apply incl_refl|]. split; apply incl_appl, incl_refl.
  - intros k v a H1 H2. destruct (A9 k v a H1 H2) as (i & p & B1 & B2 & B3). exists i, p. split; [auto|]. split; [auto|].
    eapply slice_vertex3_mono; [| | | |exact B3]; cbn [with_samples q_quats q_confs q_numLineX q_numLineY]; eauto.
  - rewrite Hp in *. apply Forall2_app; auto.
Qed.
Lemma with_num_inv R (s : st) n : inv3 R s -> inv3 R (with_samples E s (q_quats s) (q_confs s) n).
Proof. intros [A1 A2 A3 A4 A5 A6 A7 A8 A9 A10 A11]. constructor; auto. Qed.

Lemma prob_step_keep R d (s s' : st) : inv3 R s -> length (q_confs s) = length (q_vidx s) -> R (length (q_vidx s)) (q_numSlice s) ->
  prob_step E d s = Ok s' ->
  inv3 R s' /\ length (q_confs s') = length (q_vidx s') /\ length (q_vidx s') = length (q_vidx s) + 1 /\
  q_numSlice s' = q_numSlice s + 1 /\ q_fsrobot s' = q_fsrobot s /\ q_numLineX s' = q_numLineX s /\ q_numLineY s' = q_numLineY s /\
  (q_numSlice s' mod 60 <> 0 \/ m_numPoint E = 0) /\
  (exists q c, q_quats s' = q_quats s ++ [q] /\ q_confs s' = q_confs s ++ [c] /\ config_of E q c /\ sampled_as E d (q_numSlice s) c) /\
  (exists s4, q_sol s4 = q_sol s /\ q_graph s4 = q_graph s' /\ do_search3 E s4 = Ok s') /\ extends (q_graph s) (q_graph s').
Proof.
  intros I Hl HR H. unfold prob_step in H. ob H s1 H1. apply sample_prob_facts in H1. destruct H1 as (q & c & -> & Cf & Sf).
  apply (with_samples_inv R s q c (q_numSlice s)) in I; auto. revert H I.
  set (sa := with_samples E s (q_quats s ++ [q]) (q_confs s ++ [c]) (q_numSlice s)). intros H I.
  ob H s2 H2. apply (slice3_step R) in H2; auto; [|intros _; cbn [sa with_samples q_confs q_vidx]; rewrite app_length; cbn [length]; lia].
  destruct H2 as (I2 & L2 & B1 & B2 & B3 & B4 & B5 & B6 & B7 & B8 & Bx).
  assert (Eb : record_slice3 E (bump E s2) = with_samples E (record_slice3 E s2) (q_quats s2) (q_confs s2) (q_numSlice s2 + 1))
    by (unfold bump; rewrite B8; reflexivity).
  rewrite Eb in H. clear Eb. apply (with_num_inv R _ (q_numSlice s2 + 1)) in I2. cbn [record_slice3 q_quats q_confs] in I2.
  revert H I2. set (sb := with_samples E (record_slice3 E s2) (q_quats s2) (q_confs s2) (q_numSlice s2 + 1)). intros H I2.
  assert (Nb : q_numSlice sb = q_numSlice s + 1) by (cbn [sb with_samples q_numSlice]; rewrite B3; reflexivity).
  assert (Vb : length (q_vidx sb) = length (q_vidx s) + 1) by exact L2.
  assert (Qb : q_quats sb = q_quats s ++ [q]) by exact B1.
  assert (Cb : q_confs sb = q_confs s ++ [c]) by exact B2.
  assert (Fb : q_fsrobot sb = q_fsrobot s /\ q_numLineX sb = q_numLineX s /\ q_numLineY sb = q_numLineY s /\ q_sol sb = q_sol s) by (split; [exact B6|split; [exact B4|split; [exact B5|exact B7]]]).
  assert (Xb : extends (q_graph s) (q_graph sb)) by exact Bx.
  clearbody sb. clear sa I Bx B1 B2 B3 B4 B5 B6 B7 B8 L2 s2.
  ob H s4 H4. assert (X : exists g, s4 = with_graph3 E sb g /\ grew (justified3 E sb) (q_graph sb) g /\ gvert g = gvert (q_graph sb)).
  { destruct (Nat.leb 2 (q_numSlice sb)); [apply connect_last3_grew in H4; auto|]. injection H4 as <-. exists (q_graph sb).
    split; [destruct sb; reflexivity|]. split; [apply grew_refl|auto]. }
  clear H4. destruct X as (g & E4 & Gr & Gv).
  assert (I4 : inv3 R s4) by (rewrite E4; apply with_graph3_inv; auto).
  ob H s5 H5. pose proof (do_search3_inv E _ _ H5) as (ss & ts & rr & _ & _ & _ & E5).
  assert (Ne : q_vidx s4 <> []) by (intros Z; rewrite E4 in Z; cbn [with_graph3 q_vidx] in Z; rewrite Z in Vb; cbn [length] in Vb; lia).
  assert (I5 : inv3 R s5) by (rewrite E5; apply with_sol3_inv; auto).
  assert (N5 : q_numSlice s5 = q_numSlice s + 1) by (rewrite E5, E4; exact Nb).
  assert (Z : s' = s5 /\ (q_numSlice s5 mod 60 <> 0 \/ m_numPoint E = 0)).
  { destruct (Nat.eqb_spec (q_numSlice s5 mod 60) 0) as [M|M]; cbn [andb] in H; [|injection H as <-; auto].
    rewrite (k_all _ _ I5) in H. cbn [length] in H. destruct (Nat.ltb_spec 0 (m_numPoint E)) as [P|P]; [|injection H as <-; split; [auto|right; lia]].
    exfalso. eapply refine3_never; [apply (k_rows _ _ I5)| |exact H]. lia. }
  destruct Z as [-> Z]. split; [exact I5|].
  assert (V5 : q_vidx s5 = q_vidx sb) by (rewrite E5, E4; reflexivity).
  assert (C5 : q_confs s5 = q_confs s ++ [c]) by (rewrite E5, E4; exact Cb).
  assert (Q5 : q_quats s5 = q_quats s ++ [q]) by (rewrite E5, E4; exact Qb).
  rewrite V5, C5. split; [rewrite app_length; cbn [length]; lia|]. split; [exact Vb|]. split; [exact N5|].
  destruct Fb as (F1 & F2 & F3 & F4).
  split; [rewrite E5, E4; exact F1|]. split; [rewrite E5, E4; exact F2|]. split; [rewrite E5, E4; exact F3|]. split; [exact Z|].
  split; [exists q, c; auto|]. split; [exists s4; split; [rewrite E4; exact F4|]; split; [rewrite E5; reflexivity|exact H5]|].
  rewrite E5, E4. cbn [with_sol3 with_graph3 q_graph]. eapply extends_trans; [exact Xb|apply Gr].
Qed.

Lemma prob_loop_keep R base ds : forall d (s s' : st), inv3 R s -> length (q_confs s) = length (q_vidx s) ->
  (forall j, R (base + j) j) -> length (q_vidx s) = base + q_numSlice s ->
  prob_loop E d ds s = Ok s' ->
  inv3 R s' /\ length (q_confs s') = length (q_vidx s') /\ length (q_vidx s') = base + q_numSlice s' /\
  q_numSlice s < q_numSlice s' <= q_numSlice s + S (length ds) /\ q_fsrobot s' = q_fsrobot s /\
  q_numLineX s' = q_numLineX s /\ q_numLineY s' = q_numLineY s /\
  (forall m, q_numSlice s < m <= q_numSlice s' -> m mod 60 <> 0 \/ m_numPoint E = 0) /\
  (s_solved (q_sol s') = true \/ q_numSlice s' = q_numSlice s + S (length ds)) /\
  (exists l, q_confs s' = q_confs s ++ l /\ length l = q_numSlice s' - q_numSlice s /\
     forall k c, nth_error l k = Some c -> exists dk, nth_error (d :: ds) k = Some dk /\ sampled_as E dk (q_numSlice s + k) c).
Proof.
  induction ds as [|d' ds IH]; intros d s s' I Hl HR Hb H; cbn [prob_loop] in H; ob H s1 H1;
    apply (prob_step_keep R) in H1; auto; try (rewrite Hb; apply HR);
    destruct H1 as (I1 & L1 & V1 & N1 & F1 & F2 & F3 & M1 & (q & c & _ & C1 & _ & Sa) & _);
    (assert (One : exists l, q_confs s1 = q_confs s ++ l /\ length l = q_numSlice s1 - q_numSlice s /\
       forall k x, nth_error l k = Some x -> exists dk, nth_error [d] k = Some dk /\ sampled_as E dk (q_numSlice s + k) x)
     by (exists [c]; split; [exact C1|]; split; [cbn [length]; lia|]; intros [|k] x Hx; [|destruct k; discriminate Hx]; injection Hx as <-; exists d; rewrite Nat.add_0_r; auto)).
  - assert (s' = s1) as -> by (destruct (s_solved (q_sol s1)); injection H as <-; auto).
    split; [auto|]. split; [auto|]. split; [lia|]. split; [cbn [length]; lia|]. split; [auto|]. split; [auto|]. split; [auto|]. split.
    + intros m Hm. replace m with (q_numSlice s1) by lia. auto.
    + split; [right; cbn [length]; lia|]. exact One.
  - destruct (s_solved (q_sol s1)) eqn:Sv.
    + injection H as <-. split; [auto|]. split; [auto|]. split; [lia|]. split; [cbn [length]; lia|]. split; [auto|]. split; [auto|]. split; [auto|]. split.
      * intros m Hm. replace m with (q_numSlice s1) by lia. auto.
      * split; [auto|]. destruct One as (l & O1 & O2 & O3). exists l. split; [exact O1|]. split; [exact O2|]. intros [|k] x Hx; [exact (O3 0 x Hx)|].
        destruct (O3 (S k) x Hx) as (dk & Q & _). destruct k; discriminate Q.
    + apply IH in H; auto; [|lia]. destruct H as (I2 & L2 & V2 & N2 & G1 & G2 & G3 & M2 & S2 & l & C2 & Ll & Sl).
      split; [auto|]. split; [auto|]. split; [lia|]. split; [cbn [length]; lia|]. split; [congruence|]. split; [congruence|]. split; [congruence|]. split.
      * intros m Hm. destruct (Nat.eq_dec m (q_numSlice s1)) as [->|]; [auto|]. apply M2. lia.
      * split; [destruct S2; [auto|right; cbn [length]; lia]|]. exists (c :: l). split; [rewrite C2, C1, <- app_assoc; reflexivity|]. split; [cbn [length]; lia|].
        intros [|k] x Hx; cbn [nth_error] in Hx |- *; [injection Hx as <-; exists d; rewrite Nat.add_0_r; auto|].
        destruct (Sl k x Hx) as (dk & D1 & D2). exists dk. split; [exact D1|]. replace (q_numSlice s + S k) with (q_numSlice s1 + k) by lia. exact D2.
Qed.

Lemma plan_prob_keep R d ds (s s' : st) r : inv3 R s -> length (q_confs s) = length (q_vidx s) ->
  (forall j, R (length (q_vidx s) + j) j) -> plan_prob E d ds s = Ok (s', r) ->
  inv3 R s' /\ length (q_confs s') = length (q_vidx s') /\ length (q_vidx s') = length (q_vidx s) + q_numSlice s' /\
  0 < q_numSlice s' <= S (length ds) /\ q_fsrobot s' = q_fsrobot s /\ q_numLineX s' = q_numLineX s /\ q_numLineY s' = q_numLineY s /\
  (forall m, 0 < m <= q_numSlice s' -> m mod 60 <> 0 \/ m_numPoint E = 0) /\
  (s_solved (q_sol s') = true \/ q_numSlice s' = S (length ds)).
Proof.
  intros I Hl HR H. unfold plan_prob in H. ob H s1 H1.
  assert (s' = s1) as ->.
  { destruct (s_solved (q_sol s1)); [ob H p Hpp; ob H ip Hip|]; injection H as <- _; auto. }
  apply (with_num_inv R _ 0) in I. apply (prob_loop_keep R (length (q_vidx s))) in H1; auto.
  destruct H1 as (I2 & L2 & V2 & N2 & G1 & G2 & G3 & M2 & S2 & _). cbn [with_samples q_numSlice q_fsrobot q_numLineX q_numLineY] in *.
  split; [auto|]. split; [auto|]. split; [auto|]. split; [lia|]. auto 10.
Qed.
Lemma plan_prob_samples R d ds (s s' : st) r : inv3 R s -> length (q_confs s) = length (q_vidx s) ->
  (forall j, R (length (q_vidx s) + j) j) -> plan_prob E d ds s = Ok (s', r) ->
  exists l, q_confs s' = q_confs s ++ l /\ length l = q_numSlice s' /\
    forall k c, nth_error l k = Some c -> exists dk, nth_error (d :: ds) k = Some dk /\ sampled_as E dk k c.
Proof.
  intros I Hl HR H. unfold plan_prob in H. ob H s1 H1.
  assert (s' = s1) as ->.
  { destruct (s_solved (q_sol s1)); [ob H p Hpp; ob H ip Hip|]; injection H as <- _; auto. }
  apply (with_num_inv R _ 0) in I. apply (prob_loop_keep R (length (q_vidx s))) in H1; auto.
  destruct H1 as (_ & _ & _ & _ & _ & _ & _ & _ & _ & l & C2 & Ll & Sl). cbn [with_samples q_numSlice q_confs] in *. rewrite Nat.sub_0_r in Ll.
  exists l. auto.
Qed.
End Prob.

Lemma construct3_inv R robot nS nx ny nA nO s : construct3 E robot nS nx ny nA nO = Ok s ->
  inv3 R s /\ q_vidx s = [] /\ q_confs s = [] /\ q_fsrobot s = robot /\ q_numLineX s = nx /\ q_numLineY s = ny /\ q_numSlice s = nS.
Proof.
  unfold construct3. intros H. ob H l4 L4. ob H l5 L5. injection H as <-.
  split; [|auto 10]. constructor; cbn [q_graph q_refine q_tables q_numLineY q_vidx q_vidxAll q_sliceAll q_fsrobot q_quats q_confs q_sol graph0 gvert gedge]; auto.
  - split; [auto|]. intros k a b Hk. destruct k; discriminate.
  - intros k a b Hk. cbn in Hk. destruct k; discriminate.
  - unfold rows, setup, tables0, resize. cbn [arenaLow length]. rewrite firstn_nil. cbn [app]. rewrite repeat_length. lia.
  - constructor.
  - intros b [].
  - intros [|k] v a Hk; discriminate Hk.
  - destruct (m_prob E); auto.
Qed.

Lemma free_segment3_inv bd (s s' : st) segs : free_segment_one_slice E bd s = Ok (s', segs) ->
  exists t, s' = State3 (q_quats s) (q_confs s) (q_numSlice s) (q_numLineX s) (q_numLineY s) (q_robot s) (q_fsrobot s) (q_nA s) (q_nO s)
    bd t bd (q_sliceAll s) (q_graph s) (q_nv s) (q_vidx s) (q_vidxAll s) (q_refine s) (q_sol s) /\ rows t = rows (q_tables s) /\
    slice_segments3 E s s' segs.
Proof.
  unfold free_segment_one_slice. intros H. ob H ts Hts. injection H as <- <-. exists (fst ts). split; [auto|].
  assert (Sg : slice_segments3 E s (State3 (q_quats s) (q_confs s) (q_numSlice s) (q_numLineX s) (q_numLineY s) (q_robot s) (q_fsrobot s) (q_nA s) (q_nO s)
    bd (fst ts) bd (q_sliceAll s) (q_graph s) (q_nv s) (q_vidx s) (q_vidxAll s) (q_refine s) (q_sol s)) (snd ts))
    by (eapply sweep3_spec; [exact Hts|reflexivity..]).
  split; [|exact Sg]. apply slice_segments3_facts in Sg. destruct Sg as (l0 & l1 & l2 & l3 & _ & _ & _ & _ & Rw & _). exact Rw.
Qed.
Lemma free_segment3_keep R bd (s s' : st) segs : free_segment_one_slice E bd s = Ok (s', segs) -> inv3 R s -> inv3 R s'.
Proof.
  intros H [A1 A2 A3 A4 A5 A6 A7 A8 A9 A10 A11]. apply free_segment3_inv in H. destruct H as (t & -> & Rw & _). constructor; auto.
  cbn [q_tables q_numLineY]. congruence.
Qed.

Definition rel3 (k i : nat) : Prop := if m_prob E then i <= k else k = i.
Lemma reachable3_inv s : reachable3 E s -> inv3 rel3 s /\ (m_prob E = true -> length (q_confs s) = length (q_vidx s)).
Proof.
  induction 1 as [robot nS nx ny nA nO s H|s rq rounds s' r P _ [I L] H|s d ds s' r P _ [I L] H|s bd s' segs _ [I L] H].
  - apply (construct3_inv rel3) in H. destruct H as (A & B & C & _). split; [auto|]. intros _. rewrite B, C. auto.
  - split; [|congruence]. apply (plan3_keep P) in H; [destruct H as (s1 & _ & _ & _ & I1 & _)|];
      (eapply inv3_weaken; [|eassumption]); unfold rel3; rewrite P; auto.
  - apply (plan_prob_keep P rel3) in H; auto; [|intros j; unfold rel3; rewrite P; lia]. destruct H as (A & B & _). auto.
  - split; [eapply free_segment3_keep; eauto|]. apply free_segment3_inv in H. destruct H as (t & -> & _). exact L.
Qed.
End P.
