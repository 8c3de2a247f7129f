(** The planning loop of the planar planners: bookkeeping, refinement, reuse. *)
From Coq Require Import List Bool Arith Lia ZArith.
From Verif.Base Require Import Outcome Float64.
From Verif.Model Require Import MScalar MDistance MInterval MFreeSpace MLine2D MGraph MSearch MHRM2D MPointInPoly.
From Verif.Spec Require Import SGraph SPlanner2D.
From Verif.Proofs Require Import PGraph PHRM2D.
Import ListNotations.

Lemma ofold_in {A S} (f : S -> A -> outcome S) l : forall s s', ofold f l s = Ok s' ->
  forall a, In a l -> exists t t', f t a = Ok t'.
Proof.
  induction l as [|x l IH]; intros s s' H a Ha; [destruct Ha|]. cbn [ofold] in H. ob H s1 H1.
  destruct Ha as [<-|Ha]; eauto.
Qed.

(** ---- the tables keep their number of rows ---- *)
Definition rows (t : tables) : nat := length (arenaLow t).
Lemma set_at2_len tbl i j v tbl' : set_at2 tbl i j v = Ok tbl' -> length tbl' = length tbl.
Proof.
  unfold set_at2. intros H. ob H r Hr. ob H r' Hr'. unfold set_at in H.
  destruct (upd tbl i r') as [x|] eqn:U; [|discriminate H]. injection H as <-. eapply upd_length; eauto.
Qed.
Lemma set_arena_rows t i j lu t' : set_arena t i j lu = Ok t' -> rows t' = rows t.
Proof. unfold set_arena. intros H. ob H l Hl. ob H u Hu. injection H as <-. unfold rows; cbn [arenaLow]. eapply set_at2_len; eauto. Qed.
Lemma set_obstacle_rows t i j lu t' : set_obstacle t i j lu = Ok t' -> rows t' = rows t.
Proof. unfold set_obstacle. intros H. ob H l Hl. ob H u Hu. injection H as <-. reflexivity. Qed.
Lemma intersect_line_rows low upp i hA hO t t' : intersect_line low upp i hA hO t = Ok t' -> rows t' = rows t.
Proof.
  unfold intersect_line. intros H. ob H t1 H1.
  apply (ofold_inv _ (fun x => rows x = rows t)) in H1; [|auto|].
  - apply (ofold_inv _ (fun x => rows x = rows t)) in H; [auto|auto|].
    intros [j h] x x' _ Hx E. ob E hits Hh. ob E lu Hl. apply set_obstacle_rows in E. congruence.
  - intros [j h] x x' _ Hx E. ob E hits Hh. ob E lu Hl. apply set_arena_rows in E. congruence.
Qed.
Lemma compute_intersection_rows low upp hA hO lines t t' : compute_intersection low upp hA hO lines t = Ok t' -> rows t' = rows t.
Proof.
  unfold compute_intersection. intros H.
  apply (ofold_inv _ (fun x => rows x = rows t)) in H; [auto|auto|].
  intros [i c] x x' _ Hx E. apply intersect_line_rows in E. congruence.
Qed.
Lemma free_segment_rows srt t ty seg : compute_free_segment srt t ty = Ok seg -> ty <> [] /\ length ty <= rows t.
Proof.
  unfold compute_free_segment. intros H. ob H rs Hr. ob H er Her. split.
  - intros ->. cbn [length seq omap] in Hr. injection Hr as <-. discriminate Her.
  - destruct (length ty) as [|n]; [lia|]. apply omap_Ok in Hr.
    assert (X : exists r, free_row srt t n = Ok r).
    { clear H Her. rewrite seq_S in Hr. cbn [plus] in Hr. apply Forall2_app_inv_l in Hr. destruct Hr as (l1 & l2 & _ & H2 & _).
      inversion H2; subst; eauto. }
    destruct X as (r & X). unfold free_row in X. ob X iv Hiv. unfold sweep_line in Hiv. ob Hiv a Ha.
    unfold collect in Ha. ob Ha lr Hlr. apply at_Ok in Hlr. apply nth_error_lt in Hlr. unfold rows. lia.
Qed.

Lemma ranges_app n l m v : ranges n l m -> vstart v = m -> m <= vslice v -> ranges n (l ++ [v]) (vslice v).
Proof.
  induction 1 as [n|n u l m U1 U2 _ IH]; intros V1 V2; cbn [app].
  - constructor; auto. constructor.
  - constructor; auto.
Qed.
Lemma ranges_le n l m : ranges n l m -> n <= m.
Proof. induction 1; lia. Qed.

Section P.
Variable E : env.
Notation st := (state E).
Notation n := (e_numSlice E).

Record inv2 (s : st) : Prop := Inv2 {
  j_rows : rows (p_tables s) = p_numLineY s;
  j_refine : p_refine s = false;
  j_ranges : ranges 0 (p_vidx s) (length (gvert (p_graph s)));
  j_slice : forall k v a, nth_error (p_vidx s) k = Some v -> vstart v <= a < vslice v ->
     exists p, nth_error (gvert (p_graph s)) a = Some p /\ slice_vertex E s k p;
  j_none : n = 0 -> gvert (p_graph s) = []
}.

Definition headings_ok (s : st) : Prop := forall i, i < n -> nth_error (p_headings s) i = Some (heading E i).

Lemma headings_sample (s : st) : (p_headings s = [] \/ headings_ok s) -> headings_ok (sample_orientations E s).
Proof.
  intros H i Hi. unfold sample_orientations; cbn [p_headings].
  assert (M : nth_error (map (heading E) (seq 0 n)) i = Some (heading E i)).
  { rewrite nth_error_map. rewrite (nth_error_nth' _ 0) by (rewrite seq_length; lia). rewrite seq_nth by lia. reflexivity. }
  destruct H as [->|H]; [exact M|]. apply nth_error_app_old. auto.
Qed.

Lemma line_vertices_In mk ty xms v : In v (concat (line_vertices mk ty xms)) -> exists y x, In y ty /\ v = mk y x.
Proof.
  unfold line_vertices. intros H. apply in_concat in H. destruct H as (l & Hl & Hv). apply in_map_iff in Hl.
  destruct Hl as ([y xm] & <- & Hc). cbn [fst snd] in Hv. apply in_map_iff in Hv. destruct Hv as (x & <- & _).
  exists y, x. split; [|auto]. eapply in_combine_l; eauto.
Qed.

Lemma slice_step i m (s s' : st) : i < n -> headings_ok s -> length (p_vidx s) = m * n + i -> inv2 s ->
  construct_slice E i s = Ok s' ->
  inv2 (record_slice E s') /\ headings_ok (record_slice E s') /\ length (p_vidx (record_slice E s')) = m * n + S i /\
  p_numLineY s' = p_numLineY s.
Proof.
  intros Hi Hh Hl [R1 R2 R3 R4 R5] H.
  pose proof (slice_vertices E _ _ _ H) as (seg & plane & V & _ & Hg & _ & Hn & (l0 & l1 & l2 & l3 & t & L0 & L1 & L2 & L3 & Ci & Fs & Fty) & _).
  pose proof (construct_slice_inv E _ _ _ H) as (h & t' & seg' & g1 & plane' & Hhd & Hrob & _ & _ & _ & _ & (k0 & k1 & k2 & k3 & K0 & K1 & K2 & K3 & _ & Ci' & _) & Ht & E1 & E2 & E3 & E4 & E5 & E6 & E7 & E8).
  rewrite Hh in Hhd by auto. injection Hhd as <-.
  assert (Hnew : forall a, length (gvert (p_graph s)) <= a < length (gvert (p_graph s')) ->
     exists p, nth_error (gvert (p_graph s')) a = Some p /\ slice_vertex E (record_slice E s') (m * n + i) p).
  { intros a Ha. destruct (nth_error (gvert (p_graph s')) a) as [p|] eqn:Ea; [|apply nth_error_None in Ea; lia].
    exists p. split; [auto|]. rewrite V, nth_error_app2 in Ea by lia. apply nth_error_In in Ea.
    apply line_vertices_In in Ea. destruct Ea as (y & x & Hy & ->). rewrite Hrob.
    exists (p_robot s), x, y, l2, l3. rewrite Nat.add_comm, Nat.mod_add, Nat.mod_small by lia.
    split; [reflexivity|]. split; [auto|]. split; [auto|]. cbn [record_slice p_numLineY]. rewrite E3, <- Fty. exact Hy. }
  assert (LV : length (gvert (p_graph s)) <= length (gvert (p_graph s'))) by (rewrite V, app_length; lia).
  split; [|split; [|split; [|auto]]].
  - constructor; cbn [record_slice p_tables p_numLineY p_refine p_vidx p_graph p_nv].
    + rewrite Ht, E3. apply compute_intersection_rows in Ci'. congruence.
    + congruence.
    + rewrite E5, Hn. cbn [vstart vplane vline].
      apply (ranges_app 0 (p_vidx s) (length (gvert (p_graph s)))
         (VIdx (length (gvert (p_graph s))) (length (gvert (p_graph s'))) plane [plane])); auto.
    + rewrite E5, Hn. cbn [vstart vplane vline]. intros k v a Hk Ha. apply snoc_nth in Hk. destruct Hk as [Hk|[-> ->]].
      * destruct (R4 k v a Hk Ha) as (p & P1 & r & x & y & m2 & m3 & -> & M2 & M3 & My).
        exists [x; y; e_angle E (e_move E r (fofZ 0) (fofZ 0) (heading E (k mod n)))].
        split; [rewrite V; apply nth_error_app_old; auto|]. exists r, x, y, m2, m3.
        cbn [record_slice p_numLineY]. rewrite E3. auto.
      * cbn [vstart vslice] in Ha. rewrite Hl. apply Hnew. exact Ha.
    + intros Z. lia.
  - intros k Hk. cbn [record_slice p_headings]. rewrite E1. auto.
  - cbn [record_slice p_vidx]. rewrite E5, app_length, Hl. cbn [length]. lia.
Qed.

Lemma slices_fold m k i (s s' : st) : i + k = n -> headings_ok s -> length (p_vidx s) = m * n + i -> inv2 s ->
  ofold (fun s i => obind (construct_slice E i s) (fun s' => Ok (record_slice E s'))) (seq i k) s = Ok s' ->
  inv2 s' /\ headings_ok s' /\ length (p_vidx s') = m * n + n /\ p_numLineY s' = p_numLineY s.
Proof.
  revert i s. induction k as [|k IH]; intros i s Hi Hh Hl I H.
  - cbn [seq ofold] in H. injection H as <-. split; [auto|]. split; [auto|]. split; [lia|auto].
  - cbn [seq ofold] in H. ob H s1 H1. ob H1 s2 H2. injection H1 as <-.
    destruct (slice_step i m s s2 ltac:(lia) Hh Hl I H2) as (I' & Hh' & Hl' & N').
    destruct (IH (S i) _ ltac:(lia) Hh' Hl' I' H) as (A & B & C & D). split; [auto|]. split; [auto|]. split; [auto|].
    rewrite D. exact N'.
Qed.

Definition all_inv (s : st) : Prop := inv2 s /\ (p_headings s = [] \/ headings_ok s) /\ exists m, length (p_vidx s) = m * n.

Section Planning.
Variable connect : st -> outcome st.
Hypothesis connect_grew : forall s s', connect s = Ok s' ->
  exists g, s' = with_graph E s g /\ grew (justified E s) (p_graph s) g /\ gvert g = gvert (p_graph s).

Lemma with_graph_inv2 (s : st) g : gvert g = gvert (p_graph s) -> inv2 s -> inv2 (with_graph E s g).
Proof.
  intros V [R1 R2 R3 R4 R5]. constructor; cbn [with_graph p_tables p_numLineY p_refine p_vidx p_graph]; rewrite ?V; auto.
Qed.

Lemma build_inv2 m (s s' : st) : inv2 s -> (p_headings s = [] \/ headings_ok s) -> length (p_vidx s) = m * n ->
  build_roadmap E connect s = Ok s' ->
  inv2 s' /\ headings_ok s' /\ length (p_vidx s') = m * n + n /\ p_numLineY s' = p_numLineY s.
Proof.
  intros I Hh Hl H. unfold build_roadmap in H. ob H s1 H1.
  apply (slices_fold m) in H1.
  - destruct H1 as (A & B & C & D). apply connect_grew in H. destruct H as (g & -> & _ & V).
    split; [apply with_graph_inv2; auto|]. split; [exact B|]. split; [exact C|]. exact D.
  - lia.
  - apply headings_sample; auto.
  - cbn [sample_orientations p_vidx]. lia.
  - destruct I as [R1 R2 R3 R4 R5]. constructor; auto.
Qed.

Lemma search_nonempty (s s' : st) : do_search E s = Ok s' -> gvert (p_graph s) <> [].
Proof.
  intros H. apply do_search_inv in H. destruct H as (ss & ts & r & H & _). unfold nearest_neighbors in H.
  intros V. rewrite V in H. cbn in H. discriminate H.
Qed.

Lemma refine_never late (s s' : st) : inv2 s -> n <> 0 -> refine E late s <> Ok s'.
Proof.
  intros [R1 _ _ _ _] Hn H. unfold refine in H. destruct n as [|k]; [lia|]. cbn [seq refine_slices] in H.
  ob H s1 H1. clear H. apply construct_slice_inv in H1.
  destruct H1 as (h & t & seg & g1 & plane & _ & _ & _ & _ & _ & _ & (l0 & l1 & l2 & l3 & _ & _ & _ & _ & _ & Ci & Fs) & _).
  cbn [refine_begin p_numLineY p_tables] in *. apply compute_intersection_rows in Ci. apply free_segment_rows in Fs.
  destruct Fs as [Ne Le]. unfold sweep_heights in Le, Ne. rewrite map_length, seq_length in Le. rewrite Ci, R1 in Le.
  apply Ne. replace (2 * p_numLineY s) with 0 by lia. reflexivity.
Qed.

(** A planning call that returns never refined the roadmap. *)
Lemma plan_once m rounds (s s' : st) r : inv2 s -> (p_headings s = [] \/ headings_ok s) -> length (p_vidx s) = m * n ->
  plan E connect rounds s = Ok (s', r) ->
  exists s1, build_roadmap E connect s = Ok s1 /\ do_search E s1 = Ok s' /\
    (s_solved (p_sol s') = true \/ rounds = []) /\
    inv2 s' /\ headings_ok s' /\ length (p_vidx s') = m * n + n /\ p_numLineY s' = p_numLineY s.
Proof.
  intros I Hh Hl H. unfold plan in H. ob H s1 H1. ob H s2 H2. ob H s3 H3.
  destruct (build_inv2 m s s1 I Hh Hl H1) as (I1 & Hh1 & L1 & N1).
  pose proof (search_nonempty _ _ H2) as Ne.
  assert (Hn : n <> 0) by (intros Z; apply Ne, (j_none _ I1); auto).
  pose proof (do_search_inv E _ _ H2) as (ss & ts & rr & _ & _ & _ & Es).
  assert (I2 : inv2 s2) by (subst s2; destruct I1 as [R1 R2 R3 R4 R5]; constructor; auto).
  assert (X : s3 = s2 /\ (s_solved (p_sol s2) = true \/ rounds = [])).
  { destruct rounds as [|late rounds]; cbn [refine_loop] in H3.
    - destruct (s_solved (p_sol s2)); injection H3 as <-; auto.
    - destruct (s_solved (p_sol s2)); [injection H3 as <-; auto|].
      ob H3 s4 H4. exfalso. eapply refine_never; eauto. }
  destruct X as [-> X].
  assert (s' = s2) as -> by (destruct (s_solved (p_sol s2)); [ob H p Hp|]; injection H as <- _; auto).
  exists s1. split; [auto|]. split; [auto|]. split; [auto|]. split; [auto|]. subst s2. auto.
Qed.
End Planning.

Lemma construct_inv2 robot fsr nx ny nA nO s : construct E robot fsr nx ny nA nO = Ok s ->
  inv2 s /\ p_headings s = [] /\ length (p_vidx s) = 0 * n /\ p_numLineY s = ny.
Proof.
  unfold construct. intros H. ob H l0 L0. ob H l1 L1. injection H as <-.
  split; [|auto]. constructor; cbn; auto.
  - unfold rows, setup, tables0, resize. cbn [arenaLow length]. rewrite firstn_nil. cbn [app]. rewrite repeat_length. lia.
  - constructor.
  - intros [|k] v a Hk; discriminate Hk.
Qed.

Lemma reachable_inv2 s : reachable E s -> inv2 s /\ (p_headings s = [] \/ headings_ok s) /\ exists m, length (p_vidx s) = m * n.
Proof.
  induction 1 as [robot fsr nx ny nA nO s H|s rounds s' r _ (I & Hh & m & L) H|s rnd rounds s' r _ (I & Hh & m & L) H].
  - apply construct_inv2 in H. destruct H as (A & B & C & _). split; [auto|]. split; [auto|]. eauto.
  - apply (plan_once (connect_multi E) (connect_multi_grew E) m) in H; auto.
    destruct H as (s1 & _ & _ & _ & A & B & C & _). split; [auto|]. split; [auto|]. exists (S m). lia.
  - apply (plan_once (kc_connect E [] rnd) (kc_grew E rnd) m) in H; auto.
    destruct H as (s1 & _ & _ & _ & A & B & C & _). split; [auto|]. split; [auto|]. exists (S m). lia.
Qed.

(** ---- connecting slices reads one past the end ---- *)
Lemma connect_multi_len (s s' : st) : connect_multi E s = Ok s' ->
  length (p_vidx s) <= 1 \/ (length (p_vidx s) = n /\ n <> 2).
Proof.
  unfold connect_multi. intros H. destruct (Nat.eqb_spec (length (p_vidx s)) 1) as [L|L]; [left; lia|].
  destruct (length (p_vidx s)) as [|l] eqn:Ll; [left; lia|]. right. ob H g Hg.
  destruct (ofold_in _ _ _ _ Hg l) as (t & t' & Ht); [apply in_seq; lia|].
  ob Ht vi Hi. ob Ht vj Hj. apply at_Ok in Hj. apply nth_error_lt in Hj. rewrite Ll in Hj.
  unfold adjacent in Hj. destruct (Nat.eqb_spec (l + 1) n) as [Q|Q]; cbn [andb] in Hj; [|lia].
  destruct (Nat.eqb_spec n 2) as [Q2|Q2]; cbn [negb] in Hj; [lia|]. lia.
Qed.

(** Two slices. *)
Lemma two_slices_never rounds (s : st) : reachable E s -> n = 2 -> forall o, plan E (connect_multi E) rounds s <> Ok o.
Proof.
  intros Hr H2 [s' r] H. apply reachable_inv2 in Hr. destruct Hr as (I & Hh & m & L).
  unfold plan in H. ob H s1 H1. clear H. pose proof H1 as Hb. unfold build_roadmap in H1. ob H1 s2 H2'.
  apply (build_inv2 (connect_multi E) (connect_multi_grew E) m) in Hb; auto. destruct Hb as (_ & _ & Lb & _).
  pose proof H1 as Hc. apply connect_multi_grew in Hc. destruct Hc as (g & -> & _ & _). cbn [with_graph p_vidx] in Lb.
  apply connect_multi_len in H1. rewrite H2 in *. lia.
Qed.

(** A planner that has planned once cannot plan again. *)
Lemma replan_never rounds s0 s1 r1 rounds1 : reachable E s0 -> plan E (connect_multi E) rounds1 s0 = Ok (s1, r1) ->
  forall o, plan E (connect_multi E) rounds s1 <> Ok o.
Proof.
  intros Hr H [s' r] H'. pose proof (reachable_inv2 _ Hr) as (I & Hh & m & L).
  pose proof H as Hq. apply (plan_once (connect_multi E) (connect_multi_grew E) m) in H; auto.
  destruct H as (sb & Hb & Hs & _ & I1 & Hh1 & L1 & _).
  assert (Hn : n <> 0).
  { intros Z. pose proof (search_nonempty _ _ Hs) as Ne. apply Ne.
    apply do_search_inv in Hs. destruct Hs as (? & ? & ? & _ & _ & _ & ->). exact (j_none _ I1 Z). }
  unfold plan in H'. ob H' s3 H3. clear H'. pose proof H3 as Hb'. unfold build_roadmap in H3. ob H3 s2 H2'.
  apply (build_inv2 (connect_multi E) (connect_multi_grew E) (m + 1)) in Hb'; auto; [|lia]. destruct Hb' as (_ & _ & Lb & _).
  pose proof H3 as Hc. apply connect_multi_grew in Hc. destruct Hc as (g & -> & _ & _). cbn [with_graph p_vidx] in Lb.
  apply connect_multi_len in H3. nia.
Qed.
End P.
