(** The collision tests of the planners: what a positive answer says. *)
From Coq Require Import List Bool Arith Lia ZArith Reals Lra.
From Verif.Base Require Import Outcome Float64 FloatFacts.
From Verif.Model Require Import MScalar MFreeSpace MLine2D MLine3D MInterp MGraph MHRM2D MHRM3D.
From Verif.Spec Require Import SLine2D SLine3D SMotion.
From Verif.Proofs Require Import PGraph PHRM2D PLine2D PLine3D PTables.
Import ListNotations.

(** ---- planar ---- *)
Section Planar.
Variable E : env.

Lemma any_crossing_false v1 v2 ps : any_crossing E v1 v2 ps = Ok false <->
  forall p, In p ps -> seg_polygon F64 (e_solve E) v1 v2 p = Ok false.
Proof.
  induction ps as [|p ps IH]; cbn [any_crossing]; [split; [intros _ p []|auto]|].
  split.
  - intros H. ob H b Hb. destruct b; [discriminate H|]. intros q [<-|Hq]; [auto|]. apply IH; auto.
  - intros H. rewrite (H p (or_introl eq_refl)). cbn [obind]. apply IH. intros q Hq. apply H. right. exact Hq.
Qed.
Lemma any_crossing_true v1 v2 ps : any_crossing E v1 v2 ps = Ok true ->
  exists p, In p ps /\ seg_polygon F64 (e_solve E) v1 v2 p = Ok true.
Proof.
  induction ps as [|p ps IH]; cbn [any_crossing]; intros H; [discriminate H|]. ob H b Hb. destruct b.
  - exists p. split; [left|]; auto.
  - destruct (IH H) as (q & A & B). exists q. split; [right|]; auto.
Qed.
Lemma same_slice_free_iff b v1 v2 : same_slice_free E b v1 v2 = Ok true <->
  forall p, In p (bobstacle b) -> seg_polygon F64 (e_solve E) v1 v2 p = Ok false.
Proof.
  unfold same_slice_free. rewrite <- any_crossing_false. split.
  - intros H. ob H c Hc. destruct c; [discriminate H|auto].
  - intros ->. reflexivity.
Qed.
Lemma same_slice_blocked b v1 v2 : same_slice_free E b v1 v2 = Ok false ->
  exists p, In p (bobstacle b) /\ seg_polygon F64 (e_solve E) v1 v2 p = Ok true.
Proof. unfold same_slice_free. intros H. ob H c Hc. destruct c; [|discriminate H]. apply any_crossing_true; auto. Qed.

Lemma point_clear2_iff c bs : point_clear2 F64 c bs = Ok true <-> forall b, In b bs -> clear_of c b.
Proof.
  induction bs as [|b bs IH]; cbn [point_clear2]; [split; [intros _ b []|auto]|]. split.
  - intros H. ob H hits Hh. destruct hits as [|h0 hits].
    + intros q [<-|Hq]; [exists []; split; [auto|left; auto]|apply IH; auto].
    + ob H h1 H1. destruct hits as [|h1' hits]; [discriminate H1|]. injection H1 as <-.
      match type of H with (if ?x then _ else _) = _ => destruct x eqn:B end; [discriminate H|].
      intros q [<-|Hq]; [exists (h0 :: h1' :: hits); split; [auto|]; right; exists h0, h1', hits; auto|apply IH; auto].
  - intros H. destruct (H b (or_introl eq_refl)) as (hits & Hh & N).
    match goal with |- obind ?x _ = _ => replace x with (@Ok (list f64) hits) by (symmetry; exact Hh) end. cbn [obind].
    assert (IH' : point_clear2 F64 c bs = Ok true) by (apply IH; intros q Hq; apply H; right; exact Hq).
    destruct N as [->|(h0 & h1 & rest & -> & B)]; [exact IH'|]. cbn [idx nth_error obind].
    match goal with |- (if ?x then _ else _) = _ => replace x with false by (symmetry; exact B) end. exact IH'.
Qed.
Lemma pt_free_iff br k c : pt_free br k c = Ok true <-> exists bs, nth_error br k = Some bs /\ forall b, In b bs -> clear_of c b.
Proof.
  unfold pt_free. split.
  - intros H. ob H bs Hb. apply at_Ok in Hb. exists bs. split; [auto|]. apply point_clear2_iff; auto.
  - intros (bs & Hb & H). unfold at_. rewrite Hb. cbn [obind]. apply point_clear2_iff; auto.
Qed.
Lemma bodies_free_iff br r : bodies_free E br r = Ok true <-> bodies_clear clear_of br (e_centers E r).
Proof.
  unfold bodies_free, bodies_clear. destruct (e_centers E r) as [base links]. cbn [fst snd].
  assert (G : forall cs k0, (fix go k cs := match cs with [] => Ok true
     | c :: rest => obind (pt_free br k c) (fun b : bool => if b then go (k + 1) rest else Ok false) end) k0 cs = Ok true <->
     forall k c, nth_error cs k = Some c -> exists bs, nth_error br (k0 + k) = Some bs /\ forall b, In b bs -> clear_of c b).
  { induction cs as [|c cs IH]; intros k0.
    - split; [intros _ [|k] c H; discriminate H|auto].
    - split.
      + intros H. ob H b Hb. destruct b; [|discriminate H]. apply pt_free_iff in Hb. intros [|k] x Hx.
        * injection Hx as <-. rewrite Nat.add_0_r. exact Hb.
        * rewrite <- Nat.add_succ_comm. replace (S k0) with (k0 + 1) by lia. apply (proj1 (IH (k0 + 1)) H). exact Hx.
      + intros H. assert (Hc : pt_free br k0 c = Ok true) by (apply pt_free_iff; specialize (H 0 c eq_refl); rewrite Nat.add_0_r in H; exact H).
        rewrite Hc. cbn [obind]. apply IH. intros k x Hx. replace (k0 + 1 + k) with (k0 + S k) by lia. apply H. exact Hx. }
  apply (G (base :: links) 0).
Qed.
Lemma lerp_iff t v1 v2 v : lerp t v1 v2 = Ok v <-> blended t v1 v2 v.
Proof.
  unfold blended. revert v2 v. induction v1 as [|a v1 IH]; intros v2 v; cbn [lerp].
  - split.
    + intros H. injection H as <-. split; [auto|]. split; [cbn; lia|]. intros [|j] a b H; discriminate H.
    + intros (L & _). destruct v; [auto|discriminate L].
  - destruct v2 as [|b v2]; [split; [intros H; discriminate H|intros (_ & L & _); cbn [length] in L; lia]|]. split.
    + intros H. ob H r Hr. injection H as <-. apply IH in Hr. destruct Hr as (L1 & L2 & N). cbn [length]. split; [lia|]. split; [lia|].
      intros [|j] a' b' Ha Hb; [injection Ha as <-; injection Hb as <-; reflexivity|]. apply (N j); auto.
    + intros (L1 & L2 & N). cbn [length] in *. destruct v as [|c v]; [discriminate L1|].
      assert (Hr : lerp t v1 v2 = Ok v).
      { apply IH. split; [cbn [length] in L1; lia|]. split; [lia|]. intros j a' b' Ha Hb. apply (N (S j)); auto. }
      rewrite Hr. cbn [obind]. specialize (N 0 a b eq_refl eq_refl). cbn [nth_error] in N. injection N as ->. reflexivity.
Qed.

Definition step_at (r : robot_t E) (v : pose) (r' : robot_t E) : Prop :=
  exists x y a, nth_error v 0 = Some x /\ nth_error v 1 = Some y /\ nth_error v 2 = Some a /\ r' = e_move E r x y a.
Lemma set_transform_iff r v r' : set_transform E r v = Ok r' <-> step_at r v r'.
Proof.
  unfold set_transform, step_at. split.
  - intros H. ob H x Hx. ob H y Hy. ob H a Ha. injection H as <-. apply idx_Ok in Hx, Hy, Ha. exists x, y, a. auto.
  - intros (x & y & a & Hx & Hy & Ha & ->). unfold idx. rewrite Hx, Hy, Ha. reflexivity.
Qed.
Lemma multi_slice_free_iff r br v1 v2 : multi_slice_free E r br v1 v2 = Ok true <->
  forall i, i < e_numPoint E -> exists v r',
    blended (fmul (fofnat i) (fdiv fone (fsub (fofnat (e_numPoint E)) fone))) v1 v2 v /\
    step_at r v r' /\ bodies_clear clear_of br (e_centers E r').
Proof.
  unfold multi_slice_free. cbv zeta. set (dt := fdiv fone (fsub (fofnat (e_numPoint E)) fone)).
  assert (G : forall is, (fix go is := match is with [] => Ok true
     | i :: rest => obind (lerp (fmul (fofnat i) dt) v1 v2) (fun v => obind (set_transform E r v) (fun r' =>
        obind (bodies_free E br r') (fun b : bool => if b then go rest else Ok false))) end) is = Ok true <->
     forall i, In i is -> exists v r', blended (fmul (fofnat i) dt) v1 v2 v /\ step_at r v r' /\ bodies_clear clear_of br (e_centers E r')).
  { induction is as [|i is IH]; [split; [intros _ i []|auto]|]. split.
    - intros H. ob H v Hv. ob H r' Hr. ob H b Hb. destruct b; [|discriminate H]. intros j [<-|Hj].
      + exists v, r'. split; [apply lerp_iff; auto|]. split; [apply set_transform_iff; auto|apply bodies_free_iff; auto].
      + apply IH; auto.
    - intros H. destruct (H i (or_introl eq_refl)) as (v & r' & A & B & C). apply lerp_iff in A. apply set_transform_iff in B. apply bodies_free_iff in C.
      rewrite A. cbn [obind]. rewrite B. cbn [obind]. rewrite C. cbn [obind]. apply IH. intros j Hj. apply H. right. exact Hj. }
  rewrite G. split; intros H i Hi; apply H; [apply in_seq; lia|apply in_seq in Hi; lia].
Qed.
End Planar.

(** ---- spatial ---- *)
Definition misses (t1 t2 : vec3 F64) (hits : list (vec3 F64)) : Prop :=
  hits = [] \/ exists h0 h1 rest, hits = h0 :: h1 :: rest /\ within F64 h0 t1 t2 = false /\ within F64 h1 t1 t2 = false.
Section Generic.
Variable S : scalar.
Definition missed (t1 t2 : vec3 S) (hits : list (vec3 S)) : Prop :=
  hits = [] \/ exists h0 h1 rest, hits = h0 :: h1 :: rest /\ within S h0 t1 t2 = false /\ within S h1 t1 t2 = false.
Lemma any_mesh_crossing_false l t1 t2 ms : any_mesh_crossing S l t1 t2 ms = Ok false <->
  forall m, In m ms -> exists hits, line_mesh S l m = Ok hits /\ missed t1 t2 hits.
Proof.
  induction ms as [|m ms IH]; cbn [any_mesh_crossing]; [split; [intros _ m []|auto]|]. split.
  - intros H. ob H hits Hh. destruct hits as [|h0 hits].
    + intros q [<-|Hq]; [exists []; split; [auto|left; auto]|apply IH; auto].
    + ob H h1 H1. destruct hits as [|h1' hits]; [discriminate H1|]. injection H1 as <-.
      destruct (within S h0 t1 t2) eqn:B0; [discriminate H|]. destruct (within S h1' t1 t2) eqn:B1; [discriminate H|].
      intros q [<-|Hq]; [exists (h0 :: h1' :: hits); split; [auto|]; right; exists h0, h1', hits; auto|apply IH; auto].
  - intros H. destruct (H m (or_introl eq_refl)) as (hits & Hh & N). rewrite Hh. cbn [obind].
    assert (IH' : any_mesh_crossing S l t1 t2 ms = Ok false) by (apply IH; intros q Hq; apply H; right; exact Hq).
    destruct N as [->|(h0 & h1 & rest & -> & B0 & B1)]; [exact IH'|]. cbn [idx nth_error obind]. rewrite B0, B1. exact IH'.
Qed.
Lemma any_mesh_crossing_true l t1 t2 ms : any_mesh_crossing S l t1 t2 ms = Ok true ->
  exists m hits h, In m ms /\ line_mesh S l m = Ok hits /\ In h hits /\ within S h t1 t2 = true.
Proof.
  induction ms as [|m ms IH]; cbn [any_mesh_crossing]; intros H; [discriminate H|]. ob H hits Hh. destruct hits as [|h0 hits].
  - destruct (IH H) as (m' & hits & h & A & B). exists m', hits, h. split; [right|]; auto.
  - ob H h1 H1. destruct hits as [|h1' hits]; [discriminate H1|]. injection H1 as <-.
    destruct (within S h0 t1 t2) eqn:B0; [exists m, (h0 :: h1' :: hits), h0; cbn [In]; auto 10|].
    destruct (within S h1' t1 t2) eqn:B1; [exists m, (h0 :: h1' :: hits), h1'; cbn [In]; auto 10|].
    destruct (IH H) as (m' & hits' & h & A & B). exists m', hits', h. split; [right|]; auto.
Qed.
Lemma straight_free_iff ms t1 t2 : straight_free S ms t1 t2 = Ok true <->
  forall m, In m ms -> exists hits, line_mesh S (L3 t1 (normalize S (vsub S t2 t1))) m = Ok hits /\ missed t1 t2 hits.
Proof.
  unfold straight_free. rewrite <- any_mesh_crossing_false. split.
  - intros H. ob H c Hc. destruct c; [discriminate H|auto].
  - intros ->. reflexivity.
Qed.
Lemma straight_blocked ms t1 t2 : straight_free S ms t1 t2 = Ok false ->
  exists m hits h, In m ms /\ line_mesh S (L3 t1 (normalize S (vsub S t2 t1))) m = Ok hits /\ In h hits /\ within S h t1 t2 = true.
Proof. unfold straight_free. intros H. ob H c Hc. destruct c; [|discriminate H]. apply any_mesh_crossing_true; auto. Qed.
(** One point found on a mesh: the second is read out of bounds. *)
Lemma straight_one_hit m rest t1 t2 h : line_mesh S (L3 t1 (normalize S (vsub S t2 t1))) m = Ok [h] -> straight_free S (m :: rest) t1 t2 = UB.
Proof. intros H. unfold straight_free. cbn [any_mesh_crossing]. rewrite H. reflexivity. Qed.

Definition not_between_g (z : car S) (hits : list (car S)) : Prop :=
  hits = [] \/ exists h0 h1 rest, hits = h0 :: h1 :: rest /\ (sltb S (sfmin S h0 h1) z && sltb S z (sfmax S h0 h1))%bool = false.
Lemma point_clear3_iff p ms : point_clear3 S p ms = Ok true <->
  forall m, In m ms -> exists hits, vertical_line_mesh S (L3 p (V3 (sofZ S 0) (sofZ S 0) (sofZ S 1))) m = Ok hits /\ not_between_g (vz p) (map vz hits).
Proof.
  induction ms as [|b bs IH]; cbn [point_clear3]; [split; [intros _ b []|auto]|]. split.
  - intros H. ob H hits Hh. destruct hits as [|h0 hits].
    + intros q [<-|Hq]; [exists []; split; [auto|left; auto]|apply IH; auto].
    + ob H h1 H1. destruct hits as [|h1' hits]; [discriminate H1|]. injection H1 as <-.
      destruct (sltb S (sfmin S (vz h0) (vz h1')) (vz p) && sltb S (vz p) (sfmax S (vz h0) (vz h1')))%bool eqn:B; [discriminate H|].
      intros q [<-|Hq]; [exists (h0 :: h1' :: hits); split; [auto|]; right; exists (vz h0), (vz h1'), (map vz hits); auto|apply IH; auto].
  - intros H. destruct (H b (or_introl eq_refl)) as (hits & Hh & N). rewrite Hh. cbn [obind].
    assert (IH' : point_clear3 S p bs = Ok true) by (apply IH; intros q Hq; apply H; right; exact Hq).
    destruct N as [N|(h0 & h1 & rest & N & B)]; [destruct hits; [exact IH'|discriminate N]|].
    destruct hits as [|a [|b' hits]]; [discriminate N..|]. cbn [map] in N. injection N as <- <- _. cbn [idx nth_error obind]. rewrite B. exact IH'.
Qed.
Lemma point_blocked3 p ms : point_clear3 S p ms = Ok false -> exists m h0 h1 rest, In m ms /\
  vertical_line_mesh S (L3 p (V3 (sofZ S 0) (sofZ S 0) (sofZ S 1))) m = Ok (h0 :: h1 :: rest) /\
  sltb S (sfmin S (vz h0) (vz h1)) (vz p) = true /\ sltb S (vz p) (sfmax S (vz h0) (vz h1)) = true.
Proof.
  induction ms as [|m ms IH]; cbn [point_clear3]; intros H; [discriminate H|]. ob H hits Hh. destruct hits as [|h0 hits].
  - destruct (IH H) as (m' & h0 & h1 & rest & A & B). exists m', h0, h1, rest. split; [right|]; auto.
  - ob H h1 H1. destruct hits as [|h1' hits]; [discriminate H1|]. injection H1 as <-.
    destruct (sltb S (sfmin S (vz h0) (vz h1')) (vz p) && sltb S (vz p) (sfmax S (vz h0) (vz h1')))%bool eqn:B.
    + apply andb_prop in B. destruct B as [B1 B2]. exists m, h0, h1', hits. split; [left; auto|]. auto.
    + destruct (IH H) as (m' & h0' & h1 & rest & A & B'). exists m', h0', h1, rest. split; [right|]; auto.
Qed.
End Generic.

Section Spatial.
Variable E : env3.
Lemma pt_free3_iff br k c : pt_free3 br k c = Ok true <-> exists ms, nth_error br k = Some ms /\ forall m, In m ms -> clear_of3 c m.
Proof.
  unfold pt_free3. destruct c as [[x y] z]. split.
  - intros H. ob H ms Hm. apply at_Ok in Hm. exists ms. split; [auto|]. exact (proj1 (point_clear3_iff F64 _ _) H).
  - intros (ms & Hm & H). unfold at_. rewrite Hm. cbn [obind]. exact (proj2 (point_clear3_iff F64 (V3 (S := F64) x y z) _) H).
Qed.
Lemma bodies_free3_iff br r : bodies_free3 E br r = Ok true <-> bodies_clear clear_of3 br (m_centers E r).
Proof.
  unfold bodies_free3, bodies_clear. destruct (m_centers E r) as [base links]. cbn [fst snd].
  assert (G : forall cs k0, (fix go k cs := match cs with [] => Ok true
     | c :: rest => obind (pt_free3 br k c) (fun b : bool => if b then go (k + 1) rest else Ok false) end) k0 cs = Ok true <->
     forall k c, nth_error cs k = Some c -> exists bs, nth_error br (k0 + k) = Some bs /\ forall b, In b bs -> clear_of3 c b).
  { induction cs as [|c cs IH]; intros k0.
    - split; [intros _ [|k] c H; discriminate H|auto].
    - split.
      + intros H. ob H b Hb. destruct b; [|discriminate H]. apply pt_free3_iff in Hb. intros [|k] x Hx.
        * injection Hx as <-. rewrite Nat.add_0_r. exact Hb.
        * rewrite <- Nat.add_succ_comm. replace (S k0) with (k0 + 1) by lia. apply (proj1 (IH (k0 + 1)) H). exact Hx.
      + intros H. assert (Hc : pt_free3 br k0 c = Ok true) by (apply pt_free3_iff; specialize (H 0 c eq_refl); rewrite Nat.add_0_r in H; exact H).
        rewrite Hc. cbn [obind]. apply IH. intros k x Hx. replace (k0 + 1 + k) with (k0 + S k) by lia. apply H. exact Hx. }
  apply (G (base :: links) 0).
Qed.
Lemma multi_slice_free3_iff r br v1 v2 : multi_slice_free3 E r br v1 v2 = Ok true <->
  exists steps, interpolate_compound F64 (m_slerp E) v1 v2 (m_numPoint E) = Ok steps /\
    forall v, In v steps -> exists c, omap (idx v) (seq 0 (if m_prob E then 7 + m_dof E else 7)) = Ok c /\
      bodies_clear clear_of3 br (m_centers E (m_move E r c)).
Proof.
  unfold multi_slice_free3.
  assert (G : forall vs, (fix go vs := match vs with [] => Ok true
     | v :: rest => obind (set_transform3 E r v) (fun r' => obind (bodies_free3 E br r') (fun b : bool => if b then go rest else Ok false)) end) vs = Ok true <->
     forall v, In v vs -> exists c, omap (idx v) (seq 0 (if m_prob E then 7 + m_dof E else 7)) = Ok c /\ bodies_clear clear_of3 br (m_centers E (m_move E r c))).
  { induction vs as [|v vs IH]; [split; [intros _ v []|auto]|]. split.
    - intros H. ob H r' Hr. ob H b Hb. destruct b; [|discriminate H]. unfold set_transform3 in Hr. ob Hr c Hc. injection Hr as <-. intros w [<-|Hw].
      + exists c. split; [exact Hc|apply bodies_free3_iff; auto].
      + apply IH; auto.
    - intros H. destruct (H v (or_introl eq_refl)) as (c & A & B). apply bodies_free3_iff in B. unfold set_transform3. rewrite A. cbn [obind]. rewrite B. cbn [obind].
      apply IH. intros w Hw. apply H. right. exact Hw. }
  split.
  - intros H. ob H steps Hs. exists steps. split; [auto|]. apply G; auto.
  - intros (steps & Hs & H). rewrite Hs. cbn [obind]. apply G; auto.
Qed.
End Spatial.
