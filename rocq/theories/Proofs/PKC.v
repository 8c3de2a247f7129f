(** HRM2DKC::connectMultiSlice for an arbitrary list of polyhedron matrices. *)
From Coq Require Import List Bool Arith Lia ZArith.
From Verif.Base Require Import Outcome Float64.
From Verif.Model Require Import MScalar MDistance MFreeSpace MLine2D MPointInPoly MGraph MSearch MHRM2D.
From Verif.Spec Require Import SGraph SPlanner2D.
From Verif.Proofs Require Import PGraph PHRM2D.
Import ListNotations.

Section K.
Variable E : env.
Variable polys : list (list f64).
Variable rnd : nat -> f64.

Local Notation between := (kc_between polys).
Lemma rand_pt_inv v1 : forall v2 c p p1 p2 c', rand_pt v1 v2 rnd c = Ok (p, p1, p2, c') ->
  length p = length v1 /\ length v1 <= length v2 /\ p1 = map (fun q => fsub (fst q) (snd q)) (combine p v1) /\ p2 = map (fun q => fsub (fst q) (snd q)) (combine p v2).
Proof.
  induction v1 as [|a v1 IH]; intros v2 c p p1 p2 c' H; cbn [rand_pt] in H.
  - injection H as <- <- <- <-. repeat split; cbn; lia.
  - destruct v2 as [|b v2]; [discriminate H|]. ob H t Ht. destruct t as [[[q q1] q2] d]. apply IH in Ht. destruct Ht as (L1 & L2 & -> & ->).
    injection H as <- <- <- <-. cbn [length combine map fst snd]. repeat split; try reflexivity; lia.
Qed.
Lemma middle_vertex_inv n : forall v1 v2 c v c', middle_vertex polys n v1 v2 rnd c = Ok (Some v, c') -> between v1 v2 v.
Proof.
  induction n as [|n IH]; intros v1 v2 c v c' H; cbn [middle_vertex] in H; [discriminate H|].
  ob H t Ht. destruct t as [[[p p1] p2] d]. apply rand_pt_inv in Ht. destruct Ht as (L1 & L2 & Q1 & Q2).
  ob H f1 H1. destruct f1; [|eapply IH; exact H]. ob H f2 H2. destruct f2; [|eapply IH; exact H].
  injection H as H _. destruct p as [|x p]; [discriminate H|]. injection H as <-. subst p1 p2.
  split; [discriminate|]. auto.
Qed.

(** What a scan adds: nothing, or one vertex with its two edges. *)
Lemma kc_scan_inv ms : forall m v1 g c g' c', nth_error (gvert g) m = Some v1 -> kc_scan E polys rnd m v1 ms (g, c) = Ok (g', c') ->
  g' = g \/ exists m2 v2 v w1 w2, In m2 ms /\ nth_error (gvert g) m2 = Some v2 /\ between v1 v2 v /\
    vec_euclid F64 v1 v = Ok w1 /\ vec_euclid F64 v2 v = Ok w2 /\
    g' = Graph (gvert g ++ [v]) (gedge g ++ [(m, length (gvert g)); (m2, length (gvert g))]) (gweight g ++ [w1; w2]).
Proof.
  induction ms as [|m2 ms IH]; intros m v1 g c g' c' Hm H; cbn [kc_scan] in H; [injection H as <- _; left; reflexivity|].
  ob H v2 H2. ob H r Hr. destruct r as [[v|] d].
  - ob H w1 W1. ob H w2 W2. injection H as <- _. right. exists m2, v2, v, w1, w2. apply idx_Ok in H2. apply middle_vertex_inv in Hr. cbn [In]. auto 10.
  - apply IH in H; [|exact Hm]. destruct H as [->|(m2' & v2' & v & w1 & w2 & A & B)]; [left; reflexivity|]. right. exists m2', v2', v, w1, w2. cbn [In]. tauto.
Qed.

Definition kc_step (g g' : graph) : Prop := forall k a b, length (gedge g) <= k -> nth_error (gedge g') k = Some (a, b) ->
  exists a' v1 v2 v, length (gvert g) <= b /\ nth_error (gvert g') a = Some v1 /\ nth_error (gvert g') a' = Some v2 /\ nth_error (gvert g') b = Some v /\
    (between v1 v2 v \/ between v2 v1 v) /\ In (a', b) (gedge g').

Lemma kc_scan_ok ms m v1 g c g' c' : nth_error (gvert g) m = Some v1 -> kc_scan E polys rnd m v1 ms (g, c) = Ok (g', c') ->
  extends g g' /\ (well_formed g -> well_formed g') /\ kc_step g g'.
Proof.
  intros Hm H. apply kc_scan_inv in H; [|exact Hm]. destruct H as [->|(m2 & v2 & v & w1 & w2 & _ & H2 & B & W1 & W2 & ->)].
  { split; [apply extends_refl|]. split; [auto|]. intros k a b Hk Q. apply nth_error_lt in Q. lia. }
  split; [split; [eexists; reflexivity|split; eexists; reflexivity]|].
  pose proof (nth_error_lt _ _ _ Hm) as Lm. pose proof (nth_error_lt _ _ _ H2) as Lm2.
  assert (Nm : nth_error (gvert g ++ [v]) m = Some v1) by (apply nth_error_app_old; exact Hm).
  assert (N2 : nth_error (gvert g ++ [v]) m2 = Some v2) by (apply nth_error_app_old; exact H2).
  assert (Nn : nth_error (gvert g ++ [v]) (length (gvert g)) = Some v) by apply nth_snoc.
  assert (K : forall k a b, length (gedge g) <= k -> nth_error (gedge g ++ [(m, length (gvert g)); (m2, length (gvert g))]) k = Some (a, b) ->
     (k = length (gedge g) /\ a = m /\ b = length (gvert g)) \/ (k = S (length (gedge g)) /\ a = m2 /\ b = length (gvert g))).
  { intros k a b Hk Q. rewrite nth_error_app2 in Q by lia. remember (k - length (gedge g)) as j eqn:Ej.
    destruct j as [|[|j]]; cbn [nth_error] in Q.
    - injection Q as <- <-. left. repeat split; lia.
    - injection Q as <- <-. right. repeat split; lia.
    - destruct j; discriminate Q. }
  split.
  - intros [Lw Ww]. split; [cbn [gweight gedge]; rewrite !app_length; cbn [length]; lia|]. cbn [gweight gedge gvert]. intros k a b Q.
    destruct (le_lt_dec (length (gedge g)) k) as [Hk|Hk].
    + destruct (K _ _ _ Hk Q) as [(-> & -> & ->)|(-> & -> & ->)].
      * exists v1, v, w1. split; [exact Nm|]. split; [exact Nn|]. split; [|exact W1]. rewrite nth_error_app2 by lia. rewrite Lw, Nat.sub_diag. reflexivity.
      * exists v2, v, w2. split; [exact N2|]. split; [exact Nn|]. split; [|exact W2]. rewrite nth_error_app2 by lia. rewrite Lw. replace (S (length (gedge g)) - length (gedge g)) with 1 by lia. reflexivity.
    + rewrite nth_error_app1 in Q by lia. destruct (Ww _ _ _ Q) as (u1 & u2 & w & A1 & A2 & A3 & A4).
      exists u1, u2, w. repeat split; auto using nth_error_app_old.
  - cbn [kc_step]. intros k a b Hk Q. cbn [gweight gedge gvert] in *.
    assert (I1 : In (m, length (gvert g)) (gedge g ++ [(m, length (gvert g)); (m2, length (gvert g))])) by (apply in_or_app; right; left; reflexivity).
    assert (I2 : In (m2, length (gvert g)) (gedge g ++ [(m, length (gvert g)); (m2, length (gvert g))])) by (apply in_or_app; right; right; left; reflexivity).
    destruct (K _ _ _ Hk Q) as [(-> & -> & ->)|(-> & -> & ->)]; [exists m2, v1, v2, v|exists m, v2, v1, v]; auto 10.
Qed.

Lemma kc_step_trans g1 g2 g3 : extends g1 g2 -> extends g2 g3 -> kc_step g1 g2 -> kc_step g2 g3 -> kc_step g1 g3.
Proof.
  intros X12 X23 S1 S2 k a b Hk Q. destruct (le_lt_dec (length (gedge g2)) k) as [H|H].
  - destruct (S2 _ _ _ H Q) as (a' & v1 & v2 & v & L & A). exists a', v1, v2, v. split; [apply extends_vlen in X12; lia|exact A].
  - rewrite (extends_edge_inv _ _ _ X23 H) in Q. destruct (S1 _ _ _ Hk Q) as (a' & v1 & v2 & v & L & A1 & A2 & A3 & B & I).
    exists a', v1, v2, v. split; [exact L|]. repeat split; try (eapply extends_vert; eassumption); auto. eapply extends_In; eassumption.
Qed.
Definition grown (g g' : graph) : Prop := extends g g' /\ (well_formed g -> well_formed g') /\ kc_step g g'.
Lemma grown_refl g : grown g g.
Proof. split; [apply extends_refl|]. split; [auto|]. intros k a b Hk Q. apply nth_error_lt in Q. lia. Qed.
Lemma grown_trans g1 g2 g3 : grown g1 g2 -> grown g2 g3 -> grown g1 g3.
Proof.
  intros (A1 & A2 & A3) (B1 & B2 & B3). split; [eapply extends_trans; eassumption|]. split; [auto|]. eapply kc_step_trans; eassumption.
Qed.

Lemma kc_connect_grown (s s' : state E) : kc_connect E polys rnd s = Ok s' ->
  grown (p_graph s) (p_graph s') /\ s' = with_graph E s (p_graph s').
Proof.
  unfold kc_connect. intros H. ob H r Hr. injection H as <-. destruct r as [[g c] st']. cbn [fst]. split; [|reflexivity].
  cbn [p_graph with_graph].
  refine (ofold_inv _ (fun x : graph * nat * nat => grown (p_graph s) (fst (fst x))) _ _ _ _ _ Hr); [apply grown_refl|].
  clear g c st' Hr. intros i [[g c] start] [[g' c'] start'] _ G H. cbn [fst] in *.
  ob H vi Hi. ob H r Hr. destruct r as [n12 n2]. ob H gc Hgc. destruct gc as [g2 c2]. injection H as <- _ _.
  refine (ofold_inv _ (fun x : graph * nat => grown (p_graph s) (fst x)) _ _ _ _ _ Hgc); [exact G|].
  intros m [g1 c1] [g3 c3] _ G1 H. cbn [fst] in *. ob H v1 H1. apply idx_Ok in H1. apply kc_scan_ok in H; [|exact H1]. eapply grown_trans; [exact G1|exact H].
Qed.
End K.
