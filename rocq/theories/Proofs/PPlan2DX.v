(** Which exception planning ends with: refinement and two-slice requests. *)
From Coq Require Import List Bool Arith Lia ZArith.
From Verif.Base Require Import Outcome Float64.
From Verif.Model Require Import MScalar MDistance MInterval MFreeSpace MLine2D MGraph MSearch MHRM2D.
From Verif.Spec Require Import SFreeSpace SGraph SPlanner2D.
From Verif.Proofs Require Import PTables PGraph PHRM2D PPlan2D.
Import ListNotations.

Lemma intersect_line_throw nr na no low upp i hA hO t : tables_shape nr na no t -> nr <= i ->
  Forall (fun h => length h <> 1) hA -> Forall (fun h => length h <> 1) hO -> hA <> [] \/ hO <> [] ->
  intersect_line low upp i (map (@Ok _) hA) (map (@Ok _) hO) t = Throw OutOfRange.
Proof.
  intros (S1 & S2 & S3 & S4) Hi FA FO Ne. unfold intersect_line.
  destruct hA as [|a hA].
  - cbn [map length seq combine ofold obind]. destruct hO as [|o hO]; [destruct Ne as [[]|[]]; auto|].
    cbn [map length seq combine ofold obind]. inversion FO; subst. rewrite obstacle_entry_ok by auto. cbn [obind].
    unfold set_obstacle. rewrite (set_at2_throw nr no) by auto. reflexivity.
  - cbn [map length seq combine ofold obind]. inversion FA; subst. rewrite arena_entry_ok by auto. cbn [obind].
    unfold set_arena. rewrite (set_at2_throw nr na) by auto. reflexivity.
Qed.

Lemma compute_intersection_throw nr na no low upp (hA hO : f64 -> list (list f64)) lines t :
  tables_shape nr na no t -> nr < length lines ->
  (forall c, In c lines -> length (hA c) = na /\ length (hO c) = no /\
     Forall (fun h => length h <> 1) (hA c) /\ Forall (fun h => length h <> 1) (hO c)) ->
  na + no <> 0 ->
  compute_intersection low upp (fun c => map (@Ok _) (hA c)) (fun c => map (@Ok _) (hO c)) lines t = Throw OutOfRange.
Proof.
  intros Sh L H Hn. rewrite <- (firstn_skipn nr lines) in H |- *.
  set (l1 := firstn nr lines) in *. assert (L1 : length l1 = nr) by (unfold l1; rewrite firstn_length; lia).
  destruct (skipn nr lines) as [|c l2] eqn:Sk.
  { apply (f_equal (@length _)) in Sk. rewrite skipn_length in Sk. cbn [length] in Sk. lia. }
  destruct (compute_intersection_spec nr na no low upp hA hO l1 t Sh ltac:(lia)) as (t1 & E1 & Sh1 & _).
  { intros c' Hc'. apply H. apply in_or_app; auto. }
  unfold compute_intersection in *. rewrite app_length, seq_app, combine_app by (rewrite seq_length; auto).
  rewrite ofold_app, E1. cbn [obind length seq combine ofold].
  destruct (H c) as (LA & LO & FA & FO); [apply in_or_app; right; left; auto|].
  rewrite (intersect_line_throw nr na no); auto.
  - lia.
  - destruct (hA c); cbn [length] in LA; [|left; discriminate]. destruct (hO c); cbn [length] in LO; [lia|right; discriminate].
Qed.

Section P.
Variable E : env.
Notation st := (state E).

Lemma compute_intersection_ext low upp hA hO hA' hO' lines t : (forall c, In c lines -> hA c = hA' c /\ hO c = hO' c) ->
  compute_intersection low upp hA hO lines t = compute_intersection low upp hA' hO' lines t.
Proof.
  unfold compute_intersection. generalize 0. revert t. induction lines as [|c ls IH]; intros t k H; [reflexivity|].
  cbn [length seq combine ofold]. destruct (H c (or_introl eq_refl)) as [-> ->].
  destruct (intersect_line low upp k (hA' c) (hO' c) t); cbn [obind]; auto. apply IH. intros; apply H; right; auto.
Qed.

(** Refinement throws on its first slice when the scene itself is harmless. *)
Lemma refine_throws late (s : st) na no h0 b0 l0 l1 l2 l3 (hA hO : f64 -> list (list f64)) :
  e_numSlice E <> 0 -> nth_error (p_headings s) 0 = Some h0 -> nth_error (p_sliceAll s) 0 = Some b0 ->
  nth_error (e_limits E) 0 = Some l0 -> nth_error (e_limits E) 1 = Some l1 ->
  nth_error (e_limits E) 2 = Some l2 -> nth_error (e_limits E) 3 = Some l3 ->
  tables_shape (p_numLineY s) na no (p_tables s) -> p_numLineY s <> 0 -> na + no <> 0 ->
  (forall c, In c (sweep_heights (2 * p_numLineY s) l2 l3) ->
     map (hline_polygon F64 c) (barena (p_fsbound s)) = map (@Ok _) (hA c) /\
     map (hline_polygon F64 c) (bobstacle (p_fsbound s)) = map (@Ok _) (hO c) /\
     length (hA c) = na /\ length (hO c) = no /\
     Forall (fun h => length h <> 1) (hA c) /\ Forall (fun h => length h <> 1) (hO c)) ->
  refine E late s = Throw OutOfRange.
Proof.
  intros Hn Hh Hb L0 L1 L2 L3 Sh Hy Hc H. unfold refine. destruct (e_numSlice E) as [|k]; [lia|].
  cbn [seq refine_slices]. unfold construct_slice. cbn [refine_begin p_headings p_refine p_sliceAll p_robot p_fsbound].
  rewrite (proj2 (at_Ok _ _ _) Hh). cbn [obind]. rewrite (proj2 (at_Ok _ _ _) Hb). cbn [obind].
  unfold sweep_process. cbn [refine_begin p_numLineY p_fsbound p_tables]. unfold lim.
  rewrite (proj2 (idx_Ok _ _ _) L0), (proj2 (idx_Ok _ _ _) L1), (proj2 (idx_Ok _ _ _) L2), (proj2 (idx_Ok _ _ _) L3).
  cbn [obind].
  rewrite (compute_intersection_ext _ _ _ _ (fun c => map (@Ok _) (hA c)) (fun c => map (@Ok _) (hO c))).
  2:{ intros c Hin. destruct (H c Hin) as (A & B & _). auto. }
  rewrite (compute_intersection_throw (p_numLineY s) na no); auto.
  - unfold sweep_heights. rewrite map_length, seq_length. lia.
  - intros c Hin. destruct (H c Hin) as (_ & _ & A). exact A.
Qed.

(** Connecting the second of two slices throws. *)
Lemma two_slices_throw (s : st) va vb h0 h1 br g : e_numSlice E = 2 -> p_vidx s = [va; vb] ->
  idx (p_headings s) 0 = Ok h0 -> idx (p_headings s) 1 = Ok h1 -> e_tfe E (p_robot s) h0 h1 = Ok br ->
  link_ranges (near2d E (p_numLineY s)) (multi_slice_free E (p_robot s) br)
    (vstart va) (vslice va) (vstart vb) (vslice vb) (p_graph s) = Ok g ->
  connect_multi E s = Throw OutOfRange.
Proof.
  intros Hn Hv H0 H1 Hb Hl. unfold connect_multi. rewrite Hv. cbn [length Nat.eqb seq ofold].
  unfold adjacent. rewrite Hn. cbn [Nat.add Nat.eqb andb negb at_ nth_error obind]. rewrite H0, H1. cbn [obind]. rewrite Hb. cbn [obind].
  rewrite Hl. reflexivity.
Qed.
End P.
