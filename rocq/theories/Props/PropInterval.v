(** C01-C06: interval set operations (src/datastructure/Interval.cpp).
    [covers l x], [inI], [insideI], [itv_wf] ... are defined in Spec/SInterval.v;
    [conforming srt] (any sorted permutation) in Model/MInterval.v. *)
From Coq Require Import List Permutation Reals Lra Lia ZArith.
From Verif.Base Require Import Outcome Float64 FloatFacts.
From Verif.Model Require Import MInterval.
From Verif.Spec Require Import SInterval.
From Verif.Proofs Require Import PInterval PIntervalW.
Import ListNotations.
Local Open Scope R_scope.

(** C01 *)
Theorem C01_unions_exact : forall srt l, conforming srt -> Forall itv_wf l ->
  exists r, unions srt l = Ok r /\ forall x : R, covers r x <-> covers l x.
Proof. intros srt l C W; destruct (unions_spec srt C l W) as (r & E & H & _); exact (ex_intro _ r (conj E H)). Qed.
Print Assumptions C01_unions_exact.

Example C01_hyp : conforming isort /\ Forall itv_wf [iz 3 5; iz 0 10; iz 2 3; iz 12 13].
Proof. split; [exact isort_conforming|iz_list]. Qed.

(** C02 *)
Theorem C02_unions_normal_form : forall srt l, conforming srt -> Forall itv_wf l ->
  exists r, unions srt l = Ok r /\ separated r /\ Forall itv_wf r /\
    (length r <= length l)%nat /\
    (forall i, In i r -> In (istart i) (map istart l) /\ In (iend i) (map iend l)).
Proof.
  intros srt l C W; destruct (unions_spec srt C l W) as (r & E & _ & H);
  exact (ex_intro _ r (conj E H)).
Qed.
Print Assumptions C02_unions_normal_form.

Theorem C02_unions_canonical : forall srt1 srt2 l1 l2, conforming srt1 -> conforming srt2 ->
  Forall itv_wf l1 -> Forall itv_wf l2 ->
  (forall x : R, covers l1 x <-> covers l2 x) ->
  exists r1 r2, unions srt1 l1 = Ok r1 /\ unions srt2 l2 = Ok r2 /\ same_values r1 r2.
Proof. exact unions_perm. Qed.
Print Assumptions C02_unions_canonical.

Theorem C02_unions_order_independent : forall srt l1 l2, conforming srt ->
  Forall itv_wf l1 -> Permutation l1 l2 ->
  exists r1 r2, unions srt l1 = Ok r1 /\ unions srt l2 = Ok r2 /\ same_values r1 r2.
Proof.
  intros srt l1 l2 C W P;
  exact (unions_perm srt srt l1 l2 C C W (Forall_perm _ _ _ P W) (fun x => covers_perm l1 l2 x P)).
Qed.
Print Assumptions C02_unions_order_independent.

Example C02_hyp : Forall itv_wf [iz 0 2; iz 1 3] /\ Permutation [iz 0 2; iz 1 3] [iz 1 3; iz 0 2].
Proof. split; [iz_list|apply perm_swap]. Qed.

(** C03 *)
Theorem C03_intersects_exact : forall srt l, conforming srt -> l <> [] -> Forall itv_num l ->
  (intersects srt l = Ok [] /\ forall x : R, ~ (forall i, In i l -> inI i x)) \/
  (exists b, intersects srt l = Ok [b] /\ itv_wf b /\
    (forall x : R, inI b x <-> (forall i, In i l -> inI i x)) /\
    In (istart b) (map istart l) /\ In (iend b) (map iend l)).
Proof. intros srt l C; exact (intersects_spec srt C l). Qed.
Print Assumptions C03_intersects_exact.

Theorem C03_intersects_empty_list : forall srt, intersects srt [] = Ok [].
Proof. exact (fun _ => eq_refl). Qed.
Print Assumptions C03_intersects_empty_list.

Example C03_hyp : [iz 0 4; iz 2 9] <> [] /\ Forall itv_num [iz 0 4; iz 2 9].
Proof. split; [discriminate|iz_list]. Qed.

(** C04 *)
Theorem C04_complements_exact : forall srt o inner, conforming srt ->
  itv_num o -> inner <> [] -> Forall itv_wf inner -> pairwise_apart inner ->
  exists r, complements srt [o] inner = Ok r /\ Forall itv_wf r /\ increasing r /\
    (forall x : R, covers r x -> inI o x) /\
    (forall x : R, in_double_range x ->
       (covers r x <-> inI o x /\ (forall i, In i inner -> ~ insideI i x))) /\
    (forall (x : R) i, covers r x -> In i inner -> ~ insideI i x).
Proof. intros srt o inner C; exact (complements_exact srt C o [] inner). Qed.
Print Assumptions C04_complements_exact.

Example C04_hyp : itv_num (iz (-5) 20) /\ Forall itv_wf [iz 7 9; iz 0 3; iz 3 4] /\
  pairwise_apart [iz 7 9; iz 0 3; iz 3 4].
Proof.
  split; [apply iz_num; lia|].
  split; [iz_list|].
  repeat constructor; unfold apart, left_of; cbn [istart iend iz]; rewrite !fofZ_val by lia; lra.
Qed.

Theorem C04_complements_no_inner : forall srt outer, complements srt outer [] = Ok outer.
Proof. intros srt [|o os]; exact eq_refl. Qed.
Print Assumptions C04_complements_no_inner.

Theorem C04_complements_no_outer : forall srt inner, complements srt [] inner = Ok [].
Proof. exact (fun _ _ => eq_refl). Qed.
Print Assumptions C04_complements_no_outer.

(** C05 *)
Theorem C05_overlapping_inner_refuted : exists o inner,
  itv_wf o /\ Forall itv_wf inner /\ inner <> [] /\
  forall srt, conforming srt ->
  exists r x i, complements srt [o] inner = Ok r /\ covers r x /\ In i inner /\ insideI i x.
Proof. exact complements_overlap_bad. Qed.
Print Assumptions C05_overlapping_inner_refuted.

Theorem C05_complements_never_loses_points : forall srt o inner, conforming srt ->
  itv_num o -> inner <> [] -> Forall itv_num inner ->
  exists r, complements srt [o] inner = Ok r /\ Forall itv_wf r /\
    (forall x : R, covers r x -> inI o x) /\
    (forall x : R, in_double_range x -> inI o x ->
       (forall i, In i inner -> ~ insideI i x) -> covers r x).
Proof. intros srt o inner C; exact (complements_complete srt C o [] inner). Qed.
Print Assumptions C05_complements_never_loses_points.

Example C05_hyp : itv_num (iz 0 9) /\ Forall itv_num [iz 0 10; iz 2 3].
Proof. split; [apply iz_num; lia|iz_list]. Qed.

(** C06 *)
Theorem C06_only_first_outer : forall srt o os1 os2 inner, inner <> [] ->
  complements srt (o :: os1) inner = complements srt (o :: os2) inner.
Proof. exact complements_first. Qed.
Print Assumptions C06_only_first_outer.

Theorem C06_other_outer_dropped_refuted : exists o1 o2 inner x, itv_wf o1 /\ itv_wf o2 /\
  Forall itv_wf inner /\ inner <> [] /\
  covers [o1; o2] x /\ (forall i, In i inner -> ~ inI i x) /\
  forall srt, conforming srt ->
  exists r, complements srt [o1; o2] inner = Ok r /\ ~ covers r x.
Proof. exact complements_drops_outer. Qed.
Print Assumptions C06_other_outer_dropped_refuted.

Example C06_hyp : [iz 1 2] <> []. Proof. discriminate. Qed.
