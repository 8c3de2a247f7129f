(** C07-C12: sweep-line free space (FreeSpace-inl.h, FreeSpace2D.cpp,
    FreeSpace3D.cpp).  Vocabulary: Spec/SInterval.v, Spec/SFreeSpace.v. *)
From Coq Require Import List Bool Arith Reals Lra Lia ZArith Permutation.
From Flocq Require Import Core.Core.
From Verif.Base Require Import Outcome Float64 FloatFacts.
From Verif.Model Require Import MInterval MFreeSpace.
From Verif.Spec Require Import SInterval SFreeSpace.
From Verif.Proofs Require Import PInterval PIntervalW PFreeSpace PEnhance PTables PFreeAll PFreeW.
Import ListNotations.
Local Open Scope R_scope.

(** C07: free segments of one line.  [A], [O]: the (low, upp) pairs recorded for
    arenas and obstacles on this line, NaN-marked pairs included. *)
Theorem C07_sweep_line_exact : forall srt t i A O, conforming srt -> line_holds t i A O -> obstacle_ordered O ->
  exists r, sweep_line srt t i = Ok r /\ Forall itv_wf r /\ increasing r /\
    (forall x : R, covers r x -> free_on_line A O x) /\
    (forall x : R, in_double_range x -> free_on_line A O x -> covers r x).
Proof.
  intros srt t i A O C (H1 & H2 & H3 & H4) HO.
  pose proof (sweep_line_spec srt C t i _ _ _ _ H1 H2 H3 H4) as H.
  rewrite !combine_fst_snd, !map_length in H. exact (H eq_refl eq_refl HO).
Qed.
Print Assumptions C07_sweep_line_exact.

(** ... in particular no free segment enters the inside of a recorded obstacle
    interval, and a line without arena interval has no free segment. *)
Theorem C07_never_inside_an_obstacle : forall srt t i A O r x p, conforming srt -> line_holds t i A O ->
  obstacle_ordered O -> sweep_line srt t i = Ok r -> covers r x -> In p O -> numeric p ->
  ~ (fval (fst p) < x < fval (snd p)).
Proof.
  intros srt t i A O r x p C H HO E Hx Hp Np [X1 X2].
  destruct (C07_sweep_line_exact srt t i A O C H HO) as (r' & E' & _ & _ & S & _).
  rewrite E in E'; injection E' as <-. destruct (S x Hx) as (_ & _ & N). apply N.
  exists (Rmin (x - fval (fst p)) (fval (snd p) - x)). split; [apply Rmin_glb_lt; lra|].
  intros y Hy. exists p. split; [auto|]. split; [auto|].
  pose proof (Rmin_l (x - fval (fst p)) (fval (snd p) - x)).
  pose proof (Rmin_r (x - fval (fst p)) (fval (snd p) - x)). apply Rabs_def2 in Hy. lra.
Qed.
Print Assumptions C07_never_inside_an_obstacle.

Theorem C07_no_arena_no_segment : forall srt t i A O, conforming srt -> line_holds t i A O -> obstacle_ordered O ->
  (forall p, In p A -> ~ numeric p) -> sweep_line srt t i = Ok [].
Proof.
  intros srt t i A O C H HO HA.
  destruct (C07_sweep_line_exact srt t i A O C H HO) as (r & E & W & _ & S & _).
  destruct r as [|j r]; [exact E|]. exfalso. inversion W as [|? ? [_ Hj] _]; subst.
  destruct (S (fval (istart j))) as ((p & Hp & Np) & _); [|exact (HA p Hp Np)].
  exists j. split; [left; reflexivity|unfold inI; lra].
Qed.
Print Assumptions C07_no_arena_no_segment.

Example C07_hyp : line_holds demo_t 0 demo_A demo_O /\ obstacle_ordered demo_O.
Proof. exact (conj (proj1 demo_holds) (proj2 (proj2 demo_holds))). Qed.

(** From the boundary intersections [hA c], [hO c] of each line to the free
    segments: whatever the tables contained before (earlier slices), as long as
    they have the right shape, and no boundary is hit exactly once. *)
Theorem C07_from_intersections : forall srt n na no low upp (hA hO : f64 -> list (list f64)) lines t i c,
  conforming srt -> tables_shape n na no t -> (length lines <= n)%nat ->
  (forall c', In c' lines -> length (hA c') = na /\ length (hO c') = no /\
     Forall (fun h => length h <> 1%nat) (hA c') /\ Forall (fun h => length h <> 1%nat) (hO c')) ->
  nth_error lines i = Some c ->
  exists t' r, compute_intersection low upp (fun c => map (@Ok _) (hA c)) (fun c => map (@Ok _) (hO c)) lines t = Ok t' /\
    tables_shape n na no t' /\ sweep_line srt t' i = Ok r /\ Forall itv_wf r /\ increasing r /\
    (forall x : R, covers r x -> free_on_line (map (arena_pair low upp) (hA c)) (map obstacle_pair (hO c)) x) /\
    (forall x : R, in_double_range x ->
       free_on_line (map (arena_pair low upp) (hA c)) (map obstacle_pair (hO c)) x -> covers r x).
Proof.
  intros srt n na no low upp hA hO lines t i c C Sh Ln H Hc.
  destruct (compute_intersection_spec n na no low upp hA hO lines t Sh Ln H) as (t' & E & Sh' & HL).
  destruct (C07_sweep_line_exact srt t' i _ _ C (HL i c Hc) (obstacle_pair_ordered (hO c))) as (r & Er & R).
  exact (ex_intro _ t' (ex_intro _ r (conj E (conj Sh' (conj Er R))))).
Qed.
Print Assumptions C07_from_intersections.

Example C07_from_hyp : tables_shape 3 1 2 (setup 3 (fofZ (-10)) (fofZ 10) 1 2 tables0) /\
  Forall (fun h => length h <> 1%nat) [@nil f64; [fofZ 3; fofZ 2]].
Proof. split; [apply setup_shape|]. constructor; [discriminate|]. constructor; [discriminate|constructor]. Qed.

(** C08 *)
Theorem C08_midpoint_inside : forall s e : f64, fisfin (fadd s e) = true -> fval s <= fval e ->
  fisfin (mid s e) = true /\ fval s <= fval (mid s e) <= fval e.
Proof. exact mid_between. Qed.
Print Assumptions C08_midpoint_inside.

Theorem C08_no_overflow_below_2p1022 : forall s e : f64, fisnan s = false -> fisnan e = false ->
  Rabs (fval s) <= bpow radix2 1022 -> Rabs (fval e) <= bpow radix2 1022 -> fisfin (fadd s e) = true.
Proof. exact fadd_no_overflow. Qed.
Print Assumptions C08_no_overflow_below_2p1022.

Theorem C08_overflow_guard_refuted : exists s e : f64, fisfin s = true /\ fisfin e = true /\ fval s <= fval e /\
  fltb e (mid s e) = true.
Proof. exists fdblmax, fdblmax. repeat split. apply Rle_refl. Qed.
Print Assumptions C08_overflow_guard_refuted.

Example C08_hyp : fisfin (fadd (fofZ 1) (fofZ 2)) = true /\ fval (fofZ 1) <= fval (fofZ 2).
Proof. split; [reflexivity|]. rewrite !fofZ_val by lia. lra. Qed.

(** C09: the enhancement alone, on any non-empty list of well-formed lines. *)
Theorem C09_enhancement_sound : forall srt rows, conforming srt -> rows <> [] -> Forall row_ok rows ->
  exists out, enhance srt rows = Ok out /\ length out = length rows /\
    forall i r0 r, nth_error rows i = Some r0 -> nth_error out i = Some r ->
      length (rL r) = length (rM r) /\ length (rU r) = length (rM r) /\
      (exists P, Permutation (rM r) (rM r0 ++ P) /\ Forall (in_segment_of r0) P) /\
      (forall k l m u, nth_error (rL r) k = Some l -> nth_error (rM r) k = Some m -> nth_error (rU r) k = Some u ->
         triple_ok l m u /\
         exists k0 l0 u0, nth_error (rL r0) k0 = Some l0 /\ nth_error (rU r0) k0 = Some u0 /\
           fval l0 <= fval l /\ fval u <= fval u0).
Proof.
  intros srt rows C Hne F. destruct rows as [|r rest]; [congruence|].
  destruct (enhance_spec srt C r rest F) as (out & E & F2). exists out. split; [exact E|].
  split; [symmetry; exact (Forall2_len _ _ _ F2)|].
  intros i r0 r1 H0 H1. destruct (Forall2_nth_r _ _ _ F2 i r1 H1) as (r0' & E0 & (L1 & L2 & L3 & L4)).
  rewrite H0 in E0; injection E0 as <-. exact (conj L1 (conj L2 (conj L4 L3))).
Qed.
Print Assumptions C09_enhancement_sound.

(** C09, end to end: every (low, mid, high) triple handed to the planner spans
    only free points of its line; every original midpoint survives. *)
Theorem C09_free_segments_are_free : forall srt t ty (A O : nat -> list (f64 * f64)), conforming srt -> ty <> [] ->
  (forall i, (i < length ty)%nat -> line_holds t i (A i) (O i) /\ arena_moderate (A i) /\ obstacle_ordered (O i)) ->
  exists seg, compute_free_segment srt t ty = Ok seg /\ fty seg = ty /\
    length (fxL seg) = length ty /\ length (fxM seg) = length ty /\ length (fxU seg) = length ty /\
    forall i ls ms us, nth_error (fxL seg) i = Some ls -> nth_error (fxM seg) i = Some ms ->
      nth_error (fxU seg) i = Some us -> segments_free (A i) (O i) ls ms us.
Proof.
  intros srt t ty A O C Hne H.
  destruct (compute_free_segment_spec srt C t ty A O Hne H) as (seg & rs & E & Et & _ & Lr & L1 & L2 & L3 & K).
  exists seg. split; [exact E|]. split; [exact Et|]. split; [exact L1|]. split; [exact L2|]. split; [exact L3|].
  intros i ls ms us Hl Hm Hu.
  destruct (nth_error rs i) as [r0|] eqn:Er; [exact (proj1 (K i ls ms us r0 Hl Hm Hu Er))|].
  exfalso. apply nth_error_None in Er. assert (X : nth_error (fxL seg) i <> None) by congruence.
  apply nth_error_Some in X. lia.
Qed.
Print Assumptions C09_free_segments_are_free.

Example C09_hyp : (forall i, (i < 1)%nat -> line_holds demo_t i demo_A demo_O /\ arena_moderate demo_A /\ obstacle_ordered demo_O).
Proof. intros [|i] Hi; [exact demo_holds|lia]. Qed.

(** C10 *)
Theorem C10_zero_lines_undefined : forall srt t, compute_free_segment srt t [] = UB.
Proof. intros; exact eq_refl. Qed.
Print Assumptions C10_zero_lines_undefined.

Theorem C10_some_line_defined : forall srt rows, conforming srt -> rows <> [] -> Forall row_ok rows ->
  exists out, enhance srt rows = Ok out.
Proof.
  intros srt rows C Hne F; destruct (C09_enhancement_sound srt rows C Hne F) as (out & E & _);
  exact (ex_intro _ out E).
Qed.
Print Assumptions C10_some_line_defined.

(** C11 *)
Theorem C11_arena_never_shrinks : forall low upp hits l u, fisnan low = false -> fisnan upp = false ->
  arena_entry low upp hits = Ok (l, u) ->
  fisnan l = false /\ fisnan u = false /\ fval l <= fval low /\ fval upp <= fval u.
Proof.
  intros low upp hits l u Nl Nu H. pose proof (arena_pair_contains low upp hits Nl Nu) as K.
  destruct (Nat.eq_dec (length hits) 1) as [E|E].
  - rewrite (entries_UB_arena low upp hits E) in H; discriminate.
  - rewrite (arena_entry_ok low upp hits E) in H. injection H as H. rewrite H in K. exact K.
Qed.
Print Assumptions C11_arena_never_shrinks.

Theorem C11_points_outside_arena_reported_free_refuted : forall srt, conforming srt -> exists t r,
  compute_intersection (fofZ (-10)) (fofZ 10) (fun _ => [Ok [fofZ (-1); fofZ 1]]) (fun _ => []) [fzero]
    (setup 1 (fofZ (-10)) (fofZ 10) 1 0 tables0) = Ok t /\
  sweep_line srt t 0 = Ok r /\ covers r 5.
Proof. exact arena_ignored. Qed.
Print Assumptions C11_points_outside_arena_reported_free_refuted.

Example C11_hyp :
  match arena_entry (fofZ (-10)) (fofZ 10) [fofZ (-1); fofZ 1] with
  | Ok (l, u) => fsame l (fofZ (-10)) && fsame u (fofZ 10) | _ => false end = true.
Proof. vm_compute. reflexivity. Qed.

(** C12 *)
Theorem C12_defined_iff_no_single_hit : forall n na no low upp i (hA hO : list (list f64)) t,
  tables_shape n na no t -> (i < n)%nat -> length hA = na -> length hO = no ->
  ((exists t', intersect_line low upp i (map (@Ok _) hA) (map (@Ok _) hO) t = Ok t') <->
     (forall h, In h hA \/ In h hO -> length h <> 1%nat)) /\
  ((exists h, (In h hA \/ In h hO) /\ length h = 1%nat) ->
     intersect_line low upp i (map (@Ok _) hA) (map (@Ok _) hO) t = UB).
Proof.
  intros n na no low upp i hA hO t Sh Hi LA LO.
  assert (U : (exists h, (In h hA \/ In h hO) /\ length h = 1%nat) ->
     intersect_line low upp i (map (@Ok _) hA) (map (@Ok _) hO) t = UB).
  { intros (h & Hh & L). apply (intersect_line_UB n na no); auto. intros [FA FO].
    rewrite Forall_forall in FA, FO. destruct Hh as [Hh|Hh]; [exact (FA h Hh L)|exact (FO h Hh L)]. }
  split; [|exact U]. split.
  - intros (t' & E) h Hh L. rewrite U in E by eauto. discriminate.
  - intros H. destruct (intersect_line_spec n na no low upp i hA hO t) as (t' & E & _); auto;
      try (apply Forall_forall; intros; apply H; auto). exact (ex_intro _ t' E).
Qed.
Print Assumptions C12_defined_iff_no_single_hit.
