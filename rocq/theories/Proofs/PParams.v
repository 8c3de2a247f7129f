(** Proofs for C106. *)
From Coq Require Import List Reals ZArith Arith Bool Lia Lra.
From Verif.Base Require Import Outcome.
From Verif.Model Require Import MGeom MMultiBody MSettings MParams.
From Verif.Spec Require Import SParams.
Import ListNotations.
Local Open Scope R_scope.

Lemma at_cases {A} (l : list A) i : (exists a, nth_error l i = Some a /\ at_ l i = Ok a) \/ (nth_error l i = None /\ at_ l i = Throw OutOfRange).
Proof. unfold at_. destruct (nth_error l i) as [a|]; [left; exists a; split; reflexivity|right; split; reflexivity]. Qed.
Lemma limits2_iff base arena obs l : (exists b1, limits2 base arena = Ok (l, b1)) <-> limits_of2 (Scene2 base arena obs) l.
Proof.
  unfold limits_of2. cbn [c_base c_arena]. split.
  - intros (b1 & H). unfold limits2, at_ in H. destruct arena as [|ar rest]; [discriminate H|]. cbn [nth_error obind] in H.
    destruct (se_axes ar) as [|A0 [|A1 as']] eqn:EA; cbn [nth_error obind] in H; try discriminate H.
    + destruct (se_axes base); cbn [nth_error obind] in H; discriminate H.
    + destruct (se_axes base) as [|r b] eqn:EB; cbn [nth_error obind] in H; [discriminate H|]. cbv zeta in H.
      destruct (se_pos ar) as [|X [|Y ps]] eqn:EP; cbn [nth_error obind] in H; try discriminate H. injection H as <- _.
      exists ar, rest, r, b, A0, A1, as', X, Y, ps. repeat (split; [assumption || reflexivity|]). reflexivity.
  - intros (ar & rest & r & b & A0 & A1 & as' & X & Y & ps & -> & EB & EA & EP & ->). eexists. unfold limits2, at_. cbn [nth_error obind]. rewrite EA, EB, EP. reflexivity.
Qed.
Lemma limits3_iff base nq arena obs l : (exists b, limits3 base arena = Ok (l, b)) <-> limits_of3 (Scene3 base nq arena obs) l.
Proof.
  unfold limits_of3. cbn [d_base d_arena]. split.
  - intros (bb & H). unfold limits3, at_ in H. destruct arena as [|ar rest]; [discriminate H|]. cbn [nth_error obind] in H.
    destruct (sq_axes ar) as [|A0 [|A1 [|A2 as']]] eqn:EA; cbn [nth_error obind] in H; try discriminate H.
    + destruct (sq_axes base); cbn [nth_error obind] in H; discriminate H.
    + destruct (sq_axes base); cbn [nth_error obind] in H; discriminate H.
    + destruct (sq_axes base) as [|r b] eqn:EB; cbn [nth_error obind] in H; [discriminate H|]. cbv zeta in H.
      destruct (sq_pos ar) as [|X [|Y [|Z ps]]] eqn:EP; cbn [nth_error obind] in H; try discriminate H. injection H as <- _.
      exists ar, rest, r, b, A0, A1, A2, as', X, Y, Z, ps. repeat (split; [assumption || reflexivity|]). reflexivity.
  - intros (ar & rest & r & b & A0 & A1 & A2 & as' & X & Y & Z & ps & -> & EB & EA & EP & ->). eexists. unfold limits3, at_. cbn [nth_error obind]. rewrite EA, EB, EP. reflexivity.
Qed.
Lemma limits2_no_ub base arena : limits2 base arena <> UB.
Proof.
  unfold limits2. destruct (at_cases arena 0) as [(ar & _ & ->)|(_ & ->)]; cbn [obind]; [|discriminate].
  destruct (at_cases (se_axes ar) 0) as [(? & _ & ->)|(_ & ->)]; cbn [obind]; [|discriminate]. destruct (at_cases (se_axes base) 0) as [(? & _ & ->)|(_ & ->)]; cbn [obind]; [|discriminate].
  destruct (at_cases (se_axes ar) 1) as [(? & _ & ->)|(_ & ->)]; cbn [obind]; [|discriminate]. cbv zeta.
  destruct (at_cases (se_pos ar) 0) as [(? & _ & ->)|(_ & ->)]; cbn [obind]; [|discriminate]. destruct (at_cases (se_pos ar) 1) as [(? & _ & ->)|(_ & ->)]; cbn [obind]; discriminate.
Qed.
Lemma limits3_no_ub base arena : limits3 base arena <> UB.
Proof.
  unfold limits3. destruct (at_cases arena 0) as [(ar & _ & ->)|(_ & ->)]; cbn [obind]; [|discriminate].
  destruct (at_cases (sq_axes ar) 0) as [(? & _ & ->)|(_ & ->)]; cbn [obind]; [|discriminate]. destruct (at_cases (sq_axes base) 0) as [(? & _ & ->)|(_ & ->)]; cbn [obind]; [|discriminate].
  destruct (at_cases (sq_axes ar) 1) as [(? & _ & ->)|(_ & ->)]; cbn [obind]; [|discriminate]. destruct (at_cases (sq_axes ar) 2) as [(? & _ & ->)|(_ & ->)]; cbn [obind]; [|discriminate]. cbv zeta.
  destruct (at_cases (sq_pos ar) 0) as [(? & _ & ->)|(_ & ->)]; cbn [obind]; [|discriminate]. destruct (at_cases (sq_pos ar) 1) as [(? & _ & ->)|(_ & ->)]; cbn [obind]; [|discriminate].
  destruct (at_cases (sq_pos ar) 2) as [(? & _ & ->)|(_ & ->)]; cbn [obind]; discriminate.
Qed.
(** One call. *)
Lemma set2_step base arena obs p p' r : set_params2 base arena obs p = (p', r) -> r <> UB ->
  r_numSlice p' = r_numSlice p /\ r_numLineX p' = r_numLineX p /\ (r_numLineY p <> 0%Z -> r_numLineY p' = r_numLineY p) /\
  (limits_of2 (Scene2 base arena obs) (r_limits p') \/ ((forall l, ~ limits_of2 (Scene2 base arena obs) l) /\ p' = p /\ exists e, r = Throw e)).
Proof.
  unfold set_params2. destruct (limits2 base arena) as [[lim b1]|e|] eqn:L.
  - assert (LO : limits_of2 (Scene2 base arena obs) lim) by (apply limits2_iff; exists b1; exact L). cbv zeta. cbn [r_numLineY].
    destruct (Z.eqb_spec (r_numLineY p) 0) as [Z|Z].
    + destruct (obind (min_size (map se_axes obs)) (fun m => int_quot b1 m)) as [n|e|]; intros E N; injection E as <- <-; cbn [r_numSlice r_numLineX r_numLineY r_limits];
        (split; [reflexivity|]; split; [reflexivity|]; split; [intros X; try contradiction; reflexivity|left; exact LO]).
    + intros E _. injection E as <- <-. cbn. split; [reflexivity|]. split; [reflexivity|]. split; [reflexivity|left; exact LO].
  - intros E _. injection E as <- <-. split; [reflexivity|]. split; [reflexivity|]. split; [reflexivity|]. right. split; [|split; [reflexivity|exists e; reflexivity]].
    intros l H. apply limits2_iff in H. destruct H as (b1 & H). rewrite L in H. discriminate H.
  - contradiction (limits2_no_ub base arena L).
Qed.
Lemma set3_step base nq arena obs p p' r : set_params3 base nq arena obs p = (p', r) -> r <> UB ->
  (r_numLineX p <> 0%Z -> r_numLineY p <> 0%Z -> r_numLineX p' = r_numLineX p /\ r_numLineY p' = r_numLineY p) /\
  (limits_of3 (Scene3 base nq arena obs) (r_limits p') /\ r_numSlice p' = Z.of_nat nq \/
   ((forall l, ~ limits_of3 (Scene3 base nq arena obs) l) /\ p' = p /\ exists e, r = Throw e)).
Proof.
  unfold set_params3. destruct (limits3 base arena) as [[lim [b0 b1]]|e|] eqn:L.
  - assert (LO : limits_of3 (Scene3 base nq arena obs) lim) by (apply limits3_iff; exists (b0, b1); exact L). cbv zeta. cbn [r_numLineY r_numLineX].
    destruct (Z.eqb_spec (r_numLineX p) 0) as [Z|Z]; [|destruct (Z.eqb_spec (r_numLineY p) 0) as [W|W]]; cbn [orb].
    + destruct (obind (min_size (map sq_axes obs)) _) as [[nx ny]|e|]; intros E N; injection E as <- <-; cbn; (split; [intros X; contradiction|left; split; [exact LO|reflexivity]]).
    + destruct (obind (min_size (map sq_axes obs)) _) as [[nx ny]|e|]; intros E N; injection E as <- <-; cbn; (split; [intros _ X; contradiction|left; split; [exact LO|reflexivity]]).
    + intros E _. injection E as <- <-. cbn. split; [intros _ _; split; reflexivity|left; split; [exact LO|reflexivity]].
  - intros E _. injection E as <- <-. split; [intros _ _; split; reflexivity|]. right. split; [|split; [reflexivity|exists e; reflexivity]].
    intros l H. apply (limits3_iff base nq arena obs) in H. destruct H as (b1 & H). rewrite L in H. discriminate H.
  - contradiction (limits3_no_ub base arena L).
Qed.
Lemma define2_same base arena obs p p' : set_params2 base arena obs p = (p', Ok tt) <-> define_params2 base arena obs p = Ok p'.
Proof.
  unfold set_params2, limits2, define_params2.
  destruct (at_ arena 0) as [ar| |]; cbn [obind]; [|split; intros H; discriminate H..]. destruct (at_ (se_axes ar) 0) as [a0| |]; cbn [obind]; [|split; intros H; discriminate H..].
  destruct (at_ (se_axes base) 0) as [r| |]; cbn [obind]; [|split; intros H; discriminate H..]. destruct (at_ (se_axes ar) 1) as [a1| |]; cbn [obind]; [|split; intros H; discriminate H..]. cbv zeta.
  destruct (at_ (se_pos ar) 0) as [x| |]; cbn [obind]; [|split; intros H; discriminate H..]. destruct (at_ (se_pos ar) 1) as [y| |]; cbn [obind]; [|split; intros H; discriminate H..].
  cbn [r_numLineY]. destruct (Z.eqb (r_numLineY p) 0); [|split; intros H; injection H as <-; reflexivity].
  destruct (min_size (map se_axes obs)) as [m| |]; cbn [obind]; [|split; intros H; discriminate H..]. destruct (int_quot (a1 - 3 / 2 * r) m) as [n| |]; cbn [obind]; [|split; intros H; discriminate H..].
  split; intros H; injection H as <-; reflexivity.
Qed.
Lemma define3_same base nq arena obs p p' : set_params3 base nq arena obs p = (p', Ok tt) <-> define_params3 base nq arena obs p = Ok p'.
Proof.
  unfold set_params3, limits3, define_params3.
  destruct (at_ arena 0) as [ar| |]; cbn [obind]; [|split; intros H; discriminate H..]. destruct (at_ (sq_axes ar) 0) as [a0| |]; cbn [obind]; [|split; intros H; discriminate H..].
  destruct (at_ (sq_axes base) 0) as [r| |]; cbn [obind]; [|split; intros H; discriminate H..]. destruct (at_ (sq_axes ar) 1) as [a1| |]; cbn [obind]; [|split; intros H; discriminate H..].
  destruct (at_ (sq_axes ar) 2) as [a2| |]; cbn [obind]; [|split; intros H; discriminate H..]. cbv zeta.
  destruct (at_ (sq_pos ar) 0) as [x| |]; cbn [obind]; [|split; intros H; discriminate H..]. destruct (at_ (sq_pos ar) 1) as [y| |]; cbn [obind]; [|split; intros H; discriminate H..].
  destruct (at_ (sq_pos ar) 2) as [z| |]; cbn [obind]; [|split; intros H; discriminate H..].
  cbn [r_numLineY r_numLineX]. destruct (Z.eqb (r_numLineX p) 0 || Z.eqb (r_numLineY p) 0)%bool; [|split; intros H; injection H as <-; reflexivity].
  destruct (min_size (map sq_axes obs)) as [m| |]; cbn [obind]; [|split; intros H; discriminate H..]. destruct (floor_quot (a0 - 6 / 5 * r) m) as [n| |]; cbn [obind]; [|split; intros H; discriminate H..].
  destruct (floor_quot (a1 - 6 / 5 * r) m) as [k| |]; cbn [obind]; [|split; intros H; discriminate H..].
  split; intros H; injection H as <-; reflexivity.
Qed.
(** Histories. *)
Lemma limits_history cs : forall p p', params_history cs p = Ok p' ->
  r_numSlice p' = r_numSlice p /\ r_numLineX p' = r_numLineX p /\ (r_numLineY p <> 0%Z -> r_numLineY p' = r_numLineY p) /\
  ((exists h1 c h2, cs = h1 ++ c :: h2 /\ limits_of2 c (r_limits p') /\ forall c' l, In c' h2 -> ~ limits_of2 c' l) \/
   ((forall c l, In c cs -> ~ limits_of2 c l) /\ p' = p)).
Proof.
  induction cs as [|c cs IH]; intros p p' H; cbn [params_history] in H.
  - injection H as <-. repeat (split; [reflexivity|]). right. split; [intros c l []|reflexivity].
  - destruct (set_params2 (c_base c) (c_arena c) (c_obs c) p) as [p1 r] eqn:E. assert (N : r <> UB) by (intros ->; discriminate H).
    assert (H' : params_history cs p1 = Ok p') by (destruct r; [exact H|exact H|contradiction N; reflexivity]).
    destruct (set2_step _ _ _ _ _ _ E N) as (S1 & X1 & Y1 & L1). destruct (IH _ _ H') as (S2 & X2 & Y2 & L2).
    split; [rewrite S2; exact S1|]. split; [rewrite X2; exact X1|]. split; [intros Z; pose proof (Y1 Z) as K; rewrite Y2 by (rewrite K; exact Z); exact K|].
    destruct L2 as [(h1 & c' & h2 & -> & L & F)|(F & ->)]; [left; exists (c :: h1), c', h2; split; [reflexivity|]; split; [exact L|exact F]|].
    destruct c as [b ar ob]. cbn [c_base c_arena c_obs] in L1. destruct L1 as [L|(G & -> & _)].
    + left. exists [], (Scene2 b ar ob), cs. split; [reflexivity|]. split; [exact L|exact F].
    + right. split; [|reflexivity]. intros c' l [<-|I]; [exact (G l)|exact (F c' l I)].
Qed.
Lemma limits_history3 cs : forall p p', params_history3 cs p = Ok p' ->
  (r_numLineX p <> 0%Z -> r_numLineY p <> 0%Z -> r_numLineX p' = r_numLineX p /\ r_numLineY p' = r_numLineY p) /\
  ((exists h1 c h2, cs = h1 ++ c :: h2 /\ limits_of3 c (r_limits p') /\ r_numSlice p' = Z.of_nat (d_samples c) /\ forall c' l, In c' h2 -> ~ limits_of3 c' l) \/
   ((forall c l, In c cs -> ~ limits_of3 c l) /\ p' = p)).
Proof.
  induction cs as [|c cs IH]; intros p p' H; cbn [params_history3] in H.
  - injection H as <-. split; [intros _ _; split; reflexivity|]. right. split; [intros c l []|reflexivity].
  - destruct (set_params3 (d_base c) (d_samples c) (d_arena c) (d_obs c) p) as [p1 r] eqn:E. assert (N : r <> UB) by (intros ->; discriminate H).
    assert (H' : params_history3 cs p1 = Ok p') by (destruct r; [exact H|exact H|contradiction N; reflexivity]).
    destruct (set3_step _ _ _ _ _ _ _ E N) as (Y1 & L1). destruct (IH _ _ H') as (Y2 & L2).
    split; [intros ZX ZY; destruct (Y1 ZX ZY) as (K1 & K2); destruct (Y2 ltac:(rewrite K1; exact ZX) ltac:(rewrite K2; exact ZY)) as (K3 & K4); split; [rewrite K3; exact K1|rewrite K4; exact K2]|].
    destruct L2 as [(h1 & c' & h2 & -> & L & F)|(F & ->)]; [left; exists (c :: h1), c', h2; split; [reflexivity|]; split; [exact L|exact F]|].
    destruct c as [b nq ar ob]. cbn [d_base d_samples d_arena d_obs] in L1. destruct L1 as [(L & S)|(G & -> & _)].
    + left. exists [], (Scene3 b nq ar ob), cs. split; [reflexivity|]. split; [exact L|]. split; [exact S|exact F].
    + right. split; [|reflexivity]. intros c' l [<-|I]; [exact (G l)|exact (F c' l I)].
Qed.
