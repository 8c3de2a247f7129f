From Coq Require Import List Bool Sorted Permutation Reals Lra Lia ZArith.
From Verif.Base Require Import Outcome Float64 FloatFacts.
From Verif.Model Require Import MInterval MFreeSpace.
From Verif.Spec Require Import SInterval SFreeSpace.
From Verif.Proofs Require Import PInterval.
Import ListNotations.
Local Open Scope R_scope.
Local Opaque fval fdblmax.

Definition numericb (p : f64 * f64) : bool := negb (fisnan (fst p)) && negb (fisnan (snd p)).
Definition pair_itv (p : f64 * f64) : itv := Itv (fst p) (snd p).

Lemma numericb_ok p : numericb p = true <-> numeric p.
Proof. unfold numericb, numeric. rewrite andb_true_iff, !negb_true_iff. tauto. Qed.

Lemma collect_spec low upp line lr ur :
  nth_error low line = Some lr -> nth_error upp line = Some ur -> length lr = length ur ->
  collect low upp line = Ok (map pair_itv (filter numericb (combine lr ur))).
Proof.
  intros Hl Hu Hlen. unfold collect. unfold at_ at 1. rewrite Hl. cbn [obind].
  set (f := fun acc '(j, l) => _).
  assert (G : forall lr' ur' k acc, (forall j, nth_error ur' j = nth_error ur (k + j)) ->
     length lr' = length ur' ->
     ofold f (combine (seq k (length lr')) lr') acc
     = Ok (acc ++ map pair_itv (filter numericb (combine lr' ur')))).
  { induction lr' as [|l lr' IH]; intros ur' k acc Hk Hlen'.
    - simpl. rewrite app_nil_r. reflexivity.
    - destruct ur' as [|u ur']; [discriminate|]. simpl length. cbn [seq combine ofold].
      unfold f at 1. cbn [obind].
      assert (Hu0 : nth_error ur k = Some u). { specialize (Hk 0%nat). rewrite Nat.add_0_r in Hk. simpl in Hk. auto. }
      assert (Hk' : forall j, nth_error ur' j = nth_error ur (S k + j)).
      { intros j. specialize (Hk (S j)). simpl in Hk. rewrite Hk. f_equal. lia. }
      cbn [filter combine map]. unfold numericb at 1. cbn [fst snd].
      destruct (fisnan l) eqn:El; cbn [negb andb].
      + cbn [obind]. rewrite (IH ur'); auto.
      + rewrite (proj2 (at_Ok _ _ _) Hu). cbn [obind]. rewrite (proj2 (at_Ok _ _ _) Hu0). cbn [obind]. destruct (fisnan u) eqn:Eu; cbn [negb obind].
        * rewrite (IH ur'); auto.
        * rewrite (IH ur'); auto. cbn [map]. rewrite <- app_assoc. reflexivity. }
  rewrite (G lr ur 0%nat []); auto.
Qed.

Lemma in_pairs_itv i l : In i (map pair_itv (filter numericb l)) <->
  exists p, In p l /\ numeric p /\ i = pair_itv p.
Proof.
  rewrite in_map_iff. split.
  - intros (p & <- & H). apply filter_In in H. destruct H as [H1 H2]. exists p. rewrite <- numericb_ok; auto.
  - intros (p & H1 & H2 & ->). exists p. split; auto. apply filter_In. split; auto. apply numericb_ok; auto.
Qed.

(** Interior of a separated union. *)
Lemma separated_tl a l : separated (a :: l) -> separated l.
Proof. destruct l; simpl; tauto. Qed.

Lemma gap_left i x l : separated l -> Forall itv_wf l -> In i l -> fval (istart i) = x ->
  forall lo, lo < x -> exists y, lo <= y < x /\ ~ covers l y.
Proof.
  intros S W Hi E. induction l as [|a l IH]; [contradiction|]. intros lo Hlo.
  inversion W as [|? ? Wa W']; subst.
  destruct Hi as [->|Hi].
  - exists lo. split; [lra|]. intros C. apply covers_cons in C. destruct C as [C|C].
    + unfold inI in C; lra.
    + pose proof (separated_tail_gt i l _ S W C). destruct Wa; lra.
  - assert (Ha : fval (iend a) < fval (istart i)).
    { apply (separated_tail_gt a l); auto. exists i. split; auto.
      rewrite Forall_forall in W'. destruct (W' i Hi) as [_ ?]. unfold inI; lra. }
    destruct (IH (separated_tl _ _ S) W' Hi (Rmax lo ((fval (iend a) + fval (istart i)) / 2))) as (y & Hy & Hn).
    + apply Rmax_lub_lt; lra.
    + pose proof (Rmax_l lo ((fval (iend a) + fval (istart i)) / 2)).
      pose proof (Rmax_r lo ((fval (iend a) + fval (istart i)) / 2)).
      exists y. split; [lra|]. intros C. apply covers_cons in C. destruct C as [C|C]; auto.
      unfold inI in C; lra.
Qed.

Lemma gap_right i x l : separated l -> Forall itv_wf l -> In i l -> fval (iend i) = x ->
  forall hi, x < hi -> exists y, x < y <= hi /\ ~ covers l y.
Proof.
  intros S W Hi E hi Hhi. induction l as [|a l IH]; [contradiction|].
  inversion W as [|? ? Wa W']; subst.
  destruct Hi as [->|Hi].
  - destruct l as [|b l'].
    + exists hi. split; [lra|]. intros C. apply covers_cons in C. destruct C as [C|C].
      * unfold inI in C; lra.
      * eapply covers_nil; eauto.
    + destruct S as [S1 S2].
      exists (Rmin hi ((fval (iend i) + fval (istart b)) / 2)).
      pose proof (Rmin_r hi ((fval (iend i) + fval (istart b)) / 2)).
      split; [split; [apply Rmin_glb_lt; lra|apply Rmin_l]|].
      assert (fval (iend i) < Rmin hi ((fval (iend i) + fval (istart b)) / 2)) by (apply Rmin_glb_lt; lra).
      intros C. apply covers_cons in C. destruct C as [C|C]; [unfold inI in C; lra|].
      apply covers_cons in C. destruct C as [C|C]; [unfold inI in C; lra|].
      pose proof (separated_tail_gt b l' _ S2 W' C).
      inversion W' as [|? ? [_ ?] _]; subst. lra.
  - destruct (IH (separated_tl _ _ S) W' Hi) as (y & Hy & Hn).
    exists y. split; [auto|]. intros C. apply covers_cons in C. destruct C as [C|C]; auto.
    assert (fval (iend a) < fval (iend i)).
    { apply (separated_tail_gt a l); auto. exists i. split; auto.
      rewrite Forall_forall in W'. destruct (W' i Hi) as [_ ?]. unfold inI; lra. }
    unfold inI in C; lra.
Qed.

Lemma interior_separated l x : separated l -> Forall itv_wf l ->
  ((exists i, In i l /\ insideI i x) <->
   (exists d, 0 < d /\ forall y, Rabs (y - x) < d -> covers l y)).
Proof.
  intros S W. split.
  - intros (i & Hi & H1 & H2). exists (Rmin (x - fval (istart i)) (fval (iend i) - x)).
    split; [apply Rmin_glb_lt; lra|]. intros y Hy. exists i. split; auto. unfold inI.
    pose proof (Rmin_l (x - fval (istart i)) (fval (iend i) - x)).
    pose proof (Rmin_r (x - fval (istart i)) (fval (iend i) - x)).
    apply Rabs_def2 in Hy. lra.
  - intros (d & Hd & H).
    destruct (H x) as (i & Hi & Hix). { rewrite Rminus_diag_eq, Rabs_R0; auto. }
    exists i. split; auto. unfold inI in Hix. unfold insideI.
    destruct (Req_dec (fval (istart i)) x) as [E|].
    { exfalso. destruct (gap_left i x l S W Hi E (x - d/2)) as (y & Hy & Hn); [lra|].
      apply Hn, H. apply Rabs_def1; lra. }
    destruct (Req_dec (fval (iend i)) x) as [E|].
    { exfalso. destruct (gap_right i x l S W Hi E (x + d/2)) as (y & Hy & Hn); [lra|].
      apply Hn, H. apply Rabs_def1; lra. }
    lra.
Qed.

Section Proofs.
Variable srt : sort_fn.
Hypothesis srt_ok : conforming srt.

Lemma sweep_line_spec t line aL aU oL oU :
  nth_error (arenaLow t) line = Some aL -> nth_error (arenaUpp t) line = Some aU ->
  nth_error (obstacleLow t) line = Some oL -> nth_error (obstacleUpp t) line = Some oU ->
  length aL = length aU -> length oL = length oU ->
  (forall p, In p (combine oL oU) -> numeric p -> fval (fst p) <= fval (snd p)) ->
  exists r, sweep_line srt t line = Ok r /\ Forall itv_wf r /\ increasing r /\
    (forall x, covers r x -> free_on_line (combine aL aU) (combine oL oU) x) /\
    (forall x, in_double_range x -> free_on_line (combine aL aU) (combine oL oU) x -> covers r x).
Proof.
  intros HaL HaU HoL HoU La Lo Hord. unfold sweep_line.
  rewrite (collect_spec _ _ _ aL aU) by auto. cbn [obind].
  rewrite (collect_spec _ _ _ oL oU) by auto. cbn [obind].
  set (A := combine aL aU) in *. set (O := combine oL oU) in *.
  remember (map pair_itv (filter numericb A)) as As eqn:EAs.
  remember (map pair_itv (filter numericb O)) as Os eqn:EOs.
  assert (WA : Forall itv_num As).
  { apply Forall_forall. intros i Hi. subst As. apply in_pairs_itv in Hi. destruct Hi as (p & _ & Hn & ->). exact Hn. }
  assert (WO : Forall itv_wf Os).
  { apply Forall_forall. intros i Hi. subst Os. apply in_pairs_itv in Hi. destruct Hi as (p & Hp & Hn & ->).
    split; [exact Hn|]. cbn. auto. }
  destruct (unions_spec srt srt_ok Os WO) as (uo & Eu & Hu & Su & Wu & _ & _).
  assert (HA : forall x, (forall i, In i As -> inI i x) <->
              (forall p, In p A -> numeric p -> fval (fst p) <= x <= fval (snd p))).
  { intros x. subst As. split.
    - intros H p Hp Hn. apply (H (pair_itv p)). apply in_pairs_itv. eauto.
    - intros H i Hi. apply in_pairs_itv in Hi. destruct Hi as (p & Hp & Hn & ->). exact (H p Hp Hn). }
  assert (HO : forall x, (exists i, In i uo /\ insideI i x) <-> obstructed O x).
  { intros x. rewrite (interior_separated uo x Su Wu). unfold obstructed.
    assert (Hc : forall y, covers uo y <-> exists p, In p O /\ numeric p /\ fval (fst p) <= y <= fval (snd p)).
    { intros y. rewrite Hu. subst Os. unfold covers. split.
      - intros (i & Hi & Hiy). apply in_pairs_itv in Hi. destruct Hi as (p & Hp & Hn & ->). exists p. auto.
      - intros (p & Hp & Hn & Hy). exists (pair_itv p). split; [apply in_pairs_itv; eauto|exact Hy]. }
    split; intros (d & Hd & H); exists d; (split; [exact Hd|]); intros y Hy; apply Hc; auto. }
  destruct As as [|a0 As'].
  - cbn [intersects obind]. rewrite Eu. cbn [obind complements]. exists [].
    split; [reflexivity|]. split; [constructor|]. split; [exact I|].
    split; [intros x Hc; exfalso; eapply covers_nil; eauto|].
    intros x _ [(p & Hp & Hn) _]. exfalso.
    assert (X : In (pair_itv p) []) by (rewrite EAs; apply in_pairs_itv; eauto). exact X.
  - assert (HexA : exists p, In p A /\ numeric p).
    { assert (Hi : In a0 (map pair_itv (filter numericb A))) by (rewrite <- EAs; left; reflexivity).
      apply in_pairs_itv in Hi. destruct Hi as (p & ? & ? & _). eauto. }
    destruct (intersects_spec srt srt_ok (a0 :: As') ltac:(discriminate) WA) as [[-> Hno]|(b & -> & Wb & Hb & _ & _)].
    + cbn [obind]. rewrite Eu. cbn [obind complements]. exists [].
      split; [reflexivity|]. split; [constructor|]. split; [exact I|].
      split; [intros x Hc; exfalso; eapply covers_nil; eauto|].
      intros x _ (_ & H & _). exfalso. apply (Hno x). apply HA. auto.
    + cbn [obind]. rewrite Eu. cbn [obind].
      destruct uo as [|u0 uo'].
      * cbn [complements]. exists [b]. split; [reflexivity|]. split; [constructor; auto|]. split; [exact I|].
        unfold free_on_line. split.
        -- intros x. rewrite covers_cons, Hb, HA.
           intros [Hx|Hx]; [|exfalso; eapply covers_nil; eauto]. split; [auto|]. split; [auto|].
           rewrite <- HO. intros (i & [] & _).
        -- intros x _. rewrite covers_cons, Hb, HA. tauto.
      * destruct (complements_exact srt srt_ok b [] (u0 :: uo')) as (r & Er & Wr & Ir & Hr1 & Hr2 & Hr3);
          [exact (proj1 Wb)|discriminate|exact Wu|exact (separated_apart _ Wu Su)|].
        exists r. split; [exact Er|]. split; [exact Wr|]. split; [exact Ir|].
        unfold free_on_line. split.
        -- intros x Hx. split; [auto|]. split; [apply HA, Hb; auto|].
           rewrite <- HO. intros (i & Hi & Hix). exact (Hr3 x i Hx Hi Hix).
        -- intros x Hx (_ & H1 & H2). apply Hr2; auto. rewrite Hb, HA. split; [auto|].
           intros i Hi Hix. apply H2, HO. eauto.
Qed.
End Proofs.
