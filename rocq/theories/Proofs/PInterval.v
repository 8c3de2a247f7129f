From Coq Require Import List Bool Sorted Permutation Reals Lra Lia.
From Verif.Base Require Import Outcome Float64.
From Verif.Model Require Import MInterval.
From Verif.Spec Require Import SInterval.
Import ListNotations.
Local Open Scope R_scope.
Local Opaque fval fdblmax.

(** ** sorting *)

Lemma nan_mixed_false keys : Forall (fun k => fisnan k = false) keys -> nan_mixed keys = false.
Proof.
  intros H. unfold nan_mixed.
  destruct (existsb fisnan keys) eqn:E; simpl; auto.
  apply existsb_exists in E. destruct E as (k & Hk & Hn).
  rewrite Forall_forall in H. rewrite (H _ Hk) in Hn. discriminate.
Qed.

Lemma swo_float {A} (key : A -> f64) l : Forall (fun a => fisnan (key a) = false) l ->
  swo_on (fun a b => fltb (key a) (key b)) l.
Proof.
  rewrite Forall_forall; intros H. split; [|split].
  - intros x Hx. apply fltb_val_false; auto. lra.
  - intros x y z Hx Hy Hz H1 H2.
    apply fltb_val in H1; auto. apply fltb_val in H2; auto. apply fltb_val; auto. lra.
  - intros x y z Hx Hy Hz H1 H2 H3 H4.
    apply fltb_val_false in H1; auto. apply fltb_val_false in H2; auto.
    apply fltb_val_false in H3; auto. apply fltb_val_false in H4; auto.
    split; apply fltb_val_false; auto; lra.
Qed.

Section Proofs.
Variable srt : sort_fn.
Hypothesis srt_ok : conforming srt.

Lemma sort_by_spec {A} (key : A -> f64) (l : list A) :
  Forall (fun a => fisnan (key a) = false) l ->
  exists l', sort_by srt key l = Ok l' /\ Permutation l l' /\
    StronglySorted (fun a b => fval (key a) <= fval (key b)) l'.
Proof.
  intros H. unfold sort_by. rewrite nan_mixed_false.
  2:{ apply Forall_forall. intros k Hk. apply in_map_iff in Hk. destruct Hk as (a & <- & Ha).
      rewrite Forall_forall in H; auto. }
  destruct (srt_ok A _ l (swo_float key l H)) as [Hp Hs].
  eexists; split; [reflexivity|]. split; [exact Hp|].
  set (l' := srt A _ l) in *. clearbody l'.
  assert (H' : Forall (fun a => fisnan (key a) = false) l').
  { apply Forall_forall. intros a Ha. rewrite Forall_forall in H; apply H.
    eapply Permutation_in; [symmetry; exact Hp|exact Ha]. }
  clear Hp. induction Hs as [|a t Hs IH Hf]; constructor.
  - apply IH. inversion H'; auto.
  - inversion H' as [|? ? Ha Ht]; subst. rewrite Forall_forall in *. intros b Hb.
    specialize (Hf b Hb). apply fltb_val_false in Hf; auto.
Qed.

Lemma covers_perm l l' x : Permutation l l' -> (covers l x <-> covers l' x).
Proof.
  intros H; unfold covers; split; intros (i & Hi & Hx); exists i; (split; [|exact Hx]).
  - eapply Permutation_in; eauto.
  - eapply Permutation_in; [apply Permutation_sym; exact H|exact Hi].
Qed.

Lemma covers_cons a l x : covers (a :: l) x <-> inI a x \/ covers l x.
Proof.
  unfold covers; split.
  - intros (i & [->|Hi] & Hx); eauto.
  - intros [H|(i & Hi & Hx)]; [exists a|exists i]; simpl; auto.
Qed.
Lemma covers_nil x : ~ covers [] x.
Proof. intros (i & [] & _). Qed.

Lemma Forall_perm {A} (P : A -> Prop) l l' : Permutation l l' -> Forall P l -> Forall P l'.
Proof.
  intros Hp H. apply Forall_forall; intros a Ha. rewrite Forall_forall in H; apply H.
  eapply Permutation_in; [symmetry; exact Hp|exact Ha].
Qed.

(** ** unions *)

Definition srt_itv l := StronglySorted (fun a b => fval (istart a) <= fval (istart b)) l.

Lemma merge_wf cur el : itv_wf cur -> itv_wf el ->
  fval (istart cur) <= fval (istart el) ->
  itv_wf (Itv (istart cur) (fstdmax (iend cur) (iend el))).
Proof.
  intros [[H1 H2] H3] [[H4 H5] H6] H. split; [split|]; simpl; auto.
  - apply fstdmax_nan; auto.
  - rewrite fstdmax_val by auto. pose proof (Rmax_l (fval (iend cur)) (fval (iend el))). lra.
Qed.

Lemma unions_loop_covers l : forall cur, itv_wf cur -> Forall itv_wf l ->
  srt_itv l -> Forall (fun a => fval (istart cur) <= fval (istart a)) l ->
  forall x, covers (unions_loop cur l) x <-> inI cur x \/ covers l x.
Proof.
  induction l as [|el t IH]; intros cur Hc Hl Hs Hle x; simpl.
  - rewrite covers_cons. reflexivity.
  - inversion Hl as [|? ? Hel Ht]; subst. inversion Hs as [|? ? Hs' Hf]; subst.
    inversion Hle as [|? ? Hle1 Hle2]; subst.
    destruct (fltb (iend cur) (istart el)) eqn:E.
    + rewrite covers_cons, IH, covers_cons; auto. reflexivity.
    + destruct Hc as [[C1 C2] C3], Hel as [[E1 E2] E3].
      apply fltb_val_false in E; auto.
      rewrite IH; auto.
      * rewrite covers_cons. unfold inI; simpl. rewrite fstdmax_val by auto.
        split.
        -- intros [[H1 H2]|H]; auto.
           destruct (Rle_or_lt x (fval (iend cur))); [left; lra|].
           right; left. split; [lra|].
           unfold Rmax in H2. destruct (Rle_dec _ _); lra.
        -- intros [[H1 H2]|[[H1 H2]|H]]; auto; left; split; try lra.
           ++ eapply Rle_trans; [exact H2|apply Rmax_l].
           ++ eapply Rle_trans; [exact H2|apply Rmax_r].
      * apply merge_wf; auto; [split; [split|]; auto | split; [split|]; auto].
Qed.

Lemma unions_loop_start cur l :
  exists h t, unions_loop cur l = h :: t /\ istart h = istart cur.
Proof.
  revert cur; induction l as [|el t IH]; intros cur; simpl.
  - eauto.
  - destruct (fltb _ _); [eauto|].
    destruct (IH (Itv (istart cur) (fstdmax (iend cur) (iend el)))) as (h & t' & -> & E).
    exists h, t'; split; auto.
Qed.

Lemma unions_loop_normal l : forall cur, itv_wf cur -> Forall itv_wf l ->
  srt_itv l -> Forall (fun a => fval (istart cur) <= fval (istart a)) l ->
  separated (unions_loop cur l) /\ Forall itv_wf (unions_loop cur l) /\
  (length (unions_loop cur l) <= S (length l))%nat /\
  (forall i, In i (unions_loop cur l) ->
     In (istart i) (map istart (cur :: l)) /\ In (iend i) (map iend (cur :: l))).
Proof.
  induction l as [|el t IH]; intros cur Hc Hl Hs Hle; simpl.
  - repeat split; auto.
    + intros; intuition congruence.
    + intros; intuition congruence.
  - inversion Hl as [|? ? Hel Ht]; subst. inversion Hs as [|? ? Hs' Hf]; subst.
    inversion Hle as [|? ? Hle1 Hle2]; subst.
    destruct (fltb (iend cur) (istart el)) eqn:E.
    + destruct (IH el Hel Ht Hs' Hf) as (I1 & I2 & I3 & I4).
      destruct (unions_loop_start el t) as (h & t' & Eq & Eh).
      rewrite Eq in *. destruct Hc as [[C1 C2] C3], Hel as [[E1 E2] E3].
      apply fltb_val in E; auto.
      split; [|split; [|split]].
      * split; [rewrite Eh; exact E|exact I1].
      * constructor; auto. split; [split|]; auto.
      * simpl in I3 |- *; lia.
      * intros i [<-|Hi]; [auto|]. destruct (I4 i Hi) as [J1 J2]. split; right; auto.
    + assert (Hm : itv_wf (Itv (istart cur) (fstdmax (iend cur) (iend el)))) by (apply merge_wf; auto).
      destruct (IH _ Hm Ht Hs' Hle2) as (I1 & I2 & I3 & I4).
      split; [|split; [|split]]; auto.
      intros i Hi. destruct (I4 i Hi) as [J1 J2]. simpl in J1, J2. split; [tauto|].
      unfold fstdmax in J2. destruct (fltb (iend cur) (iend el)); tauto.
Qed.

Lemma unions_spec l : Forall itv_wf l ->
  exists r, unions srt l = Ok r /\
    (forall x, covers r x <-> covers l x) /\
    separated r /\ Forall itv_wf r /\ (length r <= length l)%nat /\
    (forall i, In i r -> In (istart i) (map istart l) /\ In (iend i) (map iend l)).
Proof.
  intros H. unfold unions. destruct l as [|a0 l0].
  - exists []. repeat split; auto; try (intros [[] _]); contradiction.
  - set (l := a0 :: l0) in *.
    assert (Hn : Forall (fun a => fisnan (istart a) = false) l).
    { eapply Forall_impl; [|exact H]. intros a [[? ?] ?]; auto. }
    destruct (sort_by_spec istart l Hn) as (c & Ec & Hp & Hs).
    rewrite Ec. simpl obind.
    destruct c as [|f c']. { apply Permutation_length in Hp; discriminate. }
    simpl obind. simpl at_. exists (unions_loop f (f :: c')). split; [reflexivity|].
    assert (Hw : Forall itv_wf (f :: c')) by (eapply Forall_perm; eauto).
    assert (Hle : Forall (fun a => fval (istart f) <= fval (istart a)) (f :: c')).
    { constructor; [lra|]. inversion Hs; auto. }
    assert (Hf : itv_wf f) by (inversion Hw; auto).
    destruct (unions_loop_normal (f :: c') f Hf Hw Hs Hle) as (I1 & I2 & I3 & I4).
    split; [|split; [|split; [|split]]]; auto.
    + intros x. rewrite (unions_loop_covers (f :: c') f Hf Hw Hs Hle).
      rewrite (covers_perm _ _ _ Hp), covers_cons. tauto.
    + assert (unions_loop f (f :: c') = unions_loop (Itv (istart f) (fstdmax (iend f) (iend f))) c').
      { simpl. destruct Hf as [[F1 F2] F3].
        assert (fltb (iend f) (istart f) = false) as -> by (apply fltb_val_false; auto). reflexivity. }
      rewrite H0.
      assert (Hm : itv_wf (Itv (istart f) (fstdmax (iend f) (iend f)))) by (apply merge_wf; auto; lra).
      inversion Hw; inversion Hs; inversion Hle; subst.
      destruct (unions_loop_normal c' _ Hm) as (_ & _ & I3' & _); auto.
      apply Permutation_length in Hp. rewrite Hp. exact I3'.
    + intros i Hi. destruct (I4 i Hi) as [J1 J2].
      assert (P1 := Permutation_map istart Hp). assert (P2 := Permutation_map iend Hp).
      split; (eapply Permutation_in; [symmetry; eassumption|]); simpl in *; tauto.
Qed.

(** canonicity: a separated list of well-formed intervals is determined by the
    points it covers *)
Lemma separated_tail_gt a l x : separated (a :: l) -> Forall itv_wf (a :: l) ->
  covers l x -> fval (iend a) < x.
Proof.
  revert a; induction l as [|b t IH]; intros a Hs Hw Hc.
  - exfalso; eapply covers_nil; eauto.
  - destruct Hs as [H1 H2]. apply covers_cons in Hc. destruct Hc as [Hc|Hc].
    + unfold inI in Hc; lra.
    + inversion Hw as [|? ? _ Hw']; subst. specialize (IH b H2 Hw' Hc).
      inversion Hw' as [|? ? [_ Hb] _]; subst. lra.
Qed.

Lemma canonical l1 : forall l2, separated l1 -> separated l2 ->
  Forall itv_wf l1 -> Forall itv_wf l2 ->
  (forall x, covers l1 x <-> covers l2 x) -> same_values l1 l2.
Proof.
  induction l1 as [|a t1 IH]; intros [|b t2] S1 S2 W1 W2 H.
  - constructor.
  - exfalso. inversion W2 as [|? ? [_ Hb] _]; subst.
    apply (covers_nil (fval (istart b))), H, covers_cons. left; unfold inI; lra.
  - exfalso. inversion W1 as [|? ? [_ Ha] _]; subst.
    apply (covers_nil (fval (istart a))), H, covers_cons. left; unfold inI; lra.
  - inversion W1 as [|? ? [_ Ha] W1']; inversion W2 as [|? ? [_ Hb] W2']; subst.
    assert (Es : fval (istart a) = fval (istart b)).
    { assert (C1 : covers (b :: t2) (fval (istart a))).
      { apply H, covers_cons. left; unfold inI; lra. }
      assert (C2 : covers (a :: t1) (fval (istart b))).
      { apply H, covers_cons. left; unfold inI; lra. }
      apply covers_cons in C1, C2.
      assert (fval (istart b) <= fval (istart a)).
      { destruct C1 as [C1|C1]; [unfold inI in C1; lra|].
        pose proof (separated_tail_gt b t2 _ S2 W2 C1); lra. }
      destruct C2 as [C2|C2]; [unfold inI in C2; lra|].
      pose proof (separated_tail_gt a t1 _ S1 W1 C2); lra. }
    assert (gen : forall a t1 b t2, separated (a :: t1) -> separated (b :: t2) ->
        Forall itv_wf (a :: t1) -> Forall itv_wf (b :: t2) ->
        (forall x, covers (a :: t1) x <-> covers (b :: t2) x) ->
        fval (istart a) = fval (istart b) -> fval (iend a) < fval (iend b) -> False).
    { clear. intros a t1 b t2 S1 S2 W1 W2 H Es Hlt.
      assert (Hx : exists x, fval (iend a) < x <= fval (iend b) /\ ~ covers t1 x).
      { destruct t1 as [|a' t1'].
        - exists (fval (iend b)). split; [lra|apply covers_nil].
        - destruct S1 as [Hg S1'].
          exists (Rmin (fval (iend b)) ((fval (iend a) + fval (istart a')) / 2)).
          split.
          + split; [apply Rmin_glb_lt; lra|apply Rmin_l].
          + pose proof (Rmin_r (fval (iend b)) ((fval (iend a) + fval (istart a')) / 2)) as Hr.
            intros C. apply covers_cons in C. destruct C as [C|C].
            * unfold inI in C. lra.
            * inversion W1 as [|? ? _ W1']; subst.
              pose proof (separated_tail_gt a' t1' _ S1' W1' C).
              inversion W1' as [|? ? [_ ?] _]; subst. lra. }
      destruct Hx as (x & Hx & Hn).
      inversion W1 as [|? ? [_ Ha] W1']; inversion W2 as [|? ? [_ Hb] W2']; subst.
      assert (C : covers (a :: t1) x). { apply H, covers_cons. left; unfold inI; lra. }
      apply covers_cons in C. destruct C as [C|C]; [unfold inI in C; lra|auto]. }
    assert (Ee : fval (iend a) = fval (iend b)).
    { destruct (Rtotal_order (fval (iend a)) (fval (iend b))) as [L|[E|L]]; auto; exfalso.
      - eapply (gen a t1 b t2); eauto.
      - eapply (gen b t2 a t1); eauto. intros x; symmetry; auto. }
    constructor; [auto|]. apply IH; auto.
    + destruct t1; simpl in *; tauto.
    + destruct t2; simpl in *; tauto.
    + intros x. split; intros C.
      * assert (C' : covers (b :: t2) x) by (apply H, covers_cons; auto).
        apply covers_cons in C'. destruct C' as [C'|C']; auto.
        pose proof (separated_tail_gt a t1 _ S1 W1 C). unfold inI in C'; lra.
      * assert (C' : covers (a :: t1) x) by (apply H, covers_cons; auto).
        apply covers_cons in C'. destruct C' as [C'|C']; auto.
        pose proof (separated_tail_gt b t2 _ S2 W2 C). unfold inI in C'; lra.
Qed.

(** ** intersects *)

Lemma SS_back {A} (R : A -> A -> Prop) (l : list A) b :
  StronglySorted R l -> nth_error l (length l - 1) = Some b ->
  forall a, In a l -> a = b \/ R a b.
Proof.
  induction 1 as [|x t Hs IH Hf]; intros Hb a Ha; [contradiction|].
  destruct t as [|y t'].
  - simpl in Hb. injection Hb as <-. destruct Ha as [->|[]]; auto.
  - assert (Hb' : nth_error (y :: t') (length (y :: t') - 1) = Some b).
    { simpl length in *. replace (S (S (length t')) - 1)%nat with (S (length t')) in Hb by lia.
      simpl in Hb. replace (S (length t') - 1)%nat with (length t') by lia. exact Hb. }
    destruct Ha as [<-|Ha]; [|auto].
    right. rewrite Forall_forall in Hf. apply Hf. eapply nth_error_In; eauto.
Qed.

Lemma intersects_spec l : l <> [] -> Forall itv_num l ->
  (intersects srt l = Ok [] /\ forall x, ~ (forall i, In i l -> inI i x)) \/
  exists b, intersects srt l = Ok [b] /\ itv_wf b /\
    (forall x, inI b x <-> (forall i, In i l -> inI i x)) /\
    In (istart b) (map istart l) /\ In (iend b) (map iend l).
Proof.
  intros Hne H. unfold intersects. destruct l as [|a0 l0]; [congruence|].
  set (l := a0 :: l0) in *.
  assert (Hn : Forall (fun a => fisnan (istart a) = false) l).
  { eapply Forall_impl; [|exact H]. intros a [? ?]; auto. }
  destruct (sort_by_spec istart l Hn) as (c1 & -> & Hp1 & Hs1). simpl obind.
  assert (H1 : Forall itv_num c1) by (eapply Forall_perm; eauto).
  assert (Hl1 : (0 < length c1)%nat). { rewrite <- (Permutation_length Hp1). unfold l; simpl; lia. }
  unfold back_. destruct (idx_lt c1 (length c1 - 1)) as [b Eb]; [lia|]. rewrite Eb. simpl obind.
  apply idx_Ok in Eb.
  assert (Hn2 : Forall (fun a => fisnan (iend a) = false) c1).
  { eapply Forall_impl; [|exact H1]. intros a [? ?]; auto. }
  destruct (sort_by_spec iend c1 Hn2) as (c2 & -> & Hp2 & Hs2). simpl obind.
  unfold front_. destruct (idx_lt c2 0) as [f Ef].
  { rewrite <- (Permutation_length Hp2); lia. }
  rewrite Ef. simpl obind. apply idx_Ok in Ef.
  assert (Hb_in : In b l). { eapply Permutation_in; [symmetry; exact Hp1|]. eapply nth_error_In; eauto. }
  assert (Hf_in : In f l).
  { eapply Permutation_in; [symmetry; exact (Permutation_trans Hp1 Hp2)|]. eapply nth_error_In; eauto. }
  assert (Hmax : forall a, In a l -> fval (istart a) <= fval (istart b)).
  { intros a Ha. destruct (SS_back _ c1 b Hs1 Eb a) as [->|]; auto; try lra.
    eapply Permutation_in; eauto. }
  assert (Hmin : forall a, In a l -> fval (iend f) <= fval (iend a)).
  { intros a Ha. destruct c2 as [|f' c2']; [discriminate|]. simpl in Ef. injection Ef as ->.
    assert (Ha' : In a (f :: c2')).
    { eapply Permutation_in; [exact (Permutation_trans Hp1 Hp2)|]; auto. }
    destruct Ha' as [->|Ha']; [lra|]. inversion Hs2 as [|? ? ? Hf]; subst.
    rewrite Forall_forall in Hf. auto. }
  rewrite Forall_forall in H. destruct (H _ Hb_in) as [B1 B2]. destruct (H _ Hf_in) as [F1 F2].
  simpl. destruct (fltb (iend f) (istart b)) eqn:E.
  - left. split; [reflexivity|]. apply fltb_val in E; auto. intros x Hx.
    pose proof (Hx _ Hb_in) as X1. pose proof (Hx _ Hf_in) as X2. unfold inI in *. lra.
  - right. apply fltb_val_false in E; auto. exists (Itv (istart b) (iend f)).
    split; [reflexivity|]. split; [split; [split|]; simpl; auto|]. split; [|split; [exact (in_map istart l b Hb_in)|exact (in_map iend l f Hf_in)]].
    intros x. unfold inI at 1; simpl. split.
    + intros Hx i Hi. unfold inI. specialize (Hmax i Hi). specialize (Hmin i Hi). lra.
    + intros Hx. pose proof (Hx _ Hb_in) as X1. pose proof (Hx _ Hf_in) as X2. unfold inI in *. lra.
Qed.

(** ** complements *)

Lemma clip_all_spec o comp : itv_num o -> Forall itv_num comp ->
  exists r, clip_all srt o comp = Ok r /\ Forall itv_wf r /\
    (forall x, covers r x <-> inI o x /\ covers comp x) /\
    (forall i, In i r -> fval (istart o) <= fval (istart i) /\ fval (iend i) <= fval (iend o)).
Proof.
  intros Ho. induction comp as [|c t IH]; intros Hc; cbn [clip_all].
  - exists []. split; [reflexivity|]. split; [constructor|]. split; [|intros i []].
    intros x; split; intros X; [exfalso; eapply covers_nil; eauto|exfalso; destruct X; eapply covers_nil; eauto].
  - inversion Hc as [|? ? Hc1 Hc2]; subst. destruct (IH Hc2) as (r & -> & W & C & B).
    destruct (intersects_spec [c; o]) as [[-> Hno]|(b & -> & Wb & Hb & _ & _)].
    + discriminate.
    + repeat constructor; destruct Hc1, Ho; auto.
    + simpl. exists r. split; [reflexivity|]. split; [auto|]. split; [|auto]. intros x. rewrite C, covers_cons.
      split; [tauto|]. intros [Hx [Hcx|Hcx]]; [|tauto]. exfalso. apply (Hno x).
      intros i [<-|[<-|[]]]; auto.
    + simpl. exists (b :: r). split; [reflexivity|]. split; [auto|]. split.
      * intros x. rewrite !covers_cons, C, Hb. split.
        -- intros [Hx|Hx]; [split; [|left]; apply Hx; simpl; auto|tauto].
        -- intros [Hx [Hcx|Hcx]]; [left|tauto]. intros i [<-|[<-|[]]]; auto.
      * intros i [<-|Hi]; [|auto]. destruct Wb as [_ Wb].
        assert (X1 : inI b (fval (istart b))) by (unfold inI; lra).
        assert (X2 : inI b (fval (iend b))) by (unfold inI; lra).
        rewrite Hb in X1, X2. specialize (X1 o). specialize (X2 o). unfold inI in X1, X2; simpl in X1, X2.
        destruct X1; auto. destruct X2; auto.
Qed.

Lemma gaps_num cur rest : itv_num cur -> Forall itv_num rest -> Forall itv_num (gaps cur rest).
Proof.
  revert cur; induction rest as [|n t IH]; intros cur Hc Hr; simpl.
  - constructor; [|constructor]. destruct Hc; split; simpl; auto.
  - inversion Hr; subst. constructor; [|auto]. destruct Hc. destruct H1. split; simpl; auto.
Qed.

(** completeness: points not strictly inside any inner interval survive *)
Lemma gaps_complete rest : forall cur x, srt_itv (cur :: rest) ->
  fval (istart cur) < x -> x <= fval fdblmax ->
  (forall i, In i (cur :: rest) -> ~ insideI i x) ->
  covers (gaps cur rest) x.
Proof.
  induction rest as [|n t IH]; intros cur x Hs Hlt Hx Hno; simpl.
  - apply covers_cons. left. unfold inI; simpl.
    assert (Hc : ~ insideI cur x) by (apply Hno; simpl; auto).
    destruct (Rle_or_lt (fval (iend cur)) x); [lra|exfalso; apply Hc; split; lra].
  - apply covers_cons. inversion Hs as [|? ? Hs' Hf]; subst.
    destruct (Rle_or_lt x (fval (istart n))) as [L|L].
    + left. unfold inI; simpl. assert (Hc : ~ insideI cur x) by (apply Hno; simpl; auto).
      destruct (Rle_or_lt (fval (iend cur)) x); [lra|exfalso; apply Hc; split; lra].
    + right. apply IH; auto. intros i Hi. apply Hno. simpl; tauto.
Qed.

(** soundness for non-overlapping sorted lists *)
Lemma FOP_perm (l l' : list itv) : Permutation l l' -> pairwise_apart l -> pairwise_apart l'.
Proof.
  unfold pairwise_apart.
  induction 1 as [|x l l' Hp IH|x y l|l l' l'' H1 IH1 H2 IH2]; auto.
  - intros H. inversion H as [|? ? Hx Hl]; subst. constructor; auto. eapply Forall_perm; eauto.
  - intros H. inversion H as [|? ? Hx Hl]; subst. inversion Hl as [|? ? Hy Hl']; subst.
    inversion Hx as [|? ? Hxy Hx']; subst.
    constructor; [constructor; auto|constructor; auto].
    destruct Hxy; [right|left]; auto.
Qed.

Lemma sorted_apart_left l : srt_itv l -> pairwise_apart l -> ForallOrdPairs left_of l.
Proof.
  induction 1 as [|a t Hs IH Hf]; intros Hp; constructor; inversion Hp as [|? ? Ha Ht]; subst; auto.
  rewrite Forall_forall in *. intros b Hb. specialize (Hf b Hb). destruct (Ha b Hb) as [|[Hl _]]; auto. lra.
Qed.

Lemma gaps_sound rest : forall cur x, Forall itv_wf (cur :: rest) ->
  ForallOrdPairs left_of (cur :: rest) -> covers (gaps cur rest) x ->
  forall i, In i (cur :: rest) -> ~ insideI i x.
Proof.
  induction rest as [|n t IH]; intros cur x Hw Hl Hc i Hi Hin; simpl in Hc.
  - apply covers_cons in Hc. destruct Hc as [Hc|Hc]; [|eapply covers_nil; eauto].
    destruct Hi as [<-|[]]. unfold inI in Hc; unfold insideI in Hin; simpl in Hc. lra.
  - inversion Hl as [|? ? Hl1 Hl2]; subst. inversion Hw as [|? ? Hw1 Hw2]; subst.
    apply covers_cons in Hc. destruct Hc as [Hc|Hc].
    + unfold inI in Hc; simpl in Hc. unfold insideI in Hin. destruct Hi as [<-|[<-|Hi]]; try lra.
      inversion Hl2 as [|? ? Hl3 _]; subst. rewrite Forall_forall in Hl3.
      destruct (Hl3 i Hi) as [? ?]. lra.
    + destruct Hi as [<-|Hi]; [|eapply IH; eauto].
      assert (Hge : fval (iend n) <= x).
      { clear - Hc Hl2 Hw2. revert n Hl2 Hw2 Hc. induction t as [|m t IH]; intros n Hl Hw Hc; simpl in Hc.
        - apply covers_cons in Hc. destruct Hc as [Hc|Hc]; [unfold inI in Hc; simpl in Hc; lra|].
          exfalso; eapply covers_nil; eauto.
        - apply covers_cons in Hc. destruct Hc as [Hc|Hc]; [unfold inI in Hc; simpl in Hc; lra|].
          inversion Hl as [|? ? Hl1 Hl2]; subst. inversion Hw as [|? ? Hw1 Hw2]; subst.
          specialize (IH m Hl2 Hw2 Hc). inversion Hl1 as [|? ? [? ?] _]; subst.
          inversion Hw2 as [|? ? [_ ?] _]; subst. lra. }
      rewrite Forall_forall in Hl1. destruct (Hl1 n) as [? ?]; [simpl; auto|].
      inversion Hw2 as [|? ? [_ ?] _]; subst. unfold insideI in Hin. lra.
Qed.

Lemma inner_sorted inner : inner <> [] -> Forall itv_num inner ->
  exists i0 rest, sort_by srt istart inner = Ok (i0 :: rest) /\
    Permutation inner (i0 :: rest) /\ srt_itv (i0 :: rest).
Proof.
  intros Hne H.
  assert (Hn : Forall (fun a => fisnan (istart a) = false) inner).
  { eapply Forall_impl; [|exact H]. intros a [? ?]; auto. }
  destruct (sort_by_spec istart inner Hn) as (c & -> & Hp & Hs).
  destruct c as [|i0 rest]; [|eauto].
  apply Permutation_length in Hp. destruct inner; [congruence|discriminate].
Qed.

Lemma fneg_max_num : fisnan (fneg fdblmax) = false.
Proof. unfold fneg. destruct (fdblmax) eqn:E; try reflexivity. Local Transparent fdblmax. discriminate. Qed.
Lemma fval_neg_max : fval (fneg fdblmax) = - fval fdblmax.
Proof.
  Local Transparent fval fdblmax.
  rewrite !fval_finite by reflexivity. unfold fneg. apply BinarySingleNaN.B2R_Bopp.
Qed.
Local Opaque fval fdblmax.

Lemma complements_complete o os inner : itv_num o -> inner <> [] -> Forall itv_num inner ->
  exists r, complements srt (o :: os) inner = Ok r /\ Forall itv_wf r /\
    (forall x, covers r x -> inI o x) /\
    (forall x, in_double_range x -> inI o x -> (forall i, In i inner -> ~ insideI i x) -> covers r x).
Proof.
  intros Ho Hne H. destruct (inner_sorted inner Hne H) as (i0 & rest & E & Hp & Hs).
  unfold complements. destruct inner as [|j0 js]; [congruence|]. rewrite E. cbn [obind].
  assert (H' : Forall itv_num (i0 :: rest)) by (eapply Forall_perm; eauto).
  inversion H' as [|? ? H0 Hr]; subst.
  destruct (clip_all_spec o (Itv (fneg fdblmax) (istart i0) :: gaps i0 rest)) as (r & -> & W & C & _).
  - auto.
  - constructor; [split; simpl; [apply fneg_max_num|apply H0]|apply gaps_num; auto].
  - exists r. split; [reflexivity|]. split; [auto|]. split; [intros x Hx; apply C; auto|].
    intros x [R1 R2] Hox Hno. apply C. split; [auto|]. apply covers_cons.
    destruct (Rle_or_lt x (fval (istart i0))).
    + left. unfold inI; simpl. rewrite fval_neg_max. lra.
    + right. apply gaps_complete; auto. intros i Hi. apply Hno.
      eapply Permutation_in; [symmetry; exact Hp|auto].
Qed.

Lemma complements_exact o os inner : itv_num o -> inner <> [] -> Forall itv_wf inner ->
  pairwise_apart inner ->
  exists r, complements srt (o :: os) inner = Ok r /\ Forall itv_wf r /\ increasing r /\
    (forall x, covers r x -> inI o x) /\
    (forall x, in_double_range x ->
       (covers r x <-> inI o x /\ (forall i, In i inner -> ~ insideI i x))) /\
    (forall x i, covers r x -> In i inner -> ~ insideI i x).
Proof.
  intros Ho Hne H Hap.
  assert (Hnum : Forall itv_num inner). { eapply Forall_impl; [|exact H]. intros a [? ?]; auto. }
  destruct (inner_sorted inner Hne Hnum) as (i0 & rest & E & Hp & Hs).
  assert (Hw' : Forall itv_wf (i0 :: rest)) by (eapply Forall_perm; eauto).
  assert (H' : Forall itv_num (i0 :: rest)) by (eapply Forall_perm; eauto).
  assert (Hleft : ForallOrdPairs left_of (i0 :: rest)).
  { apply sorted_apart_left; auto. eapply FOP_perm; eauto. }
  inversion H' as [|? ? H0 Hr]; subst.
  set (comp := Itv (fneg fdblmax) (istart i0) :: gaps i0 rest).
  assert (Hcn : Forall itv_num comp).
  { constructor; [split; simpl; [apply fneg_max_num|apply H0]|apply gaps_num; auto]. }
  assert (Hsound : forall x, covers comp x -> forall i, In i inner -> ~ insideI i x).
  { intros x Hc i Hi. assert (Hi' : In i (i0 :: rest)) by (eapply Permutation_in; eauto).
    apply covers_cons in Hc. destruct Hc as [Hc|Hc]; [|eapply gaps_sound; eauto].
    unfold inI in Hc; simpl in Hc. intros Hin; unfold insideI in Hin.
    inversion Hleft as [|? ? Hl _]; subst. rewrite Forall_forall in Hl.
    destruct Hi' as [<-|Hi']; [lra|]. destruct (Hl i Hi') as [? ?]. lra. }
  assert (Hcl : exists r, clip_all srt o comp = Ok r /\ Forall itv_wf r /\
      (forall x, covers r x <-> inI o x /\ covers comp x) /\ increasing r).
  { assert (Hord : forall c l, Forall itv_num (c :: l) ->
        ForallOrdPairs (fun a b => fval (iend a) <= fval (istart b)) (c :: l) -> 
        exists r, clip_all srt o (c :: l) = Ok r /\ Forall itv_wf r /\
        (forall x, covers r x <-> inI o x /\ covers (c :: l) x) /\ increasing r /\
        (forall y, (forall b, In b (c :: l) -> y <= fval (istart b)) -> forall b, In b r -> y <= fval (istart b))).
    { clear - srt_ok Ho. intros c l. revert c. induction l as [|d l IH]; intros c Hn Hf.
      - destruct (clip_all_spec o [c] Ho Hn) as (r & Er & W & C & B). exists r. split; [auto|]. split; [auto|]. split; [auto|].
        cbn [clip_all] in Er. destruct (intersects_spec [c; o]) as [[E _]|(b & E & Wb & Hb & Hi1 & Hi2)]; [discriminate| | |].
        + inversion Hn as [|? ? [? ?] _]; subst. repeat constructor; auto; apply Ho.
        + rewrite E in Er. simpl in Er. injection Er as <-. split; [constructor|]. intros y _ b [].
        + rewrite E in Er. simpl in Er. injection Er as <-. split; [constructor|].
          intros y Hy b' [<-|[]]. simpl in Hi1. destruct Wb as [_ Wb].
          assert (X : inI b (fval (istart b))) by (unfold inI; lra). rewrite Hb in X.
          specialize (X c (or_introl eq_refl)). unfold inI in X.
          specialize (Hy c (or_introl eq_refl)). lra.
      - inversion Hn as [|? ? Hc Hn']; subst. inversion Hf as [|? ? Hf1 Hf2]; subst.
        destruct (IH d Hn' Hf2) as (r & Er & W & C & I & B).
        change (clip_all srt o (c :: d :: l)) with
          (obind (intersects srt [c; o]) (fun isec => obind (clip_all srt o (d :: l))
             (fun rest => match isec with [] => Ok rest | i :: _ => Ok (i :: rest) end))).
        rewrite Er.
        destruct (intersects_spec [c; o]) as [[E Hno]|(b & E & Wb & Hb & Hi1 & Hi2)]; [discriminate| | |].
        + destruct Hc. repeat constructor; auto; apply Ho.
        + rewrite E. simpl. exists r. split; [auto|]. split; [auto|]. split; [|split; [auto|]].
          * intros x. rewrite C. rewrite (covers_cons c). split; [tauto|].
            intros [Hx [Hcx|Hcx]]; [|tauto]. exfalso. apply (Hno x). intros i [<-|[<-|[]]]; auto.
          * intros y Hy. apply B. intros b Hb. apply Hy. right; auto.
        + rewrite E. simpl obind. exists (b :: r). split; [auto|]. split; [auto|].
          assert (Hbc : forall x, inI b x -> inI c x /\ inI o x).
          { intros x Hx. rewrite Hb in Hx. split; apply Hx; simpl; auto. }
          destruct Wb as [Wn Wb].
          split; [|split].
          * intros x. rewrite !(covers_cons), C. rewrite (covers_cons d). rewrite Hb. split.
            -- intros [Hx|Hx]; [split; [|left]; apply Hx; simpl; auto|tauto].
            -- intros [Hx [Hcx|Hcx]]; [left|tauto]. intros i [<-|[<-|[]]]; auto.
          * destruct r as [|b' r']; [exact Logic.I|]. split; [|exact I].
            assert (X : inI b (fval (iend b))) by (unfold inI; lra). apply Hbc in X. unfold inI in X.
            apply (B (fval (iend b))); [|left; auto].
            intros b0 Hb0. rewrite Forall_forall in Hf1. specialize (Hf1 _ Hb0). lra.
          * intros y Hy b0 [<-|Hb0].
            -- assert (X : inI b (fval (istart b))) by (unfold inI; lra). apply Hbc in X. unfold inI in X.
               specialize (Hy c (or_introl eq_refl)). lra.
            -- apply B; auto. intros b1 Hb1. apply Hy. right; auto. }
    destruct (Hord (Itv (fneg fdblmax) (istart i0)) (gaps i0 rest)) as (r & ? & ? & ? & ? & _); auto.
    - constructor.
      + simpl. clear - Hleft Hw'. assert (G : forall rest cur lo, Forall itv_wf (cur :: rest) ->
          ForallOrdPairs left_of (cur :: rest) -> lo <= fval (istart cur) ->
          Forall (fun b => lo <= fval (istart b)) (gaps cur rest)).
        { induction rest0 as [|n t IH]; intros cur lo Hw Hl Hlo; simpl.
          - constructor; [|constructor]. simpl. inversion Hw as [|? ? [_ ?] _]; subst. lra.
          - inversion Hw as [|? ? [_ ?] Hw2]; subst. inversion Hl as [|? ? Hl1 Hl2]; subst.
            constructor; [simpl; lra|]. apply IH; auto.
            inversion Hl1 as [|? ? [? ?] _]; subst. lra. }
        apply G; auto; lra.
      + clear - Hleft Hw'. revert i0 Hleft Hw'. induction rest as [|n t IH]; intros cur Hl Hw; simpl.
        * constructor; constructor.
        * inversion Hw as [|? ? Hw1 Hw2]; subst. inversion Hl as [|? ? Hl1 Hl2]; subst.
          constructor; [|auto]. simpl.
          assert (G : forall t n lo, Forall itv_wf (n :: t) ->
            ForallOrdPairs left_of (n :: t) -> lo <= fval (iend n) ->
            Forall (fun b => lo <= fval (istart b)) (gaps n t)).
          { clear. induction t as [|m t IH]; intros n lo Hw Hl Hlo; simpl.
            - constructor; [|constructor]. simpl. lra.
            - inversion Hw as [|? ? _ Hw']; subst. inversion Hl as [|? ? Hl1 Hl2]; subst.
              constructor; [simpl; lra|]. apply IH; auto.
              inversion Hl1 as [|? ? [? ?] _]; subst. inversion Hw' as [|? ? [_ ?] _]; subst. lra. }
          apply G; auto. inversion Hw2 as [|? ? [_ ?] _]; subst. lra.
    - exists r; auto. }
  destruct Hcl as (r & Er & W & C & I).
  destruct (complements_complete o os inner Ho Hne Hnum) as (r' & Er' & _ & Hsub & Hcomp).
  assert (r' = r).
  { unfold complements in Er'. destruct inner as [|j0 js]; [congruence|]. rewrite E in Er'. cbn [obind] in Er'.
    fold comp in Er'. congruence. }
  subst r'. exists r. split; [auto|]. split; [auto|]. split; [auto|]. split; [auto|]. split.
  - intros x Hx. split.
    + intros Hc. split; [auto|]. apply C in Hc. intros i Hi. apply Hsound; tauto.
    + intros [? ?]. apply Hcomp; auto.
  - intros x i Hc. apply Hsound. apply C in Hc; tauto.
Qed.

Lemma complements_first o os1 os2 inner : inner <> [] ->
  complements srt (o :: os1) inner = complements srt (o :: os2) inner.
Proof. destruct inner; [congruence|reflexivity]. Qed.

Lemma separated_apart l : Forall itv_wf l -> separated l -> pairwise_apart l.
Proof.
  induction l as [|a t IH]; intros Hw Hs; constructor.
  - apply Forall_forall. intros b Hb. left.
    assert (Hc : covers t (fval (istart b))).
    { exists b. split; auto. inversion Hw as [|? ? _ Hw']; subst. rewrite Forall_forall in Hw'.
      destruct (Hw' b Hb) as [_ ?]. unfold inI; lra. }
    pose proof (separated_tail_gt a t _ Hs Hw Hc). inversion Hw as [|? ? [_ ?] _]; subst.
    unfold left_of; lra.
  - apply IH; [inversion Hw; auto|]. destruct t; simpl in *; tauto.
Qed.
End Proofs.

(** ** the executable sort conforms *)
Lemma insert_perm {A} (lt : A -> A -> bool) x l : Permutation (x :: l) (insert lt x l).
Proof.
  induction l as [|y t IH]; simpl; auto. destruct (lt x y); auto.
  eapply perm_trans; [apply perm_swap|]. constructor; auto.
Qed.
Lemma isort_perm_gen {A} (lt : A -> A -> bool) l : forall acc,
  Permutation (acc ++ l) (fold_left (fun acc x => insert lt x acc) l acc).
Proof.
  induction l as [|x t IH]; intros acc; simpl.
  - rewrite app_nil_r; auto.
  - eapply perm_trans; [|apply IH]. apply perm_trans with (x :: acc ++ t).
    + symmetry; apply Permutation_middle.
    + apply (Permutation_app_tail t (insert_perm lt x acc)).
Qed.
Lemma insert_sorted {A} (lt : A -> A -> bool) (L : list A) x l :
  swo_on lt L -> In x L -> (forall a, In a l -> In a L) ->
  StronglySorted (fun a b => lt b a = false) l ->
  StronglySorted (fun a b => lt b a = false) (insert lt x l).
Proof.
  intros (Irr & Tr & Inc) Hx. induction l as [|y t IH]; intros Hin Hs; simpl.
  - repeat constructor.
  - inversion Hs as [|? ? Hs' Hf]; subst.
    assert (asym : forall a b, In a L -> In b L -> lt a b = true -> lt b a = false).
    { intros a b Ha Hb Hab. destruct (lt b a) eqn:E; auto.
      rewrite <- (Irr a Ha). symmetry. eapply (Tr a b a); eauto. }
    destruct (lt x y) eqn:E.
    + constructor; auto. constructor.
      * apply asym; auto. apply Hin; simpl; auto.
      * rewrite Forall_forall in *. intros b Hb. specialize (Hf b Hb).
        destruct (lt b x) eqn:Ebx; auto. rewrite <- Hf. symmetry.
        apply (Tr b x y); auto; apply Hin; simpl; auto.
    + constructor.
      * apply IH; auto. intros a Ha; apply Hin; simpl; auto.
      * rewrite Forall_forall in *. intros b Hb.
        apply (Permutation_in b (Permutation_sym (insert_perm lt x t))) in Hb.
        destruct Hb as [<-|Hb]; auto.
Qed.
Lemma isort_sorted_gen {A} (lt : A -> A -> bool) (L : list A) l : swo_on lt L ->
  forall acc, (forall a, In a acc -> In a L) -> (forall a, In a l -> In a L) ->
  StronglySorted (fun a b => lt b a = false) acc ->
  StronglySorted (fun a b => lt b a = false) (fold_left (fun acc x => insert lt x acc) l acc).
Proof.
  intros HL. induction l as [|x t IH]; intros acc Ha Hl Hs; simpl; auto.
  apply IH.
  - intros a Hin. apply (Permutation_in a (Permutation_sym (insert_perm lt x acc))) in Hin.
    destruct Hin as [<-|Hin]; auto. apply Hl; simpl; auto.
  - intros a Hin; apply Hl; simpl; auto.
  - apply insert_sorted with (L := L); auto. apply Hl; simpl; auto.
Qed.
Lemma isort_conforming : conforming isort.
Proof.
  intros A lt l HL. split.
  - apply (isort_perm_gen lt l []).
  - apply isort_sorted_gen with (L := l); auto; [intros a []|constructor].
Qed.

(** ** distinct keys: every conforming sort gives the same list *)
Lemma sorted_perm_unique {A} (key : A -> f64) (l1 l2 : list A) :
  Permutation l1 l2 ->
  ForallOrdPairs (fun a b => fval (key a) <> fval (key b)) l1 ->
  StronglySorted (fun a b => fval (key a) <= fval (key b)) l1 ->
  StronglySorted (fun a b => fval (key a) <= fval (key b)) l2 -> l1 = l2.
Proof.
  revert l2; induction l1 as [|a t IH]; intros l2 Hp Hd S1 S2.
  - symmetry. apply Permutation_nil; auto.
  - destruct l2 as [|b t2]; [apply Permutation_sym, Permutation_nil in Hp; discriminate|].
    inversion Hd as [|? ? Hd1 Hd2]; subst. inversion S1 as [|? ? S1' F1]; subst.
    inversion S2 as [|? ? S2' F2]; subst. rewrite Forall_forall in *.
    assert (a = b).
    { assert (Hb : In b (a :: t)) by (eapply Permutation_in; [symmetry; exact Hp|simpl; auto]).
      assert (Ha : In a (b :: t2)) by (eapply Permutation_in; [exact Hp|simpl; auto]).
      destruct Hb as [|Hb]; auto. destruct Ha as [|Ha]; auto.
      exfalso. apply (Hd1 b Hb). specialize (F1 b Hb). specialize (F2 a Ha). lra. }
    subst b. f_equal. apply IH; auto. eapply Permutation_cons_inv; eauto.
Qed.

Lemma FOP_distinct_perm {A} (key : A -> f64) (l l' : list A) : Permutation l l' ->
  ForallOrdPairs (fun a b => fval (key a) <> fval (key b)) l ->
  ForallOrdPairs (fun a b => fval (key a) <> fval (key b)) l'.
Proof.
  induction 1 as [|x l l' Hp IH|x y l|l l' l'' H1 IH1 H2 IH2]; auto.
  - intros H. inversion H as [|? ? Hx Hl]; subst. constructor; auto. eapply Forall_perm; eauto.
  - intros H. inversion H as [|? ? Hx Hl]; subst. inversion Hl as [|? ? Hy Hl']; subst.
    inversion Hx as [|? ? Hxy Hx']; subst. constructor; [constructor; auto|constructor; auto].
Qed.

Lemma sort_by_unique {A} (s1 s2 : sort_fn) (key : A -> f64) l :
  conforming s1 -> conforming s2 ->
  Forall (fun a => fisnan (key a) = false) l ->
  ForallOrdPairs (fun a b => fval (key a) <> fval (key b)) l ->
  sort_by s1 key l = sort_by s2 key l.
Proof.
  intros C1 C2 Hn Hd.
  destruct (sort_by_spec s1 C1 key l Hn) as (l1 & -> & P1 & S1).
  destruct (sort_by_spec s2 C2 key l Hn) as (l2 & -> & P2 & S2).
  f_equal. apply (sorted_perm_unique key); auto.
  - eapply Permutation_trans; [apply Permutation_sym; exact P1|exact P2].
  - eapply FOP_distinct_perm; eauto.
Qed.

(** boolean checkers used in examples *)
Definition itv_wfb (i : itv) : bool :=
  negb (fisnan (istart i)) && negb (fisnan (iend i)) && fleb (istart i) (iend i).
Lemma itv_wfb_ok i : itv_wfb i = true -> itv_wf i.
Proof.
  unfold itv_wfb; rewrite !andb_true_iff, !negb_true_iff. intros [[H1 H2] H3].
  split; [split; auto|]. apply fleb_val in H3; auto.
Qed.
Lemma itvs_wfb_ok l : forallb itv_wfb l = true -> Forall itv_wf l.
Proof.
  rewrite forallb_forall, Forall_forall. intros H i Hi. apply itv_wfb_ok; auto.
Qed.
Definition key_distinctb (a b : f64) : bool := fltb a b || fltb b a.
Lemma key_distinctb_ok a b : key_distinctb a b = true -> fval a <> fval b.
Proof.
  unfold key_distinctb. intros H.
  destruct (fisnan a) eqn:Ea. { rewrite fltb_nan_l, fltb_nan_r in H by auto; discriminate. }
  destruct (fisnan b) eqn:Eb. { rewrite fltb_nan_r, fltb_nan_l in H by auto; discriminate. }
  apply orb_true_iff in H. destruct H as [H|H]; apply fltb_val in H; auto; lra.
Qed.

