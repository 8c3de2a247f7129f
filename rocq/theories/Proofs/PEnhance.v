(** Segment enhancement (FreeSpace-inl.h:131-174): loop invariants and the
    "sorted triples stay in one segment" argument. *)
From Coq Require Import List Bool Sorted Permutation Reals Lra Lia ZArith.
From Verif.Base Require Import Outcome Float64 FloatFacts.
From Verif.Model Require Import MInterval MFreeSpace.
From Verif.Spec Require Import SInterval SFreeSpace.
From Verif.Proofs Require Import PInterval PFreeSpace.
Import ListNotations.
Local Open Scope R_scope.
Local Opaque fval fdblmax.

(** -- sorting reals -- *)
Fixpoint insR (x : R) (l : list R) : list R :=
  match l with
  | [] => [x]
  | y :: t => if Rle_dec x y then x :: l else y :: insR x t
  end.
Fixpoint sortR (l : list R) : list R :=
  match l with [] => [] | x :: t => insR x (sortR t) end.

Lemma insR_perm x l : Permutation (x :: l) (insR x l).
Proof.
  induction l as [|y t IH]; simpl; auto. destruct (Rle_dec x y); auto.
  rewrite perm_swap. constructor. auto.
Qed.
Lemma sortR_perm l : Permutation l (sortR l).
Proof. induction l; simpl; auto. rewrite <- insR_perm. constructor; auto. Qed.
Lemma insR_sorted x l : StronglySorted Rle l -> StronglySorted Rle (insR x l).
Proof.
  induction 1 as [|y t S IH F]; simpl; [repeat constructor|].
  destruct (Rle_dec x y).
  - constructor; [constructor; auto|]. constructor; auto.
    eapply Forall_impl; [|exact F]. intros; simpl in *; lra.
  - constructor; auto. eapply Forall_perm; [apply insR_perm|]. constructor; auto. lra.
Qed.
Lemma sortR_sorted l : StronglySorted Rle (sortR l).
Proof. induction l; simpl; [constructor|apply insR_sorted; auto]. Qed.

Lemma sortedR_unique l1 : forall l2, StronglySorted Rle l1 -> StronglySorted Rle l2 ->
  Permutation l1 l2 -> l1 = l2.
Proof.
  induction l1 as [|x t IH]; intros l2 S1 S2 P.
  - apply Permutation_nil in P. auto.
  - destruct l2 as [|y t2]; [symmetry in P; apply Permutation_nil in P; discriminate|].
    inversion S1 as [|? ? S1' F1]; subst. inversion S2 as [|? ? S2' F2]; subst.
    assert (x = y).
    { assert (Hx : In x (y :: t2)) by (eapply Permutation_in; [exact P|left; auto]).
      assert (Hy : In y (x :: t)) by (eapply Permutation_in; [symmetry; exact P|left; auto]).
      rewrite Forall_forall in F1, F2.
      destruct Hx as [Hx|Hx]; auto. destruct Hy as [Hy|Hy]; auto.
      apply F1 in Hy. apply F2 in Hx. lra. }
    subst y. f_equal. apply IH; auto. eapply Permutation_cons_inv; eauto.
Qed.

Lemma SS_app (l1 l2 : list R) : StronglySorted Rle l1 -> StronglySorted Rle l2 ->
  (forall a b, In a l1 -> In b l2 -> a <= b) -> StronglySorted Rle (l1 ++ l2).
Proof.
  induction 1 as [|x t S IH F]; simpl; intros S2 H; auto.
  constructor; [apply IH; auto|]. apply Forall_app. split; auto.
  apply Forall_forall. auto.
Qed.

(** -- blocks: one original segment with the points inserted into it -- *)
Inductive aligned (good : R -> R -> R -> Prop) : list R -> list R -> list R -> Prop :=
| al_nil : aligned good [] [] []
| al_cons a b c A B C : good a b c -> aligned good A B C ->
    aligned good (a :: A) (b :: B) (c :: C).

Lemma aligned_app good A B C A' B' C' : aligned good A B C -> aligned good A' B' C' ->
  aligned good (A ++ A') (B ++ B') (C ++ C').
Proof. induction 1; simpl; intros; auto. constructor; auto. Qed.
Lemma aligned_impl (g1 g2 : R -> R -> R -> Prop) A B C :
  (forall a b c, g1 a b c -> g2 a b c) -> aligned g1 A B C -> aligned g2 A B C.
Proof. induction 2; constructor; auto. Qed.
Lemma aligned_nth good A B C : aligned good A B C -> forall k a b c,
  nth_error A k = Some a -> nth_error B k = Some b -> nth_error C k = Some c -> good a b c.
Proof.
  induction 1; intros [|k]; simpl; try discriminate; intros; eauto.
  repeat match goal with H : Some _ = Some _ |- _ => injection H as <- end. auto.
Qed.

Lemma block_aligned l m u s : l <= m <= u -> StronglySorted Rle s ->
  (forall x, In x s -> l <= x <= u) ->
  aligned (fun a b c => a <= b <= c /\ l <= a /\ c <= u) (l :: s) (insR m s) (s ++ [u]).
Proof.
  revert l m. induction s as [|x t IH]; intros l m Hm S H.
  - simpl. constructor; [lra|constructor].
  - inversion S as [|? ? S' F]; subst. rewrite Forall_forall in F.
    pose proof (H x (or_introl eq_refl)) as Hx. simpl insR. destruct (Rle_dec m x).
    + simpl. constructor; [lra|].
      specialize (IH x x ltac:(lra) S').
      assert (Hin : insR x t = x :: t).
      { destruct t as [|y t']; auto. simpl. destruct (Rle_dec x y); auto. exfalso. apply n. apply F. left; auto. }
      rewrite Hin in IH. eapply aligned_impl; [|apply IH].
      * intros a b c; simpl; lra.
      * intros y Hy. split; [apply F; auto|apply H; right; auto].
    + simpl. constructor; [lra|].
      eapply aligned_impl; [|apply (IH x m ltac:(lra) S')].
      * intros a b c; simpl; lra.
      * intros y Hy. split; [apply F; auto|apply H; right; auto].
Qed.

Definition seg3 : Type := (R * R * R)%type.
Fixpoint incR (T : list seg3) : Prop :=
  match T with
  | (_, _, u) :: (((l', _, _) :: _) as t') => u <= l' /\ incR t'
  | _ => True
  end.
Definition okT (T : list seg3) : Prop := Forall (fun '(l, m, u) => l <= m <= u) T.
Definition p1 (t : seg3) : R := fst (fst t).
Definition p2 (t : seg3) : R := snd (fst t).
Definition p3 (t : seg3) : R := snd t.
Definition inT (T : list seg3) (a c : R) : Prop := exists t, In t T /\ p1 t <= a /\ c <= p3 t.

Lemma incR_head_le t T : okT (t :: T) -> incR (t :: T) -> forall t', In t' T -> p3 t <= p1 t'.
Proof.
  revert t. induction T as [|b T IH]; intros t O I t' H; [contradiction|].
  destruct t as [[l m] u], b as [[l2 m2] u2]. destruct I as [I1 I2].
  inversion O as [|? ? _ O']; subst. inversion O' as [|? ? Ob _]; subst.
  destruct H as [<-|H]; [exact I1|]. pose proof (IH _ O' I2 t' H). unfold p1, p3 in *; simpl in *. lra.
Qed.

Lemma blocks_exist T : forall Ps, okT T -> incR T ->
  Forall2 (fun t P => forall x, In x P -> p1 t <= x <= p3 t) T Ps ->
  exists L M U, StronglySorted Rle L /\ StronglySorted Rle M /\ StronglySorted Rle U /\
    Permutation L (map p1 T ++ concat Ps) /\ Permutation M (map p2 T ++ concat Ps) /\
    Permutation U (map p3 T ++ concat Ps) /\
    aligned (fun a b c => a <= b <= c /\ inT T a c) L M U.
Proof.
  induction T as [|t T IH]; intros Ps O I F; inversion F as [|? P ? Ps' HP F']; subst.
  - exists [], [], []. simpl. repeat split; try constructor.
  - inversion O as [|? ? Ot O']; subst.
    assert (I' : incR T) by (destruct t as [[? ?] ?]; destruct T as [|[[? ?] ?] ?]; simpl in *; tauto).
    destruct (IH Ps' O' I' F') as (L & M & U & SL & SM & SU & PL & PM & PU & Al).
    set (s := sortR P).
    assert (Ps_perm : Permutation P s) by apply sortR_perm.
    assert (Hs : forall x, In x s -> p1 t <= x <= p3 t).
    { intros x Hx. apply HP. eapply Permutation_in; [symmetry; exact Ps_perm|auto]. }
    assert (Ss : StronglySorted Rle s) by apply sortR_sorted.
    assert (Ht : p1 t <= p2 t <= p3 t) by (destruct t as [[? ?] ?]; exact Ot).
    pose proof (block_aligned _ _ _ s Ht Ss Hs) as Bl.
    (* every element of the tail lists is above p3 t *)
    assert (Hge : forall x, In x L \/ In x M \/ In x U -> p3 t <= x).
    { intros x Hx.
      assert (Hin : forall y (f : seg3 -> R), (forall t', In t' T -> p1 t' <= f t') ->
                In y (map f T ++ concat Ps') -> p3 t <= y).
      { intros y f Hf Hy. apply in_app_or in Hy. destruct Hy as [Hy|Hy].
        - apply in_map_iff in Hy. destruct Hy as (t' & <- & Ht'). pose proof (incR_head_le t T O I t' Ht').
          pose proof (Hf t' Ht'). lra.
        - apply in_concat in Hy. destruct Hy as (Q & HQ & Hy).
          clear - F' HQ Hy O I. 
          assert (exists t', In t' T /\ p1 t' <= y).
          { clear O I. induction F' as [|t' Q' T' Qs H F IH]; [contradiction|].
            destruct HQ as [->|HQ]; [exists t'; split; [left; auto|apply H; auto]|].
            destruct (IH HQ) as (t2 & ? & ?). exists t2; split; [right; auto|auto]. }
          destruct H as (t' & Ht' & Hle). pose proof (incR_head_le t T O I t' Ht'). lra. }
      assert (OT : forall t', In t' T -> p1 t' <= p2 t' <= p3 t').
      { intros [[? ?] ?] Ht'. unfold okT in O'. rewrite Forall_forall in O'. exact (O' _ Ht'). }
      destruct Hx as [Hx|[Hx|Hx]].
      - apply (Hin x p1); [intros; lra|]. eapply Permutation_in; eauto.
      - apply (Hin x p2); [intros t' Ht'; apply OT; auto|]. eapply Permutation_in; eauto.
      - apply (Hin x p3); [intros t' Ht'; pose proof (OT t' Ht'); lra|]. eapply Permutation_in; eauto. }
    exists ((p1 t :: s) ++ L), (insR (p2 t) s ++ M), ((s ++ [p3 t]) ++ U).
    split; [|split; [|split; [|split; [|split; [|split]]]]].
    + apply SS_app; auto.
      * constructor; auto. apply Forall_forall. intros x Hx; apply Hs; auto.
      * intros a b [<-|Ha] Hb; pose proof (Hge b (or_introl Hb)); [lra|pose proof (Hs a Ha); lra].
    + apply SS_app; auto.
      * apply insR_sorted; auto.
      * intros a b Ha Hb. pose proof (Hge b (or_intror (or_introl Hb))).
        eapply Permutation_in in Ha; [|symmetry; apply insR_perm].
        destruct Ha as [<-|Ha]; [lra|pose proof (Hs a Ha); lra].
    + apply SS_app; auto.
      * apply SS_app; auto; [repeat constructor|]. intros a b Ha [<-|[]]. apply Hs; auto.
      * intros a b Ha Hb. pose proof (Hge b (or_intror (or_intror Hb))).
        apply in_app_or in Ha. destruct Ha as [Ha|[<-|[]]]; [pose proof (Hs a Ha); lra|lra].
    + simpl. constructor. rewrite PL, <- Ps_perm.
      rewrite !app_assoc. apply Permutation_app_tail. apply Permutation_app_comm.
    + rewrite <- insR_perm. simpl. constructor. rewrite PM, <- Ps_perm.
      rewrite !app_assoc. apply Permutation_app_tail. apply Permutation_app_comm.
    + rewrite <- app_assoc. simpl. rewrite <- Permutation_middle. constructor. rewrite PU, <- Ps_perm.
      rewrite !app_assoc. apply Permutation_app_tail. apply Permutation_app_comm.
    + apply aligned_app.
      * eapply aligned_impl; [|exact Bl]. simpl. intros a b c (H1 & H2 & H3). split; auto.
        exists t. split; [left; auto|auto].
      * eapply aligned_impl; [|exact Al]. simpl. intros a b c (H1 & t' & H2 & H3). split; auto.
        exists t'. split; [right; auto|auto].
Qed.

(** Distribute the inserted points over the segments. *)
Lemma distribute T P : (forall x, In x P -> inT T x x) ->
  exists Ps, Forall2 (fun t Q => forall x, In x Q -> p1 t <= x <= p3 t) T Ps /\
    Permutation P (concat Ps).
Proof.
  induction P as [|x P IH]; intros H.
  - exists (map (fun _ => []) T). split.
    + clear. induction T; simpl; constructor; auto. simpl; tauto.
    + induction T; simpl; auto. apply IHT. simpl; tauto.
  - destruct IH as (Ps & F & Pm); [intros; apply H; right; auto|].
    destruct (H x (or_introl eq_refl)) as (t & Ht & Hx).
    assert (G : exists Ps', Forall2 (fun t Q => forall x, In x Q -> p1 t <= x <= p3 t) T Ps' /\
              Permutation (x :: concat Ps) (concat Ps')).
    { clear - F Ht Hx. induction F as [|t' Q T' Qs HQ F IH]; [contradiction|].
      destruct Ht as [->|Ht].
      - exists ((x :: Q) :: Qs). split; [|simpl; auto].
        constructor; auto. intros y [<-|Hy]; auto.
      - destruct (IH Ht) as (Ps' & F' & P'). exists (Q :: Ps'). split; [constructor; auto|].
        simpl. rewrite Permutation_middle. apply Permutation_app_head. exact P'. }
    destruct G as (Ps' & F' & P'). exists Ps'. split; auto. rewrite <- P'. constructor; auto.
Qed.

Lemma sorted_blocks T P L M U : okT T -> incR T -> (forall x, In x P -> inT T x x) ->
  StronglySorted Rle L -> StronglySorted Rle M -> StronglySorted Rle U ->
  Permutation L (map p1 T ++ P) -> Permutation M (map p2 T ++ P) -> Permutation U (map p3 T ++ P) ->
  aligned (fun a b c => a <= b <= c /\ inT T a c) L M U.
Proof.
  intros O I H SL SM SU PL PM PU.
  destruct (distribute T P H) as (Ps & F & PP).
  destruct (blocks_exist T Ps O I F) as (L' & M' & U' & SL' & SM' & SU' & PL' & PM' & PU' & Al).
  rewrite (sortedR_unique L L'), (sortedR_unique M M'), (sortedR_unique U U'); auto.
  - rewrite PU, PU'. apply Permutation_app_head; auto.
  - rewrite PM, PM'. apply Permutation_app_head; auto.
  - rewrite PL, PL'. apply Permutation_app_head; auto.
Qed.

(** Unsorted (last line): trivially aligned. *)
Lemma unsorted_blocks T P : okT T -> (forall x, In x P -> inT T x x) ->
  aligned (fun a b c => a <= b <= c /\ inT T a c) (map p1 T ++ P) (map p2 T ++ P) (map p3 T ++ P).
Proof.
  intros O H. apply aligned_app.
  - assert (G : forall T', (forall t, In t T' -> In t T) -> okT T' ->
       aligned (fun a b c => a <= b <= c /\ inT T a c) (map p1 T') (map p2 T') (map p3 T')).
    { induction T' as [|t T' IH]; simpl; intros Hi O'; [constructor|].
      inversion O' as [|? ? Ot O'']; subst.
      constructor; [|apply IH; auto]. split; [destruct t as [[? ?] ?]; exact Ot|].
      exists t. split; [auto|lra]. }
    apply G; auto.
  - clear O. induction P as [|x P IH]; [constructor|]. constructor.
    + split; [lra|]. apply H; left; auto.
    + apply IH. intros; apply H; right; auto.
Qed.

(** -- rows -- *)
Definition rowT (r : row) : list seg3 :=
  map (fun '(l, m, u) => (fval l, fval m, fval u)) (triples (rL r) (rM r) (rU r)).

Lemma triples_maps ls : forall ms us, length ls = length ms -> length us = length ms ->
  let T := map (fun '(l, m, u) => (fval l, fval m, fval u)) (triples ls ms us) in
  map p1 T = map fval ls /\ map p2 T = map fval ms /\ map p3 T = map fval us.
Proof.
  induction ls as [|l ls IH]; intros [|m ms] [|u us]; simpl; try discriminate; intros; auto.
  destruct (IH ms us) as (H1 & H2 & H3); auto. rewrite H1, H2, H3. auto.
Qed.

Lemma row_okT r : row_ok r -> okT (rowT r) /\ incR (rowT r) /\
  map p1 (rowT r) = map fval (rL r) /\ map p2 (rowT r) = map fval (rM r) /\ map p3 (rowT r) = map fval (rU r).
Proof.
  intros (H1 & H2 & H3 & H4). unfold rowT. split; [|split; [|apply triples_maps; auto]].
  - unfold okT. rewrite Forall_map. eapply Forall_impl; [|exact H3].
    intros [[l m] u] (_ & _ & _ & H). exact H.
  - clear H3. revert H4. generalize (triples (rL r) (rM r) (rU r)) as T.
    induction T as [|[[l m] u] T IH]; simpl; auto.
    destruct T as [|[[l' m'] u'] T]; [auto|]. intros [Ha Hb]; split; [exact Ha|exact (IH Hb)].
Qed.

Lemma triples_nth ls : forall ms us t, length ls = length ms -> length us = length ms ->
  In t (triples ls ms us) -> exists k, nth_error ls k = Some (fst (fst t)) /\
    nth_error ms k = Some (snd (fst t)) /\ nth_error us k = Some (snd t).
Proof.
  induction ls as [|l ls IH]; intros [|m ms] [|u us] t; simpl; try discriminate; try tauto.
  intros H1 H2 [<-|H].
  - exists 0%nat. auto.
  - destruct (IH ms us t) as (k & Hk); auto. exists (S k). auto.
Qed.

Lemma triples_nth_in ls : forall ms us k l m u,
  nth_error ls k = Some l -> nth_error ms k = Some m -> nth_error us k = Some u ->
  In (l, m, u) (triples ls ms us).
Proof.
  induction ls as [|l0 ls IH]; intros [|m0 ms] [|u0 us] [|k] l m u; simpl; try discriminate.
  - intros [= ->] [= ->] [= ->]. auto.
  - intros. right. eapply IH; eauto.
Qed.

Lemma row_ok_nth r k l m u : row_ok r -> nth_error (rL r) k = Some l -> nth_error (rM r) k = Some m ->
  nth_error (rU r) k = Some u -> triple_ok l m u.
Proof.
  intros (_ & _ & H & _) H1 H2 H3. rewrite Forall_forall in H.
  exact (H (l, m, u) (triples_nth_in _ _ _ _ _ _ _ H1 H2 H3)).
Qed.

Lemma in_segment_inT r p : row_ok r -> in_segment_of r p -> inT (rowT r) (fval p) (fval p).
Proof.
  intros Hr (k & l & u & Hl & Hu & _ & H1 & H2).
  assert (Hm : exists m, nth_error (rM r) k = Some m).
  { destruct (nth_error (rM r) k) eqn:E; eauto. exfalso. apply nth_error_None in E.
    destruct Hr as (Hlen & _). assert (nth_error (rL r) k <> None) by congruence. apply nth_error_Some in H. lia. }
  destruct Hm as [m Hm]. exists (fval l, fval m, fval u). split; [|simpl; auto].
  unfold rowT. apply in_map_iff. exists (l, m, u). split; auto. eapply triples_nth_in; eauto.
Qed.

(** A row extended by the points [P], all inside segments of the original row. *)
Definition ext (r0 : row) (P : list f64) (r : row) : Prop :=
  rL r = rL r0 ++ P /\ rU r = rU r0 ++ P /\ rM r = rM r0 ++ P /\ Forall (in_segment_of r0) P.

Lemma ext_refl r : ext r [] r.
Proof. unfold ext. rewrite !app_nil_r. auto. Qed.
Lemma ext_push r0 P r p : ext r0 P r -> in_segment_of r0 p -> ext r0 (P ++ [p]) (push_row r p).
Proof.
  intros (H1 & H2 & H3 & H4) H. unfold ext, push_row; simpl. rewrite H1, H2, H3, !app_assoc.
  repeat split; auto. apply Forall_app; auto.
Qed.
Lemma ext_nth r0 P r k : ext r0 P r -> row_ok r0 -> (k < length (rM r0))%nat ->
  exists l m u, nth_error (rL r) k = Some l /\ nth_error (rM r) k = Some m /\ nth_error (rU r) k = Some u /\
    nth_error (rL r0) k = Some l /\ nth_error (rM r0) k = Some m /\ nth_error (rU r0) k = Some u /\
    triple_ok l m u.
Proof.
  intros (H1 & H2 & H3 & _) Hr Hk. destruct (Hr) as (E1 & E2 & _).
  rewrite H1, H2, H3, !nth_error_app1 by lia.
  destruct (nth_error (rL r0) k) as [l|] eqn:El; [|apply nth_error_None in El; lia].
  destruct (nth_error (rM r0) k) as [m|] eqn:Em; [|apply nth_error_None in Em; lia].
  destruct (nth_error (rU r0) k) as [u|] eqn:Eu; [|apply nth_error_None in Eu; lia].
  exists l, m, u. repeat split; auto; apply (row_ok_nth r0 k l m u Hr El Em Eu).
Qed.

Lemma idx_nth {A} (l : list A) k a : nth_error l k = Some a -> idx l k = Ok a.
Proof. apply idx_Ok. Qed.

Lemma enhance_one_spec r0 P r j r0' P' r' j' :
  row_ok r0 -> row_ok r0' -> ext r0 P r -> ext r0' P' r' ->
  (j < length (rM r0))%nat -> (j' < length (rM r0'))%nat ->
  exists Q, exists r2, enhance_one r j r' j' = Ok r2 /\ ext r0 (P ++ Q) r2.
Proof.
  intros Hr Hr' E E' Hj Hj'.
  destruct (ext_nth _ _ _ _ E Hr Hj) as (l & m & u & Nl & Nm & Nu & Ol & Om & Ou & T1 & T2 & T3 & T4).
  destruct (ext_nth _ _ _ _ E' Hr' Hj') as (l' & m' & u' & Nl' & Nm' & Nu' & Ol' & Om' & Ou' & T1' & T2' & T3' & T4').
  unfold enhance_one. rewrite (idx_nth _ _ _ Nl'). cbn [obind].
  unfold right_half, and_then. rewrite (idx_nth _ _ _ Nm). cbn [obind].
  assert (Hskip : exists Q, exists r2, (if fltb u' m then
        obind (obind (idx (rL r) j) (fun l0 => Ok (fleb l0 u'))) (fun c2 => if c2 then Ok (push_row r u') else Ok r)
        else Ok r) = Ok r2 /\ ext r0 (P ++ Q) r2).
  { destruct (fltb u' m) eqn:E1; [|exists [], r; rewrite app_nil_r; auto].
    rewrite (idx_nth _ _ _ Nl). cbn [obind]. destruct (fleb l u') eqn:E2; [|exists [], r; rewrite app_nil_r; auto].
    exists [u'], (push_row r u'). split; auto. apply ext_push; auto.
    apply fltb_val in E1; auto. apply fleb_val in E2; auto.
    exists j, l, u. repeat split; auto; lra. }
  destruct (fltb m l') eqn:E1; cbn [obind].
  - rewrite (idx_nth _ _ _ Nu). cbn [obind]. destruct (fleb l' u) eqn:E2; cbn [obind].
    + exists [l'], (push_row r l'). split; auto. apply ext_push; auto.
      apply fltb_val in E1; auto. apply fleb_val in E2; auto.
      exists j, l, u. repeat split; auto; lra.
    + rewrite (idx_nth _ _ _ Nu'). cbn [obind]. unfold left_half, and_then.
      rewrite (idx_nth _ _ _ Nm). cbn [obind]. destruct (fltb u' m); exact Hskip.
  - rewrite (idx_nth _ _ _ Nu'). cbn [obind]. unfold left_half, and_then.
    rewrite (idx_nth _ _ _ Nm). cbn [obind]. destruct (fltb u' m); exact Hskip.
Qed.

Lemma enhance_pairs_spec r0 r0' : row_ok r0 -> row_ok r0' ->
  forall js P r P' r', ext r0 P r -> ext r0' P' r' ->
  (forall j, In j js -> (fst j < length (rM r0))%nat /\ (snd j < length (rM r0'))%nat) ->
  exists Q Q' s, ofold (fun s j => enhance_pair (fst s) (snd s) (fst j) (snd j)) js (r, r') = Ok s /\
    ext r0 (P ++ Q) (fst s) /\ ext r0' (P' ++ Q') (snd s).
Proof.
  intros Hr Hr'. induction js as [|j js IH]; intros P r P' r' E E' H.
  - exists [], [], (r, r'). rewrite !app_nil_r. auto.
  - destruct (H j (or_introl eq_refl)) as [H1 H2].
    destruct (enhance_one_spec r0 P r (fst j) r0' P' r' (snd j)) as (Q & r2 & Er & E2); auto.
    destruct (enhance_one_spec r0' P' r' (snd j) r0 (P ++ Q) r2 (fst j)) as (Q' & r2' & Er' & E2'); auto.
    destruct (IH (P ++ Q) r2 (P' ++ Q') r2') as (Q3 & Q3' & s & Es & X1 & X2); auto.
    { intros; apply H; right; auto. }
    exists (Q ++ Q3), (Q' ++ Q3'), s. rewrite !app_assoc. split; [|auto].
    cbn [ofold]. unfold enhance_pair at 1. cbn [fst snd]. rewrite Er. cbn [obind]. rewrite Er'. cbn [obind]. exact Es.
Qed.

Section Sort.
Variable srt : sort_fn.
Hypothesis srt_ok : conforming srt.

Lemma fsort_spec l : Forall (fun x => fisnan x = false) l ->
  exists l', fsort srt l = Ok l' /\ Permutation l l' /\ StronglySorted Rle (map fval l').
Proof.
  intros H. destruct (sort_by_spec srt srt_ok (fun x : f64 => x) l H) as (l' & E & P & S).
  exists l'. split; [exact E|]. split; [exact P|].
  assert (H' : Forall (fun x => fisnan x = false) l') by (eapply Forall_perm; eauto).
  clear - S H'. induction S as [|x t S IH F]; simpl; constructor.
  - apply IH. inversion H'; auto.
  - inversion H' as [|? ? Hx Ht]; subst. rewrite Forall_map. rewrite Forall_forall in *. intros y Hy.
    specialize (F y Hy). simpl in F. exact F.
Qed.

(** Result of a line: same number of entries, and every triple is ordered and
    inside one original segment. *)
Definition line_ok (r0 r : row) : Prop :=
  length (rL r) = length (rM r) /\ length (rU r) = length (rM r) /\
  (forall k l m u, nth_error (rL r) k = Some l -> nth_error (rM r) k = Some m -> nth_error (rU r) k = Some u ->
     triple_ok l m u /\ exists k0 l0 u0, nth_error (rL r0) k0 = Some l0 /\ nth_error (rU r0) k0 = Some u0 /\
        fval l0 <= fval l /\ fval u <= fval u0) /\
  (exists P, Permutation (rM r) (rM r0 ++ P) /\ Forall (in_segment_of r0) P).

Lemma row_ok_nums r : row_ok r -> Forall (fun x => fisnan x = false) (rL r) /\
  Forall (fun x => fisnan x = false) (rM r) /\ Forall (fun x => fisnan x = false) (rU r).
Proof.
  intros Hr. pose proof Hr as (H1 & H2 & _).
  assert (G : forall k, (k < length (rM r))%nat -> exists l m u, nth_error (rL r) k = Some l /\
     nth_error (rM r) k = Some m /\ nth_error (rU r) k = Some u /\ triple_ok l m u).
  { intros k Hk. destruct (ext_nth r [] r k (ext_refl r) Hr Hk) as (l & m & u & ? & ? & ? & _ & _ & _ & ?).
    exists l, m, u; auto. }
  repeat split; apply Forall_forall; intros x Hx; apply In_nth_error in Hx; destruct Hx as [k Hk];
    assert (Hlt : (k < length (rM r))%nat) by
      (match goal with H : nth_error ?l k = Some _ |- _ => assert (X : nth_error l k <> None) by congruence; apply nth_error_Some in X; lia end);
    destruct (G k Hlt) as (l & m & u & N1 & N2 & N3 & T1 & T2 & T3 & _); congruence.
Qed.

Lemma aligned_line r0 r : row_ok r0 ->
  length (rL r) = length (rM r) -> length (rU r) = length (rM r) ->
  Forall (fun x => fisnan x = false) (rL r) -> Forall (fun x => fisnan x = false) (rM r) ->
  Forall (fun x => fisnan x = false) (rU r) ->
  aligned (fun a b c => a <= b <= c /\ inT (rowT r0) a c) (map fval (rL r)) (map fval (rM r)) (map fval (rU r)) ->
  forall k l m u, nth_error (rL r) k = Some l -> nth_error (rM r) k = Some m -> nth_error (rU r) k = Some u ->
     triple_ok l m u /\ exists k0 l0 u0, nth_error (rL r0) k0 = Some l0 /\ nth_error (rU r0) k0 = Some u0 /\
        fval l0 <= fval l /\ fval u <= fval u0.
Proof.
  intros Hr _ _ NL NM NU Al k l m u Hl Hm Hu.
  destruct (aligned_nth _ _ _ _ Al k (fval l) (fval m) (fval u)) as (H1 & t & Ht & H2 & H3);
    try (apply map_nth_error; auto).
  split.
  - apply nth_error_In in Hl, Hm, Hu. rewrite Forall_forall in NL, NM, NU. repeat split; auto; lra.
  - unfold rowT in Ht. apply in_map_iff in Ht. destruct Ht as ([[l0 m0] u0] & <- & Ht).
    destruct Hr as (E1 & E2 & _).
    destruct (triples_nth _ _ _ _ E1 E2 Ht) as (k0 & N1 & _ & N3). simpl in *.
    exists k0, l0, u0. auto.
Qed.

Lemma ext_nums r0 P r : row_ok r0 -> ext r0 P r -> Forall (fun x => fisnan x = false) (rL r) /\
  Forall (fun x => fisnan x = false) (rM r) /\ Forall (fun x => fisnan x = false) (rU r).
Proof.
  intros Hr (H1 & H2 & H3 & H4). destruct (row_ok_nums r0 Hr) as (N1 & N2 & N3).
  assert (NP : Forall (fun x => fisnan x = false) P).
  { eapply Forall_impl; [|exact H4]. intros p (k & l & u & _ & _ & Hn & _). exact Hn. }
  rewrite H1, H2, H3. repeat split; apply Forall_app; auto.
Qed.

Lemma ext_in_inT r0 P : row_ok r0 -> Forall (in_segment_of r0) P ->
  forall x, In x (map fval P) -> inT (rowT r0) x x.
Proof.
  intros Hr H x Hx. apply in_map_iff in Hx. destruct Hx as (p & <- & Hp).
  rewrite Forall_forall in H. apply in_segment_inT; auto.
Qed.

Lemma line_ok_unsorted r0 P r : row_ok r0 -> ext r0 P r -> line_ok r0 r.
Proof.
  intros Hr E. destruct (ext_nums r0 P r Hr E) as (N1 & N2 & N3).
  destruct E as (H1 & H2 & H3 & H4). pose proof Hr as (E1 & E2 & _).
  assert (L1 : length (rL r) = length (rM r)) by (rewrite H1, H3, !app_length; lia).
  assert (L2 : length (rU r) = length (rM r)) by (rewrite H2, H3, !app_length; lia).
  split; [auto|]. split; [auto|]. split.
  - apply (aligned_line r0 r); auto.
    destruct (row_okT r0 Hr) as (O & I & M1 & M2 & M3).
    rewrite H1, H2, H3, !map_app, <- M1, <- M2, <- M3. apply unsorted_blocks; auto.
    apply ext_in_inT; auto.
  - exists P. split; auto. rewrite H3; auto.
Qed.

Lemma sort_row_spec r0 P r : row_ok r0 -> ext r0 P r ->
  exists r', sort_row srt r = Ok r' /\ line_ok r0 r' /\
    StronglySorted Rle (map fval (rL r')) /\ StronglySorted Rle (map fval (rM r')) /\
    StronglySorted Rle (map fval (rU r')).
Proof.
  intros Hr E. destruct (ext_nums r0 P r Hr E) as (N1 & N2 & N3).
  destruct E as (H1 & H2 & H3 & H4). pose proof Hr as (E1 & E2 & _).
  assert (L1 : length (rL r) = length (rM r)) by (rewrite H1, H3, !app_length; lia).
  assert (L2 : length (rU r) = length (rM r)) by (rewrite H2, H3, !app_length; lia).
  destruct (fsort_spec (rL r) N1) as (l & El & Pl & Sl).
  destruct (fsort_spec (rU r) N3) as (u & Eu & Pu & Su).
  destruct (fsort_spec (rM r) N2) as (m & Em & Pm & Sm).
  exists (Row l u m). unfold sort_row. rewrite El. cbn [obind]. rewrite Eu. cbn [obind]. rewrite Em. cbn [obind].
  split; [reflexivity|]. split; [|cbn [rL rM rU]; auto].
  unfold line_ok; cbn [rL rM rU].
  pose proof (Permutation_length Pl). pose proof (Permutation_length Pu). pose proof (Permutation_length Pm).
  split; [lia|]. split; [lia|]. split.
  - apply (aligned_line r0 (Row l u m)); cbn [rL rM rU]; auto; try lia;
      try (eapply Forall_perm; eauto; fail).
    destruct (row_okT r0 Hr) as (O & I & M1 & M2 & M3).
    apply (sorted_blocks (rowT r0) (map fval P)); auto.
    + apply ext_in_inT; auto.
    + rewrite M1, <- map_app, <- H1. apply Permutation_map. symmetry; auto.
    + rewrite M2, <- map_app, <- H3. apply Permutation_map. symmetry; auto.
    + rewrite M3, <- map_app, <- H2. apply Permutation_map. symmetry; auto.
  - exists P. split; auto. rewrite <- H3. symmetry; auto.
Qed.

Lemma pairs_bound n1 n2 j : In j (pairs n1 n2) -> (fst j < n1)%nat /\ (snd j < n2)%nat.
Proof.
  unfold pairs. destruct j as [a b]. intros H. apply in_prod_iff in H. rewrite !in_seq in H. simpl; lia.
Qed.

Lemma enhance_rows_spec rest : forall r0 P r, row_ok r0 -> Forall row_ok rest -> ext r0 P r ->
  exists out, enhance_rows srt r (length (rM r0)) rest = Ok out /\ Forall2 line_ok (r0 :: rest) out.
Proof.
  induction rest as [|rn rest IH]; intros r0 P r Hr Hrest E.
  - exists [r]. split; [reflexivity|]. constructor; [|constructor]. eapply line_ok_unsorted; eauto.
  - inversion Hrest as [|? ? Hrn Hrest']; subst. cbn [enhance_rows].
    destruct (enhance_pairs_spec r0 rn Hr Hrn (pairs (length (rM r0)) (length (rM rn))) P r [] rn E (ext_refl rn))
      as (Q & Q' & s & Es & X1 & X2).
    { intros j Hj. apply pairs_bound; auto. }
    unfold enhance_line. rewrite Es. cbn [obind].
    destruct (sort_row_spec r0 (P ++ Q) (fst s) Hr X1) as (r' & Er' & Lr' & _).
    rewrite Er'. cbn [obind snd fst].
    destruct (IH rn ([] ++ Q') (snd s) Hrn Hrest' X2) as (out & Eo & Fo).
    rewrite Eo. cbn [obind]. exists (r' :: out). split; [reflexivity|]. constructor; auto.
Qed.

Lemma enhance_spec r rest : Forall row_ok (r :: rest) ->
  exists out, enhance srt (r :: rest) = Ok out /\ Forall2 line_ok (r :: rest) out.
Proof.
  intros H. inversion H; subst. unfold enhance. eapply enhance_rows_spec; eauto. apply ext_refl.
Qed.
End Sort.
