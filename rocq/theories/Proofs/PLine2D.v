From Coq Require Import List Bool Reals Lra Lia ZArith Arith.
From Verif.Base Require Import Outcome Float64 FloatFacts.
From Verif.Model Require Import MScalar MLine2D.
From Verif.Spec Require Import SLine2D.
Import ListNotations.
Local Open Scope R_scope.

Lemma Rltb_true x y : Rltb x y = true <-> x < y.
Proof. unfold Rltb; destruct Rlt_dec; split; intros; auto; discriminate. Qed.
Lemma Rleb_true x y : Rleb x y = true <-> x <= y.
Proof. unfold Rleb; destruct Rle_dec; split; intros; auto; discriminate. Qed.
Lemma Rltb_false x y : Rltb x y = false <-> y <= x.
Proof. unfold Rltb; destruct Rlt_dec; split; intros; auto; try discriminate; lra. Qed.
Lemma Rleb_false x y : Rleb x y = false <-> y < x.
Proof. unfold Rleb; destruct Rle_dec; split; intros; auto; try discriminate; lra. Qed.

(** edges *)
Lemma edges_lift P : edges (S := XR) (lift_poly P) =
  map (fun e => (lift_pt (fst e), lift_pt (snd e))) (match P with [] => [] | h :: t => combine P (t ++ [h]) end).
Proof.
  assert (G : forall l1 l2, combine (map lift_pt l1) (map lift_pt l2) = map (fun e => (lift_pt (fst e), lift_pt (snd e))) (combine l1 l2)).
  { induction l1; intros [|y l2]; simpl; auto. f_equal; auto. }
  unfold lift_poly. destruct P as [|h t]; [reflexivity|]. rewrite <- G. rewrite map_app. reflexivity.
Qed.

Definition redges (P : list rpoint) : list (rpoint * rpoint) :=
  match P with [] => [] | h :: t => combine P (t ++ [h]) end.

Lemma combine_nth_in {A B} (l1 : list A) : forall (l2 : list B) a b, In (a, b) (combine l1 l2) <->
  exists i, nth_error l1 i = Some a /\ nth_error l2 i = Some b.
Proof.
  induction l1 as [|x l1 IH]; intros l2 a b.
  - simpl. split; [tauto|]. intros (i & H & _). destruct i; discriminate.
  - destruct l2 as [|y l2]; simpl.
    + split; [tauto|]. intros (i & _ & H). destruct i; discriminate.
    + rewrite IH. split.
      * intros [[= -> ->]|(i & H1 & H2)]; [exists 0%nat; auto|exists (S i); auto].
      * intros ([|i] & H1 & H2); simpl in *; [left; congruence|right; eauto].
Qed.

Lemma last_nth {A} (l : list A) d : l <> [] -> nth_error l (length l - 1) = Some (last l d).
Proof.
  intros H. induction l as [|x l IH]; [congruence|]. destruct l as [|y l]; [reflexivity|].
  specialize (IH ltac:(discriminate)). simpl length in *. simpl last.
  replace (S (S (length l)) - 1)%nat with (S (S (length l) - 1))%nat by lia. simpl nth_error at 1. exact IH.
Qed.

Lemma redges_is_edge P a b : In (a, b) (redges P) <-> is_edge P a b.
Proof.
  unfold redges, is_edge. destruct P as [|h t].
  - simpl. split; [tauto|]. intros [([|i] & H & _)|(l & H & _)]; discriminate.
  - rewrite combine_nth_in. split.
    + intros (i & H1 & H2). destruct (Nat.lt_ge_cases i (length t)) as [Hi|Hi].
      * left. exists i. split; auto. simpl. rewrite nth_error_app1 in H2 by auto. exact H2.
      * right. rewrite nth_error_app2 in H2 by auto.
        assert (Hi' : (i <= length t)%nat).
        { assert (X : nth_error (h :: t) i <> None) by congruence. apply nth_error_Some in X. simpl in X. lia. }
        replace (i - length t)%nat with 0%nat in H2 by lia. simpl in H2. injection H2 as <-.
        exists t. split; auto. pose proof (last_nth (h :: t) h ltac:(discriminate)) as L.
        simpl length in L. replace (S (length t) - 1)%nat with i in L by lia. congruence.
    + intros [(i & H1 & H2)|(l & [= -> ->] & H)].
      * exists i. split; auto. simpl in H2. rewrite nth_error_app1; auto.
        apply nth_error_Some. congruence.
      * exists (length l). pose proof (last_nth (b :: l) b ltac:(discriminate)) as L.
        replace (length (b :: l) - 1)%nat with (length l) in L by (simpl; lia). split; [congruence|].
        rewrite nth_error_app2 by lia. rewrite Nat.sub_diag. reflexivity.
Qed.

(** one edge *)
Lemma sfmin_XR a b : sfmin XR (Some a) (Some b) = Some (Rmin a b).
Proof. unfold sfmin; simpl. destruct (Rltb b a) eqn:E; f_equal.
  - apply Rltb_true in E. symmetry. apply Rmin_right; lra.
  - apply Rltb_false in E. symmetry. apply Rmin_left; lra. Qed.
Lemma sfmax_XR a b : sfmax XR (Some a) (Some b) = Some (Rmax a b).
Proof. unfold sfmax; simpl. destruct (Rltb a b) eqn:E; f_equal.
  - apply Rltb_true in E. symmetry. apply Rmax_right; lra.
  - apply Rltb_false in E. symmetry. apply Rmax_left; lra. Qed.

Lemma hline_edge_XR ty a b h :
  In h (hline_edge XR (Some ty) (lift_pt a, lift_pt b)) <->
  exists x, h = Some x /\ snd a <> snd b /\ on_segment a b (x, ty).
Proof.
  destruct a as [x1 y1], b as [x2 y2]. unfold hline_edge, lift_pt; cbn [fst snd].
  rewrite sfmin_XR, sfmax_XR. cbn [XR sleb xcmp ssub sdiv sadd smul sofZ xlift2 car].
  assert (Hrange : forall t, 0 <= t <= 1 -> Rmin y1 y2 <= t * y1 + (1 - t) * y2 <= Rmax y1 y2).
  { intros t Ht. unfold Rmin, Rmax. destruct (Rle_dec y1 y2); nra. }
  destruct (Req_dec y1 y2) as [E|E].
  - subst y2. split.
    + destruct (Rleb (Rmin y1 y1) ty && Rleb ty (Rmax y1 y1)); [|intros []].
      unfold xdiv. destruct (Req_EM_T (y1 - y1) 0); [simpl; tauto|lra].
    + intros (x & _ & H & _). simpl in H. congruence.
  - assert (Et : forall x, on_segment (x1, y1) (x2, y2) (x, ty) <->
        0 <= (ty - y2) / (y1 - y2) <= 1 /\ x = (ty - y2) / (y1 - y2) * x1 + (1 - (ty - y2) / (y1 - y2)) * x2).
    { intros x. unfold on_segment, along; cbn [fst snd]. split.
      - intros (t & Ht & Hx & Hy). assert (t = (ty - y2) / (y1 - y2)) by (rewrite Hy; field; lra).
        rewrite <- H. auto.
      - intros [Ht Hx]. exists ((ty - y2) / (y1 - y2)). split; [auto|]. split; [auto|]. field. lra. }
    split.
    + destruct (Rleb (Rmin y1 y2) ty && Rleb ty (Rmax y1 y2)) eqn:B; [|intros []].
      unfold xdiv. destruct (Req_EM_T (y1 - y2) 0); [lra|]. cbn [xlift2 xcmp].
      destruct (Rleb 0 ((ty - y2) / (y1 - y2)) && Rleb ((ty - y2) / (y1 - y2)) 1) eqn:B2; [|intros []].
      intros [<-|[]]. rewrite andb_true_iff, !Rleb_true in B2.
      eexists. split; [reflexivity|]. split; [auto|]. apply Et. auto.
    + intros (x & -> & _ & Hs). pose proof Hs as Hs'. apply Et in Hs'. destruct Hs' as [Ht ->].
      destruct Hs as (t & Ht' & _ & Hy). cbn [fst snd] in Hy. pose proof (Hrange t Ht') as Hr. rewrite <- Hy in Hr.
      replace (Rleb (Rmin y1 y2) ty && Rleb ty (Rmax y1 y2)) with true
        by (symmetry; rewrite andb_true_iff, !Rleb_true; lra).
      unfold xdiv. destruct (Req_EM_T (y1 - y2) 0); [lra|]. cbn [xlift2 xcmp].
      replace (Rleb 0 ((ty - y2) / (y1 - y2)) && Rleb ((ty - y2) / (y1 - y2)) 1) with true
        by (symmetry; rewrite andb_true_iff, !Rleb_true; lra).
      left. reflexivity.
Qed.

(** at most one hit per edge *)
Lemma hline_edge_len ty e : (length (hline_edge XR ty e) <= 1)%nat.
Proof.
  destruct e as [[x1 y1] [x2 y2]]. unfold hline_edge.
  destruct (sleb XR (sfmin XR y1 y2) ty && sleb XR ty (sfmax XR y1 y2)); [|simpl; lia].
  match goal with |- context [if ?c then _ else _] => destruct c end; simpl; lia.
Qed.

Lemma max_coeff_XR l : forall x, exists m, max_coeff XR (Some x) (map Some l) = Some m /\
  (forall y, In y (x :: l) -> y <= m).
Proof.
  induction l as [|y l IH]; intros x.
  - exists x. split; auto. intros y [<-|[]]. lra.
  - unfold max_coeff. cbn [map fold_left XR sltb xcmp car].
    destruct (Rltb x y) eqn:E; [apply Rltb_true in E|apply Rltb_false in E].
    + destruct (IH y) as (m & Hm & Hle). exists m. split; [exact Hm|].
      intros z [<-|[<-|Hz]]; [pose proof (Hle y (or_introl eq_refl)); lra|apply Hle; left; auto|apply Hle; right; auto].
    + destruct (IH x) as (m & Hm & Hle). exists m. split; [exact Hm|].
      intros z [<-|[<-|Hz]]; [apply Hle; left; auto|pose proof (Hle x (or_introl eq_refl)); lra|apply Hle; right; auto].
Qed.
Lemma min_coeff_XR l : forall x, exists m, min_coeff XR (Some x) (map Some l) = Some m /\
  (forall y, In y (x :: l) -> m <= y).
Proof.
  induction l as [|y l IH]; intros x.
  - exists x. split; auto. intros y [<-|[]]. lra.
  - unfold min_coeff. cbn [map fold_left XR sltb xcmp car].
    destruct (Rltb y x) eqn:E; [apply Rltb_true in E|apply Rltb_false in E].
    + destruct (IH y) as (m & Hm & Hle). exists m. split; [exact Hm|].
      intros z [<-|[<-|Hz]]; [pose proof (Hle y (or_introl eq_refl)); lra|apply Hle; left; auto|apply Hle; right; auto].
    + destruct (IH x) as (m & Hm & Hle). exists m. split; [exact Hm|].
      intros z [<-|[<-|Hz]]; [apply Hle; left; auto|pose proof (Hle x (or_introl eq_refl)); lra|apply Hle; right; auto].
Qed.

Lemma is_edge_in P a b : is_edge P a b -> In a P /\ In b P.
Proof.
  intros [(i & H1 & H2)|(l & -> & H)].
  - split; eapply nth_error_In; eauto.
  - split; [|left; auto]. subst a. pose proof (last_nth (b :: l) b ltac:(discriminate)) as L.
    eapply nth_error_In; exact L.
Qed.

Lemma hline_polygon_XR ty P : P <> [] -> exists r, hline_polygon XR (Some ty) (lift_poly P) = Ok r /\
  (forall h, In h r <-> exists x a b, h = Some x /\ is_edge P a b /\ snd a <> snd b /\ on_segment a b (x, ty)) /\
  (length r <= length P)%nat.
Proof.
  intros Hne. destruct P as [|p P]; [congruence|]. unfold hline_polygon.
  assert (Hm : map snd (lift_poly (p :: P)) = Some (snd p) :: map Some (map snd P)).
  { unfold lift_poly. simpl. f_equal. rewrite !map_map. reflexivity. }
  rewrite Hm.
  destruct (max_coeff_XR (map snd P) (snd p)) as (M & EM & HM).
  destruct (min_coeff_XR (map snd P) (snd p)) as (mm & Em & Hmm).
  rewrite EM, Em. cbn [XR sltb xcmp car].
  assert (Hin : forall a, In a (p :: P) -> In (snd a) (snd p :: map snd P)).
  { intros a [<-|Ha]; [left; auto|right; apply in_map; auto]. }
  destruct (Rltb M ty || Rltb ty mm) eqn:B.
  - exists []. split; [reflexivity|]. split; [|simpl; lia]. intros h. split; [intros []|].
    intros (x & a & b & _ & He & _ & (t & Ht & _ & Hy)). apply is_edge_in in He. destruct He as [Ha Hb].
    cbn [snd] in Hy. pose proof (HM _ (Hin a Ha)). pose proof (HM _ (Hin b Hb)).
    pose proof (Hmm _ (Hin a Ha)). pose proof (Hmm _ (Hin b Hb)).
    rewrite orb_true_iff, !Rltb_true in B.
    assert (t * snd a + (1 - t) * snd b <= M) by nra. assert (mm <= t * snd a + (1 - t) * snd b) by nra. lra.
  - eexists. split; [reflexivity|]. split.
    + intros h. rewrite in_flat_map. rewrite edges_lift. fold (redges (p :: P)). split.
      * intros (e & He & Hh). apply in_map_iff in He. destruct He as ([a b] & <- & He). cbn [fst snd] in Hh.
        apply hline_edge_XR in Hh. destruct Hh as (x & -> & Hn & Hs). exists x, a, b.
        apply redges_is_edge in He. auto.
      * intros (x & a & b & -> & He & Hn & Hs). exists (lift_pt a, lift_pt b). split.
        -- apply in_map_iff. exists (a, b). split; auto. apply redges_is_edge; auto.
        -- apply hline_edge_XR. eauto.
    + rewrite edges_lift. fold (redges (p :: P)).
      assert (Hl : length (redges (p :: P)) = length (p :: P)).
      { unfold redges. rewrite combine_length, app_length. simpl length. lia. }
      rewrite <- Hl. generalize (redges (p :: P)) as es. induction es as [|e es IH]; simpl; [lia|].
      rewrite app_length. pose proof (hline_edge_len (Some ty) (lift_pt (fst e), lift_pt (snd e))). simpl in *. lia.
Qed.

(** isIntersectSegPolygon2D *)
Section Seg.
Variable solve : car XR -> car XR -> car XR -> car XR -> car XR -> car XR -> car XR * car XR.
Hypothesis HS : solve_exact solve.

Lemma seg_edge_XR p q a b :
  seg_edge XR solve (lift_pt p) (lift_pt q) (lift_pt a, lift_pt b) = true <->
  transversal p q a b /\ exists x, in_open_segment p q x /\ in_open_segment a b x.
Proof.
  destruct p as [px py], q as [qx qy], a as [ax ay], b as [bx by_].
  unfold seg_edge, lift_pt, transversal; cbn [fst snd XR ssub sltb sofZ car xlift2].
  destruct (HS (qx - px) (ax - bx) (qy - py) (ay - by_) (ax - px) (ay - py)) as [H1 H2].
  destruct (Req_dec ((qx - px) * (ay - by_) - (ax - bx) * (qy - py)) 0) as [E|E].
  - split.
    + specialize (H2 E). cbn zeta in H2.
      destruct (solve (Some (qx - px)) (Some (ax - bx)) (Some (qy - py)) (Some (ay - by_)) (Some (ax - px)) (Some (ay - py)))
        as [s0 s1]. cbn [fst snd] in H2. rewrite !andb_true_iff. intros [[A _] [B _]].
      destruct H2 as [->| ->]; [cbn [xcmp] in A; apply Rltb_true in A; lra|cbn [xcmp] in B; apply Rltb_true in B; lra].
    + intros [H _]. lra.
  - destruct (H1 E) as (s & t & -> & Ex & Ey). cbn [xcmp]. rewrite !andb_true_iff, !Rltb_true.
    unfold in_open_segment, along; cbn [fst snd]. split.
    + intros [[A B] [C D]]. split; [auto|].
      exists (px + s * (qx - px), py + s * (qy - py)). cbn [fst snd]. split.
      * exists (1 - s). repeat split; lra.
      * exists (1 - t). repeat split; try lra; nra.
    + intros [_ ((x, y) & (s' & Hs' & X1 & Y1) & (t' & Ht' & X2 & Y2))]. cbn [fst snd] in *.
      (* uniqueness *)
      assert (Es : s = 1 - s').
      { assert (G1 : (qx - px) * (1 - s') + (ax - bx) * (1 - t') = ax - px) by lra.
        assert (G2 : (qy - py) * (1 - s') + (ay - by_) * (1 - t') = ay - py) by lra.
        assert (Z : ((qx - px) * (ay - by_) - (ax - bx) * (qy - py)) * (s - (1 - s')) = 0).
        { replace (((qx - px) * (ay - by_) - (ax - bx) * (qy - py)) * (s - (1 - s')))
            with ((ay - by_) * (((qx - px) * s + (ax - bx) * t) - ((qx - px) * (1 - s') + (ax - bx) * (1 - t')))
                 - (ax - bx) * (((qy - py) * s + (ay - by_) * t) - ((qy - py) * (1 - s') + (ay - by_) * (1 - t')))) by ring.
          rewrite Ex, Ey, G1, G2. ring. }
        apply Rmult_integral in Z. destruct Z; lra. }
      assert (Et : t = 1 - t').
      { assert (G1 : (qx - px) * (1 - s') + (ax - bx) * (1 - t') = ax - px) by lra.
        assert (G2 : (qy - py) * (1 - s') + (ay - by_) * (1 - t') = ay - py) by lra.
        assert (Z : ((qx - px) * (ay - by_) - (ax - bx) * (qy - py)) * (t - (1 - t')) = 0).
        { replace (((qx - px) * (ay - by_) - (ax - bx) * (qy - py)) * (t - (1 - t')))
            with ((qx - px) * (((qy - py) * s + (ay - by_) * t) - ((qy - py) * (1 - s') + (ay - by_) * (1 - t')))
                 - (qy - py) * (((qx - px) * s + (ax - bx) * t) - ((qx - px) * (1 - s') + (ax - bx) * (1 - t')))) by ring.
          rewrite Ex, Ey, G1, G2. ring. }
        apply Rmult_integral in Z. destruct Z; lra. }
      lra.
Qed.

Lemma seg_polygon_XR p q rp rq P : exists b, 
  seg_polygon XR solve (Some (fst p) :: Some (snd p) :: rp) (Some (fst q) :: Some (snd q) :: rq) (lift_poly P) = Ok b /\
  (b = true <-> exists a c, is_edge P a c /\ transversal p q a c /\
      exists x, in_open_segment p q x /\ in_open_segment a c x).
Proof.
  eexists. split; [reflexivity|]. rewrite existsb_exists. rewrite edges_lift. fold (redges P). split.
  - intros (e & He & H). apply in_map_iff in He. destruct He as ([a c] & <- & He).
    apply (seg_edge_XR p q a c) in H. exists a, c. rewrite <- redges_is_edge. auto.
  - intros (a & c & He & H). exists (lift_pt a, lift_pt c). split.
    + apply in_map_iff. exists (a, c). split; auto. apply redges_is_edge; auto.
    + apply (seg_edge_XR p q a c). exact H.
Qed.
End Seg.
