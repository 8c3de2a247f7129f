From Coq Require Import List Bool Arith Lia ZArith.
From Verif.Base Require Import Outcome Float64.
From Verif.Model Require Import MScalar MDistance MFreeSpace MGraph.
From Verif.Spec Require Import SGraph.
Import ListNotations.

(** ---- generic ---- *)
Lemma nth_error_app_old {A} (l r : list A) k x : nth_error l k = Some x -> nth_error (l ++ r) k = Some x.
Proof. intros H. rewrite nth_error_app1; auto. apply nth_error_Some. congruence. Qed.
Lemma nth_error_lt {A} (l : list A) n x : nth_error l n = Some x -> n < length l.
Proof. intros H. apply nth_error_Some. congruence. Qed.

Lemma ofold_inv {A S} (f : S -> A -> outcome S) (I : S -> Prop) l : forall s s',
  I s -> (forall a s s', In a l -> I s -> f s a = Ok s' -> I s') -> ofold f l s = Ok s' -> I s'.
Proof.
  induction l as [|a l IH]; intros s s' Hs Hf E; simpl in E.
  - injection E as <-; auto.
  - apply obind_Ok in E. destruct E as (s1 & E1 & E). eapply IH; [| |exact E].
    + eapply Hf; eauto. left; auto.
    + intros; eapply Hf; eauto. right; auto.
Qed.

(** Invariant with the list of processed elements. *)
Lemma ofold_inv_prefix {A S} (f : S -> A -> outcome S) (I : list A -> S -> Prop) l : forall done s s',
  I done s -> (forall done a s s', In a l -> I done s -> f s a = Ok s' -> I (done ++ [a]) s') ->
  ofold f l s = Ok s' -> I (done ++ l) s'.
Proof.
  induction l as [|a l IH]; intros done s s' Hs Hf E; simpl in E.
  - injection E as <-. rewrite app_nil_r. auto.
  - apply obind_Ok in E. destruct E as (s1 & E1 & E).
    replace (done ++ a :: l) with ((done ++ [a]) ++ l) by (rewrite <- app_assoc; reflexivity).
    eapply IH; [| |exact E].
    + eapply Hf; eauto. left; auto.
    + intros; eapply Hf; eauto. right; auto.
Qed.

(** ---- graph growth ---- *)
Lemma extends_refl g : extends g g.
Proof. split; [|split]; exists []; rewrite app_nil_r; auto. Qed.
Lemma extends_trans g1 g2 g3 : extends g1 g2 -> extends g2 g3 -> extends g1 g3.
Proof.
  intros ((a & A) & (b & B) & (c & C)) ((a' & A') & (b' & B') & (c' & C')).
  split; [|split]; [exists (a ++ a')|exists (b ++ b')|exists (c ++ c')]; rewrite app_assoc; congruence.
Qed.
Lemma extends_vert g g' k v : extends g g' -> nth_error (gvert g) k = Some v -> nth_error (gvert g') k = Some v.
Proof. intros ((vs & ->) & _) H. apply nth_error_app_old; auto. Qed.
Lemma extends_vlen g g' : extends g g' -> length (gvert g) <= length (gvert g').
Proof. intros ((vs & ->) & _). rewrite app_length. lia. Qed.
Lemma extends_elen g g' : extends g g' -> length (gedge g) <= length (gedge g').
Proof. intros (_ & (vs & ->) & _). rewrite app_length. lia. Qed.
Lemma extends_edge g g' k e : extends g g' -> nth_error (gedge g) k = Some e -> nth_error (gedge g') k = Some e.
Proof. intros (_ & (vs & ->) & _) H. apply nth_error_app_old; auto. Qed.
Lemma extends_edge_inv g g' k : extends g g' -> k < length (gedge g) -> nth_error (gedge g') k = nth_error (gedge g) k.
Proof. intros (_ & (vs & ->) & _) H. apply nth_error_app1; auto. Qed.

(** Joint growth judgement. *)
Definition grew (J : nat -> nat -> pose -> pose -> Prop) (g g' : graph) : Prop :=
  extends g g' /\ (well_formed g -> well_formed g') /\ new_edges g g' J.

Lemma grew_refl J g : grew J g g.
Proof.
  split; [apply extends_refl|]. split; [auto|]. intros k a b Hk H. apply nth_error_lt in H. lia.
Qed.
Lemma grew_trans J g1 g2 g3 : grew J g1 g2 -> grew J g2 g3 -> grew J g1 g3.
Proof.
  intros (E1 & W1 & N1) (E2 & W2 & N2). split; [eapply extends_trans; eauto|]. split; [auto|].
  intros k a b Hk H. destruct (le_lt_dec (length (gedge g2)) k) as [L|L].
  - eapply N2; eauto.
  - rewrite (extends_edge_inv _ _ _ E2 L) in H. destruct (N1 k a b Hk H) as (v1 & v2 & H1 & H2 & HJ).
    exists v1, v2. eauto using extends_vert.
Qed.
Lemma grew_weaken (J J' : nat -> nat -> pose -> pose -> Prop) g g' :
  (forall a b v1 v2, J a b v1 v2 -> J' a b v1 v2) -> grew J g g' -> grew J' g g'.
Proof.
  intros HJ (E & W & N). split; [auto|]. split; [auto|]. intros k a b Hk H.
  destruct (N k a b Hk H) as (v1 & v2 & ? & ? & ?). exists v1, v2; auto.
Qed.

Lemma wf_vertex g vs : well_formed g -> well_formed (Graph (gvert g ++ vs) (gedge g) (gweight g)).
Proof.
  intros [L H]. split; [exact L|]. cbn. intros k a b Hk. destruct (H k a b Hk) as (v1 & v2 & w & ? & ? & ? & ?).
  exists v1, v2, w. (split; [|split; [|split]]); auto; apply nth_error_app_old; auto.
Qed.

Lemma snoc_nth {A} (l : list A) x k y : nth_error (l ++ [x]) k = Some y ->
  nth_error l k = Some y \/ (k = length l /\ y = x).
Proof.
  intros H. destruct (Nat.lt_ge_cases k (length l)) as [L|L].
  - left. rewrite nth_error_app1 in H; auto.
  - right. rewrite nth_error_app2 in H by lia. destruct (k - length l) eqn:E; simpl in H.
    + injection H as ->. split; [lia|auto].
    + destruct n; discriminate.
Qed.
Lemma nth_snoc {A} (l : list A) x : nth_error (l ++ [x]) (length l) = Some x.
Proof. rewrite nth_error_app2 by lia. rewrite Nat.sub_diag. reflexivity. Qed.

Lemma grew_edge (J : nat -> nat -> pose -> pose -> Prop) g a b v1 v2 w :
  nth_error (gvert g) a = Some v1 -> nth_error (gvert g) b = Some v2 -> vec_euclid F64 v1 v2 = Ok w ->
  J a b v1 v2 -> grew J g (Graph (gvert g) (gedge g ++ [(a, b)]) (gweight g ++ [w])).
Proof.
  intros H1 H2 Hw HJ. split; [|split].
  - split; [|split]; cbn; eauto. exists []; rewrite app_nil_r; auto.
  - intros [L H]. split; cbn; [rewrite !app_length; simpl; lia|]. intros k x y Hk.
    apply snoc_nth in Hk. destruct Hk as [Hk|[-> [= -> ->]]].
    + destruct (H k x y Hk) as (u1 & u2 & w' & ? & ? & ? & ?). exists u1, u2, w'. (split; [|split; [|split]]); auto; apply nth_error_app_old; auto.
    + exists v1, v2, w. rewrite <- L, nth_snoc. auto.
  - intros k x y Hk H. cbn in *. apply snoc_nth in H. destruct H as [H|[-> [= -> ->]]].
    + apply nth_error_lt in H. lia.
    + exists v1, v2; auto.
Qed.

Lemma add_edge_inv g a b g' : add_edge a b g = Ok g' ->
  exists v1 v2 w, nth_error (gvert g) a = Some v1 /\ nth_error (gvert g) b = Some v2 /\
    vec_euclid F64 v1 v2 = Ok w /\ g' = Graph (gvert g) (gedge g ++ [(a, b)]) (gweight g ++ [w]).
Proof.
  unfold add_edge. intros E. apply obind_Ok in E. destruct E as (v1 & E1 & E).
  apply obind_Ok in E. destruct E as (v2 & E2 & E). apply obind_Ok in E. destruct E as (w & E3 & E).
  injection E as <-. apply idx_Ok in E1, E2. exists v1, v2, w. auto.
Qed.

Lemma grew_push g v J : grew J g (push_vertex v g).
Proof.
  split; [|split].
  - split; [|split]; cbn; eauto; exists []; rewrite app_nil_r; auto.
  - apply wf_vertex.
  - intros k a b Hk H. cbn in H. apply nth_error_lt in H. lia.
Qed.

(** ---- bridge ---- *)
Lemma oand_true c1 c2 : oand c1 c2 = Ok true -> c1 = Ok true /\ c2 = Ok true.
Proof. unfold oand. intros H. apply obind_Ok in H. destruct H as ([] & -> & H); [auto|discriminate]. Qed.

Lemma bridge_inv free i1 i2 g g' : bridge free i1 i2 g = Ok g' ->
  g' = g \/ exists v1 v2 v w1 w2, nth_error (gvert g) i1 = Some v1 /\ nth_error (gvert g) i2 = Some v2 /\
    free v1 v = Ok true /\ free v v2 = Ok true /\ vec_euclid F64 v1 v = Ok w1 /\ vec_euclid F64 v v2 = Ok w2 /\
    g' = Graph (gvert g ++ [v]) (gedge g ++ [(i1, length (gvert g)); (length (gvert g), i2)]) (gweight g ++ [w1; w2]).
Proof.
  unfold bridge. intros E.
  apply obind_Ok in E; destruct E as (v1 & E1 & E). apply obind_Ok in E; destruct E as (v2 & E2 & E).
  apply obind_Ok in E; destruct E as (c2 & _ & E). apply obind_Ok in E; destruct E as (n1 & _ & E).
  apply obind_Ok in E; destruct E as (c1 & _ & E). apply obind_Ok in E; destruct E as (n2 & _ & E).
  apply obind_Ok in E; destruct E as (b1 & B1 & E). apply obind_Ok in E; destruct E as (vn & Vn & E).
  apply at_Ok in E1, E2.
  assert (V : match vn with None => True | Some v => free v1 v = Ok true /\ free v v2 = Ok true end).
  { destruct b1.
    - injection Vn as <-. apply oand_true in B1. auto.
    - apply obind_Ok in Vn. destruct Vn as ([] & B2 & Vn); injection Vn as <-; auto. apply oand_true in B2. auto. }
  destruct vn as [v|]; [|injection E as <-; auto].
  apply obind_Ok in E; destruct E as (w1 & W1 & E). apply obind_Ok in E; destruct E as (w2 & W2 & E).
  injection E as <-. right. exists v1, v2, v, w1, w2. tauto.
Qed.

(** Checked edges: the pair asked for, or one with a vertex that [N] vertices did
    not contain (a bridge vertex). *)
Definition J_free (free : pose -> pose -> outcome bool) (N a0 b0 : nat) : nat -> nat -> pose -> pose -> Prop :=
  fun a b v1 v2 => free v1 v2 = Ok true /\ ((a = a0 /\ b = b0) \/ N <= a \/ N <= b).

Lemma bridge_grew free N i1 i2 g g' : N <= length (gvert g) ->
  bridge free i1 i2 g = Ok g' -> grew (J_free free N i1 i2) g g'.
Proof.
  intros HN E. apply bridge_inv in E.
  destruct E as [->|(v1 & v2 & v & w1 & w2 & H1 & H2 & F1 & F2 & W1 & W2 & ->)]; [apply grew_refl|].
  set (J := J_free free N i1 i2).
  set (g1 := push_vertex v g). assert (G1 : grew J g g1) by apply grew_push.
  assert (G2 : grew J g1 (Graph (gvert g1) (gedge g1 ++ [(i1, length (gvert g))]) (gweight g1 ++ [w1]))).
  { apply grew_edge with v1 v; auto; unfold g1; cbn; [apply nth_error_app_old; auto|apply nth_snoc|].
    split; [auto|right; right; auto]. }
  set (g2 := Graph (gvert g1) (gedge g1 ++ [(i1, length (gvert g))]) (gweight g1 ++ [w1])) in *.
  assert (G3 : grew J g2 (Graph (gvert g2) (gedge g2 ++ [(length (gvert g), i2)]) (gweight g2 ++ [w2]))).
  { apply grew_edge with v v2; auto; unfold g2, g1; cbn; [apply nth_snoc|apply nth_error_app_old; auto|].
    split; [auto|right; left; auto]. }
  pose proof (grew_trans _ _ _ _ (grew_trans _ _ _ _ G1 G2) G3) as G. unfold g2, g1 in G; cbn in G.
  rewrite <- !app_assoc in G. exact G.
Qed.

Lemma try_edge_grew free N a b g g' : N <= length (gvert g) ->
  try_edge free a b g = Ok g' -> grew (J_free free N a b) g g'.
Proof.
  unfold try_edge. intros HN E. apply obind_Ok in E; destruct E as (v1 & E1 & E).
  apply obind_Ok in E; destruct E as (v2 & E2 & E). apply obind_Ok in E; destruct E as ([] & F & E).
  - apply add_edge_inv in E. destruct E as (u1 & u2 & w & H1 & H2 & W & ->). apply idx_Ok in E1, E2.
    rewrite H1 in E1. rewrite H2 in E2. injection E1 as ->. injection E2 as ->.
    apply grew_edge with v1 v2; auto. split; auto.
  - eapply bridge_grew; eauto.
Qed.

(** ---- connect2d ---- *)
Definition J2d (free : pose -> pose -> outcome bool) (N : nat) (plane : list nat) (seg : freeseg)
  : nat -> nat -> pose -> pose -> Prop := fun a b v1 v2 =>
  (exists i j, seg_vertex plane seg i j a /\ seg_vertex plane seg i (j + 1) b /\ touching seg i j) \/
  (free v1 v2 = Ok true /\
   ((exists i j1 j2, seg_vertex plane seg i j1 a /\ seg_vertex plane seg (i + 1) j2 b) \/ N <= a \/ N <= b)).

Lemma same_line_grew free N plane seg i n1 xm j1 g g' :
  nth_error plane i = Some n1 -> nth_error (fxM seg) i = Some xm -> j1 < length xm ->
  same_line seg i n1 j1 (length xm) g = Ok g' -> grew (J2d free N plane seg) g g'.
Proof.
  intros Hp Hx Hj E. unfold same_line in E. destruct (Nat.eqb_spec j1 (length xm - 1)) as [J|J].
  { injection E as <-. apply grew_refl. }
  apply obind_Ok in E; destruct E as (rU & E1 & E). apply obind_Ok in E; destruct E as (xu & E2 & E).
  apply obind_Ok in E; destruct E as (rL & E3 & E). apply obind_Ok in E; destruct E as (xl & E4 & E).
  apply idx_Ok in E1, E2, E3, E4.
  destruct (fltb (fabs (fsub xu xl)) cEPS) eqn:T; [|injection E as <-; apply grew_refl].
  apply add_edge_inv in E. destruct E as (v1 & v2 & w & H1 & H2 & W & ->). apply grew_edge with v1 v2; auto.
  left. exists i, j1. split; [|split].
  - exists n1, xm. auto.
  - exists n1, xm. split; [auto|]. split; [auto|]. split; lia.
  - exists rU, rL, xu, xl. auto.
Qed.

Definition Inv2d free plane seg (g g1 : graph) : Prop :=
  grew (J2d free (length (gvert g)) plane seg) g g1.

Lemma inner2d_grew free plane seg i n1 xm n2 xm2 j1 g g1 g' :
  nth_error plane i = Some n1 -> nth_error (fxM seg) i = Some xm -> j1 < length xm ->
  nth_error plane (i + 1) = Some n2 -> nth_error (fxM seg) (i + 1) = Some xm2 ->
  Inv2d free plane seg g g1 ->
  ofold (fun g j2 => try_edge free (n1 + j1) (n2 + j2) g) (seq 0 (length xm2)) g1 = Ok g' ->
  Inv2d free plane seg g g'.
Proof.
  intros Hp Hx Hj Hp2 Hx2 G E. apply (ofold_inv _ (Inv2d free plane seg g)) in E; auto.
  clear g1 g' G E. intros j2 g1 g' Hj2 G E. apply in_seq in Hj2.
  apply (try_edge_grew _ (length (gvert g))) in E.
  - eapply grew_trans; eauto. eapply grew_weaken; [|exact E]. intros a b v1 v2 [F H]. right. split; [exact F|].
    destruct H as [[-> ->]|H]; [|auto]. left. exists i, j1, j2.
    split; [exists n1, xm; auto|exists n2, xm2; split; [auto|]; split; [auto|]; split; lia].
  - apply extends_vlen. apply G.
Qed.

Lemma connect2d_grew free plane seg g g' : connect2d free plane seg g = Ok g' -> Inv2d free plane seg g g'.
Proof.
  unfold connect2d. intros E. apply (ofold_inv _ (Inv2d free plane seg g)) in E; auto; [apply grew_refl|].
  clear g' E. intros i g1 g' Hi G E. apply obind_Ok in E; destruct E as (n1 & E1 & E).
  apply obind_Ok in E; destruct E as (xm & E2 & E). apply at_Ok in E1. apply idx_Ok in E2.
  apply (ofold_inv _ (Inv2d free plane seg g)) in E; auto.
  clear g1 g' G E. intros j1 g1 g' Hj G E. apply in_seq in Hj. apply obind_Ok in E; destruct E as (g2 & S & E).
  eapply (same_line_grew free (length (gvert g)) plane) in S; eauto; [|lia]. pose proof (grew_trans _ _ _ _ G S) as G2. clear S G g1.
  destruct (Nat.eqb i (length (fty seg) - 1)); [injection E as <-; auto|].
  apply obind_Ok in E; destruct E as (n2 & E3 & E). apply obind_Ok in E; destruct E as (xm2 & E4 & E).
  apply at_Ok in E3. apply idx_Ok in E4.
  eapply (inner2d_grew free plane seg i n1 xm n2 xm2 j1); eauto; lia.
Qed.

(** Completeness: every element of a loop establishes its property and later
    iterations keep it. *)
Lemma ofold_each {A S} (f : S -> A -> outcome S) (R : S -> S -> Prop) (Q : A -> S -> Prop) l : forall s s',
  (forall a s s', In a l -> f s a = Ok s' -> R s s' /\ Q a s') ->
  (forall a s s', Q a s -> R s s' -> Q a s') ->
  ofold f l s = Ok s' -> forall a, In a l -> Q a s'.
Proof.
  induction l as [|x l IH]; intros s s' Hf HQ E a Hin; [destruct Hin|].
  simpl in E. apply obind_Ok in E. destruct E as (s1 & E1 & E).
  destruct (Hf x s s1 (or_introl eq_refl) E1) as [_ Q1].
  destruct Hin as [<-|Hin].
  - clear IH. apply (ofold_inv _ (Q x)) in E; auto. intros b t t' Hb Ht Et.
    eapply HQ; eauto. eapply Hf; eauto. right; auto.
  - eapply (IH s1 s'); eauto. intros; eapply Hf; eauto. right; auto.
Qed.

Lemma extends_In g g' e : extends g g' -> In e (gedge g) -> In e (gedge g').
Proof. intros (_ & (es & ->) & _) H. apply in_or_app; auto. Qed.

(** What trying the pair (a, b) establishes. *)
Definition tried (free : pose -> pose -> outcome bool) (a b : nat) (g : graph) : Prop :=
  In (a, b) (gedge g) \/ exists v1 v2, nth_error (gvert g) a = Some v1 /\ nth_error (gvert g) b = Some v2 /\ free v1 v2 = Ok false.
Lemma tried_mono free a b g g' : tried free a b g -> extends g g' -> tried free a b g'.
Proof.
  intros [H|(v1 & v2 & H1 & H2 & F)] X; [left; eapply extends_In; eauto|right].
  exists v1, v2. eauto using extends_vert.
Qed.
Lemma try_edge_tried free a b g g' : try_edge free a b g = Ok g' -> extends g g' /\ tried free a b g'.
Proof.
  intros E. pose proof (try_edge_grew free 0 a b g g' ltac:(lia) E) as (X & _). split; [exact X|].
  unfold try_edge in E. apply obind_Ok in E; destruct E as (v1 & E1 & E).
  apply obind_Ok in E; destruct E as (v2 & E2 & E). apply obind_Ok in E; destruct E as ([] & F & E).
  - left. apply add_edge_inv in E. destruct E as (u1 & u2 & w & _ & _ & _ & ->). cbn. apply in_or_app. right. left. auto.
  - right. apply idx_Ok in E1, E2. exists v1, v2. eauto using extends_vert.
Qed.

(** All pairs of a slice were handled. *)
Definition complete2d free (plane : list nat) (seg : freeseg) (g : graph) : Prop :=
  (forall i j a b, i < length (fty seg) -> seg_vertex plane seg i j a -> seg_vertex plane seg i (j + 1) b ->
     touching seg i j -> In (a, b) (gedge g)) /\
  (forall i j1 j2 a b, i + 1 < length (fty seg) -> seg_vertex plane seg i j1 a -> seg_vertex plane seg (i + 1) j2 b ->
     tried free a b g).

Lemma same_line_ext seg i n1 j1 m g g' : same_line seg i n1 j1 m g = Ok g' -> extends g g'.
Proof.
  unfold same_line. intros E. destruct (Nat.eqb j1 (m - 1)); [injection E as <-; apply extends_refl|].
  apply obind_Ok in E; destruct E as (rU & E1 & E). apply obind_Ok in E; destruct E as (xu & E2 & E).
  apply obind_Ok in E; destruct E as (rL & E3 & E). apply obind_Ok in E; destruct E as (xl & E4 & E).
  destruct (fltb _ _); [|injection E as <-; apply extends_refl].
  apply add_edge_inv in E. destruct E as (v1 & v2 & w & _ & _ & _ & ->).
  split; [|split]; cbn; eauto. exists []; rewrite app_nil_r; auto.
Qed.

Lemma ofold_ext {A} (f : graph -> A -> outcome graph) l g g' :
  (forall a g g', In a l -> f g a = Ok g' -> extends g g') -> ofold f l g = Ok g' -> extends g g'.
Proof.
  intros H E. apply (ofold_inv _ (extends g)) in E; auto; [apply extends_refl|].
  intros a s s' Ha Hs Es. eapply extends_trans; eauto.
Qed.

Lemma connect2d_complete free plane seg g g' : connect2d free plane seg g = Ok g' -> complete2d free plane seg g'.
Proof.
  unfold connect2d. intros E.
  set (Q := fun i (g : graph) => forall n1 xm, nth_error plane i = Some n1 -> nth_error (fxM seg) i = Some xm ->
    forall j1, j1 < length xm ->
      (j1 + 1 < length xm -> touching seg i j1 -> In (n1 + j1, n1 + j1 + 1) (gedge g)) /\
      (i + 1 < length (fty seg) -> forall n2 xm2 j2, nth_error plane (i + 1) = Some n2 ->
         nth_error (fxM seg) (i + 1) = Some xm2 -> j2 < length xm2 -> tried free (n1 + j1) (n2 + j2) g)).
  assert (All : forall i, In i (seq 0 (length (fty seg))) -> Q i g').
  { refine (ofold_each _ extends Q _ _ _ _ _ E).
    2:{ intros a s s' HQ X n1 xm Hp Hx j1 Hj. destruct (HQ n1 xm Hp Hx j1 Hj) as [H1 H2]. split.
        - intros A B. eapply extends_In; eauto.
        - intros A n2 xm2 j2 P1 P2 P3. eapply tried_mono; [eapply H2; eauto|exact X]. }
    clear g g' E. intros i g g' Hi E. apply in_seq in Hi.
    apply obind_Ok in E; destruct E as (n1 & E1 & E).
    apply obind_Ok in E; destruct E as (xm & E2 & E). apply at_Ok in E1. apply idx_Ok in E2.
    assert (Step : forall j1 s s', In j1 (seq 0 (length xm)) ->
      obind (same_line seg i n1 j1 (length xm) s) (fun g1 =>
        if Nat.eqb i (length (fty seg) - 1) then Ok g1 else
        obind (at_ plane (i + 1)) (fun n2 => obind (idx (fxM seg) (i + 1)) (fun xm2 =>
          ofold (fun g j2 => try_edge free (n1 + j1) (n2 + j2) g) (seq 0 (length xm2)) g1))) = Ok s' ->
      extends s s' /\
      ((j1 + 1 < length xm -> touching seg i j1 -> In (n1 + j1, n1 + j1 + 1) (gedge s')) /\
       (i + 1 < length (fty seg) -> forall n2 xm2 j2, nth_error plane (i + 1) = Some n2 ->
         nth_error (fxM seg) (i + 1) = Some xm2 -> j2 < length xm2 -> tried free (n1 + j1) (n2 + j2) s'))).
    { intros j1 s s' Hj Es. apply in_seq in Hj. apply obind_Ok in Es; destruct Es as (s1 & S1 & Es).
      pose proof (same_line_ext _ _ _ _ _ _ _ S1) as X1.
      assert (T1 : j1 + 1 < length xm -> touching seg i j1 -> In (n1 + j1, n1 + j1 + 1) (gedge s1)).
      { intros Hl (ru & rl & xu & xl & A1 & A2 & A3 & A4 & A5). unfold same_line in S1.
        destruct (Nat.eqb_spec j1 (length xm - 1)); [lia|].
        unfold idx in S1. rewrite A1 in S1; cbn [obind] in S1. rewrite A2 in S1; cbn [obind] in S1. rewrite A3 in S1; cbn [obind] in S1.
        rewrite A4 in S1; cbn [obind] in S1. rewrite A5 in S1.
        apply add_edge_inv in S1. destruct S1 as (v1 & v2 & w & _ & _ & _ & ->). cbn. apply in_or_app. right. left. auto. }
      destruct (Nat.eqb_spec i (length (fty seg) - 1)) as [L|L].
      - injection Es as <-. split; [exact X1|]. split; [exact T1|]. intros; lia.
      - apply obind_Ok in Es; destruct Es as (n2 & E3 & Es). apply obind_Ok in Es; destruct Es as (xm2 & E4 & Es).
        apply at_Ok in E3. apply idx_Ok in E4.
        assert (X2 : extends s1 s').
        { eapply ofold_ext; [|exact Es]. intros a t t' _ Et. exact (proj1 (try_edge_tried _ _ _ _ _ Et)). }
        split; [eapply extends_trans; eauto|]. split.
        + intros A B. eapply extends_In; eauto.
        + intros _ n2' xm2' j2 P1 P2 P3. rewrite E3 in P1. rewrite E4 in P2. injection P1 as <-. injection P2 as <-.
          refine (ofold_each _ extends (fun j2 g => tried free (n1 + j1) (n2 + j2) g) _ _ _ _ _ Es j2 _).
          * intros a t t' _ Et. apply try_edge_tried; auto.
          * intros a t t' Ht Xt. eapply tried_mono; eauto.
          * apply in_seq. lia. }
    split.
    - eapply ofold_ext; [|exact E]. intros a t t' Ha Et. apply (Step a t t' Ha Et).
    - intros n1' xm' P1 P2 j1 Hj. rewrite E1 in P1. rewrite E2 in P2. injection P1 as <-. injection P2 as <-.
      refine (ofold_each _ extends (fun j1 s' => (j1 + 1 < length xm -> touching seg i j1 -> In (n1 + j1, n1 + j1 + 1) (gedge s')) /\
       (i + 1 < length (fty seg) -> forall n2 xm2 j2, nth_error plane (i + 1) = Some n2 ->
         nth_error (fxM seg) (i + 1) = Some xm2 -> j2 < length xm2 -> tried free (n1 + j1) (n2 + j2) s')) _ _ _ _ _ E j1 _).
      + exact Step.
      + intros a s s' [H1 H2] X. split.
        * intros A B. eapply extends_In; eauto.
        * intros A n2 xm2 j2 P1 P2 P3. eapply tried_mono; [eapply H2; eauto|exact X].
      + apply in_seq. lia. }
  split.
  - intros i j a b Hi (n & xm & P1 & P2 & P3 & ->) (n' & xm' & P1' & P2' & P3' & ->) T.
    rewrite P1 in P1'. injection P1' as <-. rewrite P2 in P2'. injection P2' as <-.
    destruct (All i ltac:(apply in_seq; lia) n xm P1 P2 j P3) as [H _].
    replace (n + (j + 1)) with (n + j + 1) by lia. auto.
  - intros i j1 j2 a b Hi (n & xm & P1 & P2 & P3 & ->) (n' & xm' & P1' & P2' & P3' & ->).
    destruct (All i ltac:(apply in_seq; lia) n xm P1 P2 j1 P3) as [_ H]. eauto.
Qed.

(** ---- no bridging when the third coordinates agree ---- *)
Lemma set_at_same {A} (l : list A) i x : nth_error l i = Some x -> set_at l i x = Ok l.
Proof.
  unfold set_at. intros H. cut (upd l i x = Some l); [intros ->; reflexivity|].
  revert i H. induction l as [|y l IH]; intros [|i] H; simpl in *; try discriminate.
  - injection H as ->; auto.
  - rewrite IH; auto.
Qed.

Lemma bridge_noop free i1 i2 g v1 v2 c b : nth_error (gvert g) i1 = Some v1 -> nth_error (gvert g) i2 = Some v2 ->
  nth_error v1 2 = Some c -> nth_error v2 2 = Some c -> free v1 v1 = Ok b -> free v1 v2 = Ok false ->
  bridge free i1 i2 g = Ok g.
Proof.
  intros H1 H2 C1 C2 F1 F2. unfold bridge, at_. rewrite H1, H2; cbn [obind]. rewrite C2; cbn [obind].
  rewrite (set_at_same v1 2 c C1); cbn [obind]. rewrite C1; cbn [obind]. rewrite (set_at_same v2 2 c C2); cbn [obind].
  unfold oand. rewrite F1, F2; cbn [obind]. destruct b; reflexivity.
Qed.

Lemma connect2d_same_vert free plane seg g g' :
  (forall v1 v2, In v1 (gvert g) -> In v2 (gvert g) -> free v1 v2 = Ok false -> exists b, free v1 v1 = Ok b) ->
  (forall i j1 j2 a b v1 v2, seg_vertex plane seg i j1 a -> seg_vertex plane seg (i + 1) j2 b ->
     nth_error (gvert g) a = Some v1 -> nth_error (gvert g) b = Some v2 ->
     exists c, nth_error v1 2 = Some c /\ nth_error v2 2 = Some c) ->
  connect2d free plane seg g = Ok g' -> gvert g' = gvert g.
Proof.
  intros Hf H3 E. unfold connect2d in E. apply (ofold_inv _ (fun x => gvert x = gvert g)) in E; auto.
  clear g' E. intros i g1 g' Hi G E. apply obind_Ok in E; destruct E as (n1 & E1 & E).
  apply obind_Ok in E; destruct E as (xm & E2 & E). apply at_Ok in E1. apply idx_Ok in E2.
  apply (ofold_inv _ (fun x => gvert x = gvert g)) in E; auto.
  clear g1 g' G E. intros j1 g1 g' Hj G E. apply in_seq in Hj. apply obind_Ok in E; destruct E as (g2 & S & E).
  assert (G2 : gvert g2 = gvert g).
  { unfold same_line in S. destruct (Nat.eqb _ _); [injection S as <-; auto|].
    apply obind_Ok in S; destruct S as (? & _ & S). apply obind_Ok in S; destruct S as (? & _ & S).
    apply obind_Ok in S; destruct S as (? & _ & S). apply obind_Ok in S; destruct S as (? & _ & S).
    destruct (fltb _ _); [|injection S as <-; auto].
    apply add_edge_inv in S. destruct S as (? & ? & ? & _ & _ & _ & ->). auto. }
  clear S G g1. destruct (Nat.eqb i (length (fty seg) - 1)); [injection E as <-; auto|].
  apply obind_Ok in E; destruct E as (n2 & E3 & E). apply obind_Ok in E; destruct E as (xm2 & E4 & E).
  apply at_Ok in E3. apply idx_Ok in E4.
  apply (ofold_inv _ (fun x => gvert x = gvert g)) in E; auto.
  clear g2 g' G2 E. intros j2 g1 g' Hj2 G E. apply in_seq in Hj2.
  unfold try_edge in E. apply obind_Ok in E; destruct E as (v1 & V1 & E).
  apply obind_Ok in E; destruct E as (v2 & V2 & E). apply idx_Ok in V1, V2.
  apply obind_Ok in E; destruct E as ([] & F & E).
  - apply add_edge_inv in E. destruct E as (? & ? & ? & _ & _ & _ & ->). auto.
  - rewrite G in V1, V2. destruct (H3 i j1 j2 (n1 + j1) (n2 + j2) v1 v2) as (c & C1 & C2); auto.
    { exists n1, xm. split; [auto|]. split; [auto|]. split; lia. }
    { exists n2, xm2. split; [auto|]. split; [auto|]. split; lia. }
    destruct (Hf v1 v2) as (b & Fb); auto; try (eapply nth_error_In; eauto).
    rewrite (bridge_noop free _ _ g1 v1 v2 c b) in E; try rewrite G; auto. injection E as <-; auto.
Qed.

(** ---- generate vertices ---- *)
Lemma push_fold (mk : f64 -> f64 -> pose) y xm g : fold_left (fun g m => push_vertex (mk y m) g) xm g =
  Graph (gvert g ++ map (mk y) xm) (gedge g) (gweight g).
Proof.
  revert g; induction xm as [|m xm IH]; intros g; simpl; [rewrite app_nil_r; destruct g; auto|].
  rewrite IH. cbn. rewrite <- app_assoc. reflexivity.
Qed.

Lemma gen_vertices_aux (mk : f64 -> f64 -> pose) xms : forall ty k g pl,
  (forall i, i < length ty -> nth_error xms (k + i) <> None) ->
  ofold (fun '(g, plane) '(i, y) => obind (idx xms i) (fun xm =>
    Ok (fold_left (fun g m => push_vertex (mk y m) g) xm g, plane ++ [length (gvert g)])))
    (combine (seq k (length ty)) ty) (g, pl) =
  Ok (Graph (gvert g ++ concat (line_vertices mk ty (skipn k xms))) (gedge g) (gweight g),
      pl ++ map (fun i => length (gvert g) + length (concat (firstn i (line_vertices mk ty (skipn k xms))))) (seq 0 (length ty))).
Proof.
  induction ty as [|y ty IH]; intros k g pl H.
  - cbn. rewrite !app_nil_r. destruct g; auto.
  - cbn [length seq combine ofold].
    destruct (nth_error xms k) as [xm|] eqn:Ek.
    2:{ exfalso. apply (H 0 ltac:(simpl; lia)). rewrite Nat.add_0_r. auto. }
    assert (Sk : skipn k xms = xm :: skipn (S k) xms).
    { clear -Ek. revert k Ek. induction xms as [|a l IHl]; intros [|k] Ek; simpl in *; try discriminate.
      - injection Ek as ->; auto.
      - auto. }
    unfold idx at 1. rewrite Ek. cbn [obind]. rewrite push_fold. rewrite IH.
    2:{ intros i Hi. replace (S k + i) with (k + S i) by lia. apply H. simpl; lia. }
    rewrite Sk. unfold line_vertices. cbn [combine map concat gvert gedge gweight fst snd].
    f_equal. f_equal.
    + rewrite <- app_assoc. reflexivity.
    + rewrite <- app_assoc. f_equal. cbn [map firstn concat app length]. rewrite Nat.add_0_r. f_equal.
      rewrite <- seq_shift, map_map. apply map_ext. intros i. cbn [firstn concat].
      rewrite !app_length. lia.
Qed.

Lemma gen_vertices_spec mk seg g : length (fty seg) <= length (fxM seg) ->
  gen_vertices mk seg g =
  Ok (Graph (gvert g ++ concat (line_vertices mk (fty seg) (fxM seg))) (gedge g) (gweight g),
      map (fun i => length (gvert g) + length (concat (firstn i (line_vertices mk (fty seg) (fxM seg))))) (seq 0 (length (fty seg)))).
Proof.
  intros L. unfold gen_vertices. rewrite (gen_vertices_aux mk (fxM seg) (fty seg) 0 g []); [reflexivity|].
  intros i Hi. simpl. apply nth_error_Some. lia.
Qed.

Lemma gen_vertices_grew J mk seg g g' plane : gen_vertices mk seg g = Ok (g', plane) -> grew J g g' /\ gedge g' = gedge g.
Proof.
  unfold gen_vertices. intros E.
  assert (X : grew J g (fst (g', plane)) /\ gedge (fst (g', plane)) = gedge g); [|exact X].
  apply (ofold_inv _ (fun x : graph * list nat => grew J g (fst x) /\ gedge (fst x) = gedge g)) in E; auto.
  - cbn. split; [apply grew_refl|auto].
  - clear. intros [i y] [g1 pl] [g2 pl2] _ [G H] E. cbn [fst] in *. apply obind_Ok in E. destruct E as (xm & _ & E).
    injection E as <- <-. rewrite push_fold. split; [|auto]. eapply grew_trans; [exact G|].
    split; [|split].
    + split; [|split]; cbn; eauto; exists []; rewrite app_nil_r; auto.
    + apply wf_vertex.
    + intros k a b Hk Hn. cbn in Hn. apply nth_error_lt in Hn. lia.
Qed.

(** ---- link_ranges ---- *)
Lemma find_link_spec near ok g v1 ms o : find_link near ok g v1 ms = Ok o ->
  match o with
  | Some m => In m ms /\ exists v2, nth_error (gvert g) m = Some v2 /\ near v1 v2 = Ok true /\ ok v1 v2 = Ok true
  | None => forall m v2, In m ms -> nth_error (gvert g) m = Some v2 -> near v1 v2 = Ok true -> ok v1 v2 = Ok false
  end.
Proof.
  revert o; induction ms as [|m ms IH]; intros o; cbn [find_link].
  - intros [= <-]. intros m v2 [].
  - intros E. apply obind_Ok in E. destruct E as (v2 & E2 & E). apply idx_Ok in E2.
    apply obind_Ok in E. destruct E as ([] & N & E).
    + apply obind_Ok in E. destruct E as ([] & O & E).
      * injection E as <-. split; [left; auto|]. eauto.
      * specialize (IH o E). destruct o as [m'|].
        -- destruct IH as (Hin & H). split; [right; auto|auto].
        -- intros m' v2' [<-|Hin] Hv Hn; [congruence|eauto].
    + specialize (IH o E). destruct o as [m'|].
      * destruct IH as (Hin & H). split; [right; auto|auto].
      * intros m' v2' [<-|Hin] Hv Hn; [congruence|eauto].
Qed.

(** The new edges of one range pair: sources increase strictly, targets weakly. *)
Definition mono_pair (e e' : nat * nat) : Prop := fst e < fst e' /\ snd e <= snd e'.

Lemma link_ranges_spec near ok lo1 hi1 lo2 hi2 g g' : link_ranges near ok lo1 hi1 lo2 hi2 g = Ok g' ->
  exists es ws, gvert g' = gvert g /\ gedge g' = gedge g ++ es /\ gweight g' = gweight g ++ ws /\
    length ws = length es /\
    (forall k e, nth_error es k = Some e -> lo1 <= fst e < hi1 /\ lo2 <= snd e < hi2 /\
       exists v1 v2 w, nth_error (gvert g) (fst e) = Some v1 /\ nth_error (gvert g) (snd e) = Some v2 /\
         nth_error ws k = Some w /\ vec_euclid F64 v1 v2 = Ok w /\ near v1 v2 = Ok true /\ ok v1 v2 = Ok true) /\
    (forall k k' e e', k < k' -> nth_error es k = Some e -> nth_error es k' = Some e' -> mono_pair e e').
Proof.
  unfold link_ranges. intros E. apply obind_Ok in E. destruct E as ([g1 s1] & E & [= <-]).
  set (I := fun (done : list nat) (x : graph * nat) => exists es ws,
    gvert (fst x) = gvert g /\ gedge (fst x) = gedge g ++ es /\ gweight (fst x) = gweight g ++ ws /\
    length ws = length es /\ lo2 <= snd x /\
    (forall k e, nth_error es k = Some e -> In (fst e) done /\ lo2 <= snd e < hi2 /\ snd e <= snd x /\
       exists v1 v2 w, nth_error (gvert g) (fst e) = Some v1 /\ nth_error (gvert g) (snd e) = Some v2 /\
         nth_error ws k = Some w /\ vec_euclid F64 v1 v2 = Ok w /\ near v1 v2 = Ok true /\ ok v1 v2 = Ok true) /\
    (forall k k' e e', k < k' -> nth_error es k = Some e -> nth_error es k' = Some e' -> mono_pair e e')).
  assert (Main : forall n lo s t, (forall d, In d (seq lo1 (lo - lo1)) -> d < lo) -> lo1 <= lo ->
     I (seq lo1 (lo - lo1)) s ->
     ofold (fun '(g, s) m0 => obind (idx (gvert g) m0) (fun v1 => obind (find_link near ok g v1 (seq s (hi2 - s))) (fun o =>
       match o with Some m1 => obind (add_edge m0 m1 g) (fun g' => Ok (g', m1)) | None => Ok (g, s) end))) (seq lo n) s = Ok t ->
     I (seq lo1 (lo + n - lo1)) t).
  { induction n as [|n IH]; intros lo [ga sa] t Hd Hlo HI Et.
    - simpl in Et. injection Et as <-. rewrite Nat.add_0_r. exact HI.
    - cbn [seq ofold] in Et. apply obind_Ok in Et. destruct Et as ([gb sb] & E1 & Et).
      replace (lo + S n) with (S lo + n) by lia.
      assert (Sd : seq lo1 (S lo - lo1) = seq lo1 (lo - lo1) ++ [lo]).
      { replace (S lo - lo1) with (lo - lo1 + 1) by lia. rewrite seq_app. simpl. f_equal. f_equal. lia. }
      apply (IH (S lo) (gb, sb) t); [intros d Hin; apply in_seq in Hin; lia|lia| |exact Et].
      rewrite Sd. clear IH Et t.
      apply obind_Ok in E1. destruct E1 as (v1 & V1 & E1). apply obind_Ok in E1. destruct E1 as (o & O & E1).
      apply find_link_spec in O. apply idx_Ok in V1.
      destruct HI as (es & ws & I1 & I2 & I3 & I4 & I5 & I6 & I7). cbn [fst snd] in *.
      destruct o as [m1|].
      + apply obind_Ok in E1. destruct E1 as (gc & E1 & [= <- <-]).
        apply add_edge_inv in E1. destruct E1 as (u1 & u2 & w & U1 & U2 & W & ->).
        destruct O as (Oin & v2 & V2 & N & OK). apply in_seq in Oin.
        rewrite V1 in U1. injection U1 as <-. rewrite V2 in U2. injection U2 as <-. rewrite I1 in V1, V2.
        exists (es ++ [(lo, m1)]), (ws ++ [w]). cbn [fst snd gvert gedge gweight].
        split; [auto|]. split; [rewrite I2, app_assoc; auto|]. split; [rewrite I3, app_assoc; auto|].
        split; [rewrite !app_length; simpl; lia|]. split; [lia|]. split.
        * intros k e Hk. apply snoc_nth in Hk. destruct Hk as [Hk|[-> ->]].
          -- destruct (I6 k e Hk) as (A & B & C & x1 & x2 & xw & X1 & X2 & X3 & X4).
             split; [apply in_or_app; auto|]. split; [auto|]. split; [lia|].
             exists x1, x2, xw. split; [auto|]. split; [auto|]. split; [apply nth_error_app_old; auto|auto].
          -- cbn [fst snd]. split; [apply in_or_app; right; left; auto|]. split; [lia|]. split; [lia|].
             exists v1, v2, w. split; [auto|]. split; [auto|]. split; [rewrite <- I4; apply nth_snoc|auto].
        * intros k k' e e' Hkk Hk Hk'. apply snoc_nth in Hk. apply snoc_nth in Hk'.
          destruct Hk' as [Hk'|[-> ->]].
          -- destruct Hk as [Hk|[-> _]]; [eapply I7; eauto|]. apply nth_error_lt in Hk'. lia.
          -- destruct Hk as [Hk|[-> _]]; [|lia]. destruct (I6 k e Hk) as (A & B & C & _).
             split; cbn [fst snd]; [apply Hd; auto|lia].
      + injection E1 as <- <-. exists es, ws. cbn [fst snd].
        split; [auto|]. split; [auto|]. split; [auto|]. split; [auto|]. split; [auto|]. split; [|auto].
        intros k e Hk. destruct (I6 k e Hk) as (A & B). split; [apply in_or_app; auto|auto]. }
  assert (HI0 : I (seq lo1 (lo1 - lo1)) (g, lo2)).
  { exists [], []. cbn [fst snd]. rewrite !app_nil_r. split; [auto|]. split; [auto|]. split; [auto|]. split; [auto|].
    split; [auto|]. split; intros; destruct k; discriminate. }
  specialize (Main (hi1 - lo1) lo1 (g, lo2) (g1, s1)).
  destruct Main as (es & ws & I1 & I2 & I3 & I4 & I5 & I6 & I7); auto.
  { intros d Hin. rewrite Nat.sub_diag in Hin. destruct Hin. }
  exists es, ws. cbn [fst snd] in *. split; [auto|]. split; [auto|]. split; [auto|]. split; [auto|]. split; [|auto].
  intros k e Hk. destruct (I6 k e Hk) as (A & B & _ & C). apply in_seq in A. split; [lia|]. split; [lia|auto].
Qed.

Definition J_link near ok lo1 hi1 lo2 hi2 : nat -> nat -> pose -> pose -> Prop := fun a b v1 v2 =>
  lo1 <= a < hi1 /\ lo2 <= b < hi2 /\ near v1 v2 = Ok true /\ ok v1 v2 = Ok true.

Lemma link_ranges_grew near ok lo1 hi1 lo2 hi2 g g' : link_ranges near ok lo1 hi1 lo2 hi2 g = Ok g' ->
  grew (J_link near ok lo1 hi1 lo2 hi2) g g' /\ gvert g' = gvert g.
Proof.
  intros E. apply link_ranges_spec in E. destruct E as (es & ws & V & Ee & Ew & L & H & _). split; [|exact V].
  split; [|split].
  - split; [|split]; eauto. exists []. rewrite app_nil_r; auto.
  - intros [L0 H0]. split; [rewrite Ee, Ew, !app_length; lia|]. intros k a b Hk. rewrite Ee in Hk. rewrite V, Ew.
    destruct (Nat.lt_ge_cases k (length (gedge g))) as [Lk|Lk].
    + rewrite nth_error_app1 in Hk by auto. destruct (H0 k a b Hk) as (v1 & v2 & w & A & B & C & D).
      exists v1, v2, w. split; [auto|]. split; [auto|]. split; [apply nth_error_app_old; auto|auto].
    + rewrite nth_error_app2 in Hk by auto. destruct (H _ _ Hk) as (_ & _ & v1 & v2 & w & A & B & C & D & _).
      exists v1, v2, w. split; [auto|]. split; [auto|]. split; [|auto].
      rewrite nth_error_app2 by lia. rewrite L0. exact C.
  - intros k a b Hk Hn. rewrite Ee in Hn. rewrite nth_error_app2 in Hn by auto.
    destruct (H _ _ Hn) as (A & B & v1 & v2 & w & V1 & V2 & _ & _ & N & O). cbn [fst snd] in *.
    exists v1, v2. rewrite V. split; [auto|]. split; [auto|]. unfold J_link. auto.
Qed.
