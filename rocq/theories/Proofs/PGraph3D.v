(** Graph construction inside one spatial slice. *)
From Coq Require Import List Bool Arith Lia ZArith.
From Verif.Base Require Import Outcome Float64.
From Verif.Model Require Import MScalar MDistance MInterval MFreeSpace MLine3D MInterp MGraph MSearch MHRM3D.
From Verif.Spec Require Import SGraph SPlanner2D SPlanner3D.
From Verif.Proofs Require Import PGraph PHRM2D PPlan2D.
Import ListNotations.

Lemma nth_snoc_old {A} (l : list A) x i y : nth_error l i = Some y -> nth_error (l ++ [x]) i = Some y.
Proof. apply nth_error_app_old. Qed.

Section Slice.
Variable free : pose -> pose -> outcome bool.

Notation PV := plane_vertex.

Lemma PV_snoc line segs plane x seg i j k a : length line = length segs ->
  PV (line ++ [plane]) (segs ++ [(x, seg)]) i j k a ->
  PV line segs i j k a \/ (i = length line /\ seg_vertex plane seg j k a).
Proof.
  intros L (p & n & x' & seg' & xm & H1 & H2 & H3 & H4 & H5 & ->).
  apply snoc_nth in H1, H3. destruct H1 as [H1|[-> ->]].
  - destruct H3 as [H3|[-> E3]]; [|apply nth_error_lt in H1; lia]. left. exists p, n, x', seg', xm. auto 10.
  - destruct H3 as [H3|[_ E3]]; [apply nth_error_lt in H3; lia|]. injection E3 as -> ->. right. split; [auto|].
    exists n, xm. auto.
Qed.
Lemma PV_old line segs line' segs' i j k a : PV line segs i j k a -> PV (line ++ line') (segs ++ segs') i j k a.
Proof.
  intros (p & n & x & seg & xm & H1 & H2 & H3 & H4 & H5 & ->). exists p, n, x, seg, xm.
  split; [apply nth_error_app_old; auto|]. split; [auto|]. split; [apply nth_error_app_old; auto|]. auto.
Qed.
Lemma PV_new line segs plane x seg j k a : length line = length segs -> seg_vertex plane seg j k a ->
  PV (line ++ [plane]) (segs ++ [(x, seg)]) (length line) j k a.
Proof.
  intros L (n & xm & H1 & H2 & H3 & ->). exists plane, n, x, seg, xm. split; [apply nth_snoc|]. split; [auto|].
  split; [rewrite L; apply nth_snoc|]. auto.
Qed.

Definition J3 line segs : nat -> nat -> pose -> pose -> Prop := fun a b v1 v2 =>
  line_neighbours line segs a b \/
  (free v1 v2 = Ok true /\ (grid_neighbours line segs a b \/ ~ grid_vertex line segs a \/ ~ grid_vertex line segs b)).

(** The poses of grid vertices. *)
Definition posed (q : qt) (js : list f64) line (segs : freeseg3) (g : graph) : Prop :=
  forall i j k a, PV line segs i j k a -> exists x seg y xm z, nth_error segs i = Some (x, seg) /\
    nth_error (fty seg) j = Some y /\ nth_error (fxM seg) j = Some xm /\ nth_error xm k = Some z /\
    nth_error (gvert g) a = Some (mk_vertex q js x y z).

(** Every vertex from number [N] on has a grid position and the slice's tail. *)
Definition shaped (N : nat) (tail : list f64) (xs ys : list f64) (g : graph) : Prop :=
  forall a v, N <= a -> nth_error (gvert g) a = Some v -> exists x y z, v = [x; y; z] ++ tail /\ In x xs /\ In y ys.

Lemma bridge_shaped N tail xs ys i1 i2 g g' : N <= i1 -> N <= i2 -> shaped N tail xs ys g -> bridge free i1 i2 g = Ok g' -> shaped N tail xs ys g'.
Proof.
  intros L1 L2 S H. unfold bridge in H. ob H v1 V1. ob H v2 V2. apply at_Ok in V1, V2.
  destruct (S _ _ L1 V1) as (x1 & y1 & z1 & -> & X1 & Y1). destruct (S _ _ L2 V2) as (x2 & y2 & z2 & -> & X2 & Y2).
  cbn [app at_ nth_error set_at upd obind] in H.
  ob H b1 B1. ob H vn Vn.
  assert (Q : vn = None \/ vn = Some (x1 :: y1 :: z2 :: tail) \/ vn = Some (x2 :: y2 :: z1 :: tail)).
  { destruct b1; [injection Vn as <-; auto|]. ob Vn b2 B2. injection Vn as <-. destruct b2; auto. }
  clear Vn B1. destruct vn as [v|]; [|injection H as <-; auto]. ob H w1 W1. ob H w2 W2. injection H as <-.
  intros a u La Hu. cbn [gvert] in Hu. apply snoc_nth in Hu. destruct Hu as [Hu|[-> ->]]; [eapply S; eauto|].
  destruct Q as [Q|[Q|Q]]; [discriminate Q| |]; injection Q as ->; [exists x1, y1, z2|exists x2, y2, z1]; auto.
Qed.
Lemma try_edge_shaped N tail xs ys a b g g' : N <= a -> N <= b -> shaped N tail xs ys g -> try_edge free a b g = Ok g' -> shaped N tail xs ys g'.
Proof.
  intros La Lb S H. unfold try_edge in H. ob H v1 V1. ob H v2 V2. ob H f F. destruct f.
  - apply add_edge_inv in H. destruct H as (? & ? & ? & _ & _ & _ & ->). exact S.
  - eapply bridge_shaped; [| | |exact H]; auto.
Qed.
Lemma connect2d_shaped N tail xs ys plane seg g g' : (forall i n, nth_error plane i = Some n -> N <= n) ->
  shaped N tail xs ys g -> connect2d free plane seg g = Ok g' -> shaped N tail xs ys g'.
Proof.
  intros Hp S H. unfold connect2d in H. apply (ofold_inv _ (shaped N tail xs ys)) in H; auto.
  clear g g' S H. intros i g g' Hi S H. ob H n1 E1. ob H xm E2. apply at_Ok in E1.
  apply (ofold_inv _ (shaped N tail xs ys)) in H; auto.
  clear g g' S H. intros j1 g g' Hj S H. ob H g2 S2.
  assert (S' : shaped N tail xs ys g2).
  { unfold same_line in S2. destruct (Nat.eqb _ _); [injection S2 as <-; auto|].
    ob S2 a1 A1. ob S2 a2 A2. ob S2 a3 A3. ob S2 a4 A4.
    destruct (fltb _ _); [|injection S2 as <-; auto].
    apply add_edge_inv in S2. destruct S2 as (? & ? & ? & _ & _ & _ & ->). exact S. }
  destruct (Nat.eqb i (length (fty seg) - 1)); [injection H as <-; auto|].
  ob H n2 E3. ob H xm2 E4. apply at_Ok in E3.
  apply (ofold_inv _ (shaped N tail xs ys)) in H; auto.
  intros j2 t t' _ St Ht. apply Hp in E1, E3. eapply try_edge_shaped; [| | |exact Ht]; auto; lia.
Qed.

Lemma gen_vertices_new mk seg g g' plane : gen_vertices mk seg g = Ok (g', plane) ->
  (forall i n, nth_error plane i = Some n -> length (gvert g) <= n) /\ length plane = length (fty seg) /\
  (forall a v, length (gvert g) <= a -> nth_error (gvert g') a = Some v -> exists y z, v = mk y z /\ In y (fty seg)) /\
  (forall a, a < length (gvert g) -> nth_error (gvert g') a = nth_error (gvert g) a).
Proof.
  intros H. pose proof (gen_vertices_len _ _ _ _ _ H) as L. rewrite gen_vertices_spec in H by auto. injection H as <- <-.
  split; [|split; [|split]].
  - intros i n Hn. rewrite nth_error_map in Hn. destruct (nth_error _ i); [|discriminate Hn]. cbn in Hn. injection Hn as <-. lia.
  - rewrite map_length, seq_length. auto.
  - intros a v La Hv. cbn [gvert] in Hv. rewrite nth_error_app2 in Hv by auto. apply nth_error_In in Hv.
    apply line_vertices_In in Hv. destruct Hv as (y & x & Hy & ->). eauto.
  - intros a La. cbn [gvert]. apply nth_error_app1. auto.
Qed.
Lemma gen_vertices_num mk seg g g' plane i j a : gen_vertices mk seg g = Ok (g', plane) -> seg_vertex plane seg i j a ->
  length (gvert g) <= a < length (gvert g').
Proof.
  intros H S. eapply gen_vertices_at in S; eauto. destruct S as (y & x & xm & _ & _ & _ & V & L). apply nth_error_lt in V. lia.
Qed.

(** ---- first loop ---- *)
Definition done_complete line (segs : freeseg3) (g : graph) : Prop :=
  (forall a b, line_neighbours line segs a b -> In (a, b) (gedge g)) /\
  (forall i j k1 k2 a b, PV line segs i j k1 a -> PV line segs i (j + 1) k2 b -> tried free a b g).

Record planes_inv (q : qt) (js : list f64) (g0 : graph) (ys : list f64) (segs : freeseg3) (st : graph * list (list nat)) : Prop := PlanesInv {
  pi_len : length (snd st) = length segs;
  pi_ext : extends g0 (fst st);
  pi_wf : well_formed g0 -> well_formed (fst st);
  pi_num : forall i j k a, PV (snd st) segs i j k a -> length (gvert g0) <= a < length (gvert (fst st));
  pi_edges : new_edges g0 (fst st) (J3 (snd st) segs);
  pi_posed : posed q js (snd st) segs (fst st);
  pi_done : done_complete (snd st) segs (fst st);
  pi_lines : forall i p x seg, nth_error (snd st) i = Some p -> nth_error segs i = Some (x, seg) -> length p = length (fty seg);
  pi_shape : (forall i x seg, nth_error segs i = Some (x, seg) -> fty seg = ys) ->
     shaped (length (gvert g0)) (quat_list q ++ js) (map fst segs) ys (fst st)
}.

Lemma shaped_mono N tail xs xs' ys g : incl xs xs' -> shaped N tail xs ys g -> shaped N tail xs' ys g.
Proof. intros I S a v La Hv. destruct (S a v La Hv) as (x & y & z & -> & X & Y). exists x, y, z. auto. Qed.

Lemma posed_ext q js line segs g g' : extends g g' -> posed q js line segs g -> posed q js line segs g'.
Proof.
  intros X P i j k a H. destruct (P i j k a H) as (x & seg & y & xm & z & A & B & C & D & F).
  exists x, seg, y, xm, z. split; [auto|]. split; [auto|]. split; [auto|]. split; [auto|]. eapply extends_vert; eauto.
Qed.

Lemma planes_step q js g0 ys segs x seg g line g1 plane g2 :
  planes_inv q js g0 ys segs (g, line) ->
  gen_vertices (mk_vertex q js x) seg g = Ok (g1, plane) ->
  connect2d free plane seg g1 = Ok g2 ->
  planes_inv q js g0 ys (segs ++ [(x, seg)]) (g2, line ++ [plane]).
Proof.
  intros [L X W N Ed P D Ln Sh] Hg Hc. cbn [fst snd] in *.
  destruct (gen_vertices_grew (fun _ _ _ _ => True) _ _ _ _ _ Hg) as [(X1 & W1 & _) Ee].
  pose proof (connect2d_grew _ _ _ _ _ Hc) as (X2 & W2 & N2). pose proof (connect2d_complete _ _ _ _ _ Hc) as [C1 C2].
  pose proof (gen_vertices_new _ _ _ _ _ Hg) as (P1 & P2 & P3 & P4).
  pose proof (extends_vlen _ _ X) as LX. pose proof (extends_vlen _ _ X1) as LX1. pose proof (extends_vlen _ _ X2) as LX2.
  assert (X12 : extends g g2) by (eapply extends_trans; eauto).
  assert (Cls : forall i j k a, PV (line ++ [plane]) (segs ++ [(x, seg)]) i j k a ->
     (PV line segs i j k a /\ a < length (gvert g)) \/ (i = length line /\ seg_vertex plane seg j k a /\ length (gvert g) <= a < length (gvert g1))).
  { intros i j k a H. apply PV_snoc in H; auto. destruct H as [H|[-> H]].
    - left. split; [auto|]. apply N in H. lia.
    - right. split; [auto|]. split; [auto|]. eapply gen_vertices_num; eauto. }
  assert (NG : forall a, a < length (gvert g) -> ~ grid_vertex line segs a -> ~ grid_vertex (line ++ [plane]) (segs ++ [(x, seg)]) a).
  { intros a La Na (i & j & k & H). apply Cls in H. destruct H as [[H _]|(_ & _ & H)]; [|lia]. apply Na. exists i, j, k. auto. }
  assert (NG1 : forall a, length (gvert g1) <= a -> ~ grid_vertex (line ++ [plane]) (segs ++ [(x, seg)]) a).
  { intros a La (i & j & k & H). apply Cls in H. destruct H as [[_ H]|(_ & _ & H)]; lia. }
  assert (Sn : nth_error (segs ++ [(x, seg)]) (length line) = Some (x, seg)) by (rewrite L; apply nth_snoc).
  constructor; cbn [fst snd].
  - rewrite !app_length, L. auto.
  - eapply extends_trans; eauto.
  - auto.
  - intros i j k a H. apply Cls in H. destruct H as [[H _]|(_ & _ & H)]; [apply N in H|]; lia.
  - intros k a b Hk H. destruct (Nat.lt_ge_cases k (length (gedge g))) as [Q|Q].
    + rewrite (extends_edge_inv _ _ _ X12 Q) in H. destruct (Ed k a b Hk H) as (v1 & v2 & A & B & J).
      exists v1, v2. split; [eapply extends_vert; eauto|]. split; [eapply extends_vert; eauto|].
      apply nth_error_lt in A, B. destruct J as [(i & j & k' & x' & seg' & S1 & S2 & S3 & T)|(F & J)].
      * left. exists i, j, k', x', seg'. split; [apply nth_error_app_old; auto|]. split; [apply PV_old; auto|]. split; [apply PV_old; auto|auto].
      * right. split; [auto|]. destruct J as [(i & j & k1 & k2 & S1 & S2)|[J|J]]; [left|right; left; auto|right; right; auto].
        exists i, j, k1, k2. split; [apply PV_old; auto|]. destruct S2; [left|right]; apply PV_old; auto.
    + rewrite <- Ee in Q. destruct (N2 k a b Q H) as (v1 & v2 & A & B & J). exists v1, v2. split; [auto|]. split; [auto|].
      destruct J as [(j & k' & S1 & S2 & T)|(F & J)].
      * left. exists (length line), j, k', x, seg. split; [auto|]. split; [apply PV_new; auto|]. split; [apply PV_new; auto|auto].
      * right. split; [auto|]. destruct J as [(j & k1 & k2 & S1 & S2)|[J|J]]; [left|right; left; auto|right; right; auto].
        exists (length line), j, k1, k2. split; [apply PV_new; auto|]. left. apply PV_new; auto.
  - intros i j k a H. apply Cls in H. destruct H as [[H _]|(-> & H & _)].
    + destruct (P i j k a H) as (x' & seg' & y & xm & z & A & B & C & D' & F). exists x', seg', y, xm, z.
      split; [apply nth_error_app_old; auto|]. split; [auto|]. split; [auto|]. split; [auto|]. eapply extends_vert; eauto.
    + destruct (gen_vertices_at _ _ _ _ _ _ _ _ Hg H) as (y & z & xm & A & B & C & F & _).
      exists x, seg, y, xm, z. split; [auto|]. split; [auto|]. split; [auto|]. split; [auto|]. eapply extends_vert; [exact X2|exact F].
  - destruct D as [D1 D2]. split.
    + intros a b (i & j & k & x' & seg' & S0 & S1 & S2 & T). apply Cls in S1, S2.
      destruct S1 as [[S1 _]|(-> & S1 & _)]; destruct S2 as [[S2 _]|(Ei & S2 & _)].
      * eapply extends_In; [exact X12|]. apply D1. exists i, j, k, x', seg'. split; [|auto].
        destruct S1 as (p & n & x2 & seg2 & xm & _ & _ & Q & _). pose proof (nth_error_lt _ _ _ Q) as Q'.
        rewrite nth_error_app1 in S0 by auto. auto.
      * subst i. destruct S1 as (p & n & x2 & seg2 & xm & Q & _). apply nth_error_lt in Q. lia.
      * destruct S2 as (p & n & x2 & seg2 & xm & Q & _). apply nth_error_lt in Q. lia.
      * rewrite Sn in S0. injection S0 as <- <-. eapply C1; [|exact S1|exact S2|exact T].
        destruct S1 as (n & xm & Q & _). apply nth_error_lt in Q. lia.
    + intros i j k1 k2 a b S1 S2. apply Cls in S1, S2.
      destruct S1 as [[S1 _]|(-> & S1 & _)]; destruct S2 as [[S2 _]|(Ei & S2 & _)].
      * eapply tried_mono; [|exact X12]. eapply D2; eauto.
      * subst i. destruct S1 as (p & n & x2 & seg2 & xm & Q & _). apply nth_error_lt in Q. lia.
      * destruct S2 as (p & n & x2 & seg2 & xm & Q & _). apply nth_error_lt in Q. lia.
      * eapply C2; [|exact S1|exact S2]. destruct S2 as (n & xm & Q & _). apply nth_error_lt in Q. lia.
  - intros i p x' seg' H1 H2. apply snoc_nth in H1, H2. destruct H1 as [H1|[-> ->]]; destruct H2 as [H2|[Ei E2]].
    + eapply Ln; eauto.
    + apply nth_error_lt in H1. lia.
    + apply nth_error_lt in H2. lia.
    + injection E2 as -> ->. auto.
  - intros Hy. assert (Hs : fty seg = ys) by (eapply Hy; apply nth_snoc).
    assert (S0 : shaped (length (gvert g0)) (quat_list q ++ js) (map fst segs) ys g).
    { apply Sh. intros i x' seg' H. eapply Hy. apply nth_error_app_old. exact H. }
    eapply connect2d_shaped; [| |exact Hc].
    + intros i n Hn. apply P1 in Hn. lia.
    + intros a v La Hv. destruct (Nat.lt_ge_cases a (length (gvert g))) as [Q|Q].
      * rewrite P4 in Hv by auto. destruct (S0 a v La Hv) as (x' & y & z & -> & X' & Y'). exists x', y, z. split; [auto|]. split; [|auto].
        rewrite map_app. apply in_or_app. auto.
      * destruct (P3 a v Q Hv) as (y & z & -> & Hin). exists x, y, z. split; [reflexivity|]. split; [|congruence].
        rewrite map_app. apply in_or_app. right. left. auto.
Qed.

Lemma connect_planes_inv q js ys segs g0 st : connect_planes free q js segs g0 = Ok st -> planes_inv q js g0 ys segs st.
Proof.
  unfold connect_planes. intros H.
  apply (ofold_inv_prefix _ (fun done st => planes_inv q js g0 ys done st)) with (done := []) in H; auto.
  - constructor; cbn [fst snd]; auto.
    + apply extends_refl.
    + intros i j k a (p & n & x & seg & xm & Q & _). destruct i; discriminate Q.
    + intros k a b Hk Hn. apply nth_error_lt in Hn. lia.
    + intros i j k a (p & n & x & seg & xm & Q & _). destruct i; discriminate Q.
    + split.
      * intros a b (i & j & k & x & seg & Q & _). destruct i; discriminate Q.
      * intros i j k1 k2 a b (p & n & x & seg & xm & Q & _). destruct i; discriminate Q.
    + intros i p x seg Q. destruct i; discriminate Q.
    + intros _ a v La Hv. apply nth_error_lt in Hv. lia.
  - clear. intros done [x seg] [g line] st' _ I H. ob H gp Hg. destruct gp as [g1 plane]. ob H g2 Hc. injection H as <-.
    eapply planes_step; eauto.
Qed.

(** ---- second loop ---- *)
Definition between_complete line (segs : freeseg3) (g : graph) : Prop :=
  forall i j k1 k2 a b, PV line segs i j k1 a -> PV line segs (i + 1) j k2 b -> tried free a b g.

Lemma between_grew N line segs g g' : (forall i j k a, PV line segs i j k a -> a < N) -> N = length (gvert g) ->
  between_planes free line segs g = Ok g' -> grew (J3 line segs) g g'.
Proof.
  intros HN Hg H. unfold between_planes in H. destruct segs as [|s0 segs0] eqn:Es; [discriminate H|]. rewrite <- Es in *. clear s0 segs0 Es.
  apply (ofold_inv _ (grew (J3 line segs) g)) in H; auto; [apply grew_refl|].
  clear g' H. intros i g1 g' Hi G H. ob H sg Hsg. apply at_Ok in Hsg.
  apply (ofold_inv _ (grew (J3 line segs) g)) in H; auto.
  clear g1 g' G H. intros j g1 g' Hj G H. ob H p1 Hp1. ob H n1 Hn1. ob H p2 Hp2. ob H n2 Hn2. ob H xm1 Hx1.
  apply idx_Ok in Hp1, Hn1, Hp2, Hn2, Hx1.
  apply (ofold_inv _ (grew (J3 line segs) g)) in H; auto.
  clear g1 g' G H. intros k1 g1 g' Hk1 G H. ob H sg2 Hsg2. ob H xm2 Hx2. apply at_Ok in Hsg2. apply idx_Ok in Hx2.
  apply (ofold_inv _ (grew (J3 line segs) g)) in H; auto.
  clear g1 g' G H. intros k2 g1 g' Hk2 G H. apply in_seq in Hk1, Hk2. destruct sg as [x1 seg1]. destruct sg2 as [x2 seg2]. cbn [snd] in *.
  apply (try_edge_grew _ N) in H; [|subst N; apply extends_vlen; apply G].
  eapply grew_trans; [exact G|]. eapply grew_weaken; [|exact H]. intros a b v1 v2 [F Q]. right. split; [auto|].
  destruct Q as [[-> ->]|[Q|Q]].
  - left. exists i, j, k1, k2. split; [exists p1, n1, x1, seg1, xm1|right; exists p2, n2, x2, seg2, xm2]; repeat (split; [assumption || lia|]); lia.
  - right. left. intros (i' & j' & k' & V). apply HN in V. lia.
  - right. right. intros (i' & j' & k' & V). apply HN in V. lia.
Qed.

Lemma between_shaped N tail xs ys line segs g g' :
  (forall i p j n, nth_error line i = Some p -> nth_error p j = Some n -> N <= n) ->
  shaped N tail xs ys g -> between_planes free line segs g = Ok g' -> shaped N tail xs ys g'.
Proof.
  intros HN S H. unfold between_planes in H. destruct segs as [|s0 segs0] eqn:Es; [discriminate H|]. rewrite <- Es in *. clear s0 segs0 Es.
  apply (ofold_inv _ (shaped N tail xs ys)) in H; auto.
  clear g g' S H. intros i g g' Hi S H. ob H sg Hsg.
  apply (ofold_inv _ (shaped N tail xs ys)) in H; auto.
  clear g g' S H. intros j g g' Hj S H. ob H p1 Hp1. ob H n1 Hn1. ob H p2 Hp2. ob H n2 Hn2. ob H xm1 Hx1.
  apply idx_Ok in Hp1, Hn1, Hp2, Hn2.
  apply (ofold_inv _ (shaped N tail xs ys)) in H; auto.
  clear g g' S H. intros k1 g g' Hk1 S H. ob H sg2 Hsg2. ob H xm2 Hx2.
  apply (ofold_inv _ (shaped N tail xs ys)) in H; auto.
  intros k2 t t' _ St Ht. pose proof (HN _ _ _ _ Hp1 Hn1). pose proof (HN _ _ _ _ Hp2 Hn2).
  eapply try_edge_shaped; [| |exact St|exact Ht]; lia.
Qed.

Lemma between_done line segs g g' : length line = length segs ->
  (forall i p x seg, nth_error line i = Some p -> nth_error segs i = Some (x, seg) -> length p = length (fty seg)) ->
  between_planes free line segs g = Ok g' -> extends g g' /\ between_complete line segs g'.
Proof.
  intros Ll Lp H. unfold between_planes in H. destruct segs as [|s0 segs0] eqn:Es; [discriminate H|]. rewrite <- Es in *. clear s0 segs0 Es.
  assert (St1 : forall n1 n2 xm2 k1 t t', ofold (fun g k2 => try_edge free (n1 + k1) (n2 + k2) g) (seq 0 (length xm2)) t = Ok t' ->
     extends t t' /\ forall k2, k2 < @length f64 xm2 -> tried free (n1 + k1) (n2 + k2) t').
  { intros n1 n2 xm2 k1 t t' H1. split.
    - eapply ofold_ext; [|exact H1]. intros a u u' _ Hu. apply (try_edge_tried _ _ _ _ _ Hu).
    - intros k2 Hk. refine (ofold_each _ extends (fun k2 g => tried free (n1 + k1) (n2 + k2) g) _ _ _ _ _ H1 k2 _).
      + intros a u u' _ Hu. apply (try_edge_tried _ _ _ _ _ Hu).
      + intros a u u' A B. eapply tried_mono; eauto.
      + apply in_seq. lia. }
  set (Q3 := fun i j n1 n2 k1 (g : graph) => forall x2 seg2 xm2 k2, nth_error segs (i + 1) = Some (x2, seg2) -> nth_error (fxM seg2) j = Some xm2 ->
     k2 < length xm2 -> tried free (n1 + k1) (n2 + k2) g).
  assert (Q3m : forall i j n1 n2 k1 t t', Q3 i j n1 n2 k1 t -> extends t t' -> Q3 i j n1 n2 k1 t').
  { intros i j n1 n2 k1 t t' A B x2 seg2 xm2 k2 C1 C2 C3. eapply tried_mono; [eapply A; eauto|exact B]. }
  assert (St2 : forall i j n1 n2 k1 t t', obind (at_ segs (i + 1)) (fun sg2 => obind (idx (fxM (snd sg2)) j) (fun xm2 =>
      ofold (fun g k2 => try_edge free (n1 + k1) (n2 + k2) g) (seq 0 (length xm2)) t)) = Ok t' ->
      extends t t' /\ Q3 i j n1 n2 k1 t').
  { intros i j n1 n2 k1 t t' H1. ob H1 sg2 A. ob H1 xm2 B. apply at_Ok in A. apply idx_Ok in B.
    apply St1 in H1. destruct H1 as [H1 H2]. split; [exact H1|].
    intros x2 seg2 xm2' k2 C1 C2 C3. rewrite A in C1. injection C1 as ->. cbn [snd] in B. rewrite B in C2. injection C2 as ->. auto. }
  set (Q2 := fun i j (g : graph) => forall p1 p2 n1 n2 x1 seg1 xm1, nth_error line i = Some p1 -> nth_error p1 j = Some n1 ->
     nth_error line (i + 1) = Some p2 -> nth_error p2 j = Some n2 -> nth_error segs i = Some (x1, seg1) -> nth_error (fxM seg1) j = Some xm1 ->
     forall k1, k1 < length xm1 -> Q3 i j n1 n2 k1 g).
  assert (Q2m : forall i j t t', Q2 i j t -> extends t t' -> Q2 i j t').
  { intros i j t t' A B p1 p2 n1 n2 x1 seg1 xm1 C1 C2 C3 C4 C5 C6 k1 Hk. eapply Q3m; [|exact B]. eapply A; eauto. }
  assert (St3 : forall i j x1 seg1 t t', nth_error segs i = Some (x1, seg1) ->
     obind (idx line i) (fun p1 => obind (idx p1 j) (fun n1 => obind (idx line (i + 1)) (fun p2 => obind (idx p2 j) (fun n2 =>
       obind (idx (fxM (snd (x1, seg1))) j) (fun xm1 =>
        ofold (fun g k1 => obind (at_ segs (i + 1)) (fun sg2 => obind (idx (fxM (snd sg2)) j) (fun xm2 =>
           ofold (fun g k2 => try_edge free (n1 + k1) (n2 + k2) g) (seq 0 (length xm2)) g)))
        (seq 0 (length xm1)) t))))) = Ok t' -> extends t t' /\ Q2 i j t').
  { intros i j x1 seg1 t t' Hs H1. ob H1 p1 A1. ob H1 n1 A2. ob H1 p2 A3. ob H1 n2 A4. ob H1 xm1 A5. apply idx_Ok in A1, A2, A3, A4, A5. cbn [snd] in A5.
    split.
    - eapply ofold_ext; [|exact H1]. intros a u u' _ Hu. apply (St2 _ _ _ _ _ _ _ Hu).
    - intros p1' p2' n1' n2' x1' seg1' xm1' B1 B2 B3 B4 B5 B6 k1 Hk.
      rewrite B1 in A1. injection A1 as <-. rewrite B2 in A2. injection A2 as <-. rewrite B3 in A3. injection A3 as <-. rewrite B4 in A4. injection A4 as <-.
      rewrite Hs in B5. injection B5 as <- <-. rewrite B6 in A5. injection A5 as <-.
      refine (ofold_each _ extends (fun k1 g => Q3 i j n1' n2' k1 g) _ _ _ _ _ H1 k1 _).
      + intros a u u' _ Hu. apply (St2 _ _ _ _ _ _ _ Hu).
      + intros a u u' A B. eapply Q3m; eauto.
      + apply in_seq. lia. }
  set (Q1 := fun i (g : graph) => forall x1 seg1, nth_error segs i = Some (x1, seg1) -> forall j, j < length (fty seg1) -> Q2 i j g).
  assert (St4 : forall i t t', obind (at_ segs i) (fun sg => ofold (fun g j =>
     obind (idx line i) (fun p1 => obind (idx p1 j) (fun n1 => obind (idx line (i + 1)) (fun p2 => obind (idx p2 j) (fun n2 =>
       obind (idx (fxM (snd sg)) j) (fun xm1 =>
        ofold (fun g k1 => obind (at_ segs (i + 1)) (fun sg2 => obind (idx (fxM (snd sg2)) j) (fun xm2 =>
           ofold (fun g k2 => try_edge free (n1 + k1) (n2 + k2) g) (seq 0 (length xm2)) g)))
        (seq 0 (length xm1)) g)))))) (seq 0 (length (fty (snd sg)))) t) = Ok t' -> extends t t' /\ Q1 i t').
  { intros i t t' H1. ob H1 sg A. apply at_Ok in A. destruct sg as [x1 seg1]. split.
    - eapply ofold_ext; [|exact H1]. intros a u u' _ Hu. apply (St3 _ _ _ _ _ _ A Hu).
    - intros x1' seg1' B j Hj. rewrite A in B. injection B as <- <-.
      refine (ofold_each _ extends (fun j g => Q2 i j g) _ _ _ _ _ H1 j _).
      + intros a u u' _ Hu. apply (St3 _ _ _ _ _ _ A Hu).
      + intros a u u' B C. eapply Q2m; eauto.
      + apply in_seq. cbn [snd]. lia. }
  split.
  - eapply ofold_ext; [|exact H]. intros a u u' _ Hu. apply (St4 _ _ _ Hu).
  - intros i j k1 k2 a b (p1 & n1 & x1 & seg1 & xm1 & A1 & A2 & A3 & A4 & A5 & ->) (p2 & n2 & x2 & seg2 & xm2 & B1 & B2 & B3 & B4 & B5 & ->).
    assert (Q : Q1 i g').
    { refine (ofold_each _ extends (fun i g => Q1 i g) _ _ _ _ _ H i _).
      + intros c u u' _ Hu. apply (St4 _ _ _ Hu).
      + intros c u u' C D x seg F j' Hj'. eapply Q2m; [|exact D]. eapply C; eauto.
      + apply in_seq. apply nth_error_lt in B3. lia. }
    eapply (Q _ _ A3 j); eauto. apply nth_error_lt in A2. rewrite (Lp _ _ _ _ A1 A3) in A2. exact A2.
Qed.

(** ---- the whole slice ---- *)
Lemma connect3d_spec q js ys segs g0 g' line : connect3d free q js segs g0 = Ok (g', line) ->
  segs <> [] /\ length line = length segs /\ extends g0 g' /\ (well_formed g0 -> well_formed g') /\
  (forall i j k a, PV line segs i j k a -> length (gvert g0) <= a < length (gvert g')) /\
  new_edges g0 g' (J3 line segs) /\ posed q js line segs g' /\
  (forall i p x seg, nth_error line i = Some p -> nth_error segs i = Some (x, seg) -> length p = length (fty seg)) /\
  (forall a b, line_neighbours line segs a b -> In (a, b) (gedge g')) /\
  (forall a b, grid_neighbours line segs a b -> tried free a b g') /\
  ((forall i x seg, nth_error segs i = Some (x, seg) -> fty seg = ys) ->
     shaped (length (gvert g0)) (quat_list q ++ js) (map fst segs) ys g').
Proof.
  unfold connect3d. intros H. ob H gl Hp. destruct gl as [g1 ln]. ob H g2 Hb. injection H as <- <-. cbn [fst snd] in *.
  pose proof (connect_planes_inv _ _ ys _ _ _ Hp) as [L X W N Ed P [D1 D2] Ln Sh]. cbn [fst snd] in *.
  assert (Nl : forall i j k a, PV ln segs i j k a -> a < length (gvert g1)) by (intros i j k a Q; apply N in Q; lia).
  pose proof (between_grew _ _ _ _ _ Nl eq_refl Hb) as (X2 & W2 & Ed2).
  pose proof (between_done _ _ _ _ L Ln Hb) as [_ Bd].
  pose proof (extends_vlen _ _ X2) as LX2.
  split; [intros ->; discriminate Hb|]. split; [auto|]. split; [eapply extends_trans; eauto|]. split; [auto|]. split.
  { intros i j k a Q. apply N in Q. lia. }
  split.
  { intros k a b Hk Hn. destruct (Nat.lt_ge_cases k (length (gedge g1))) as [Q|Q]; [|eapply Ed2; eauto].
    rewrite (extends_edge_inv _ _ _ X2 Q) in Hn. destruct (Ed k a b Hk Hn) as (v1 & v2 & A & B & J).
    exists v1, v2. eauto using extends_vert. }
  split; [eapply posed_ext; eauto|]. split; [exact Ln|]. split.
  { intros a b Q. eapply extends_In; eauto. }
  split.
  { intros a b (i & j & k1 & k2 & A & [B|B]); [|eapply Bd; eauto]. eapply tried_mono; [eapply D2; eauto|exact X2]. }
  intros Hy. eapply between_shaped; [|apply Sh; exact Hy|exact Hb].
  clear - Hp. unfold connect_planes in Hp.
  assert (I : forall i p j n, nth_error (snd (g1, ln)) i = Some p -> nth_error p j = Some n -> length (gvert g0) <= n).
  { apply (ofold_inv _ (fun st : graph * list (list nat) => length (gvert g0) <= length (gvert (fst st)) /\
      forall i p j n, nth_error (snd st) i = Some p -> nth_error p j = Some n -> length (gvert g0) <= n)) in Hp; [apply Hp| |].
    - split; [auto|]. intros i p j n Q. destruct i; discriminate Q.
    - intros [x seg] [g l] st _ [A B] H. cbn [fst snd] in *. ob H gp Hg. destruct gp as [g2 plane]. ob H g3 Hc. injection H as <-. cbn [fst snd] in *.
      destruct (gen_vertices_grew (fun _ _ _ _ => True) _ _ _ _ _ Hg) as [(X1 & _) _]. pose proof (connect2d_grew _ _ _ _ _ Hc) as (X2 & _).
      apply extends_vlen in X1, X2. split; [lia|]. intros i p j n Q1 Q2. apply snoc_nth in Q1. destruct Q1 as [Q1|[_ ->]]; [eauto|].
      pose proof (gen_vertices_new _ _ _ _ _ Hg) as (P1 & _). apply P1 in Q2. lia. }
  exact I.
Qed.
End Slice.
