From Coq Require Import List Bool Arith Lia ZArith Reals Lra.
From Verif.Base Require Import Outcome Float64.
From Verif.Model Require Import MScalar MDistance MInterval MFreeSpace MLine2D MGraph MSearch MHRM2D.
From Verif.Spec Require Import SGraph SPlanner2D.
From Verif.Proofs Require Import PGraph PHRM2D.
Import ListNotations.

Lemma fltb_num x y : fltb x y = true -> fisnan x = false /\ fisnan y = false.
Proof.
  intros H. split; [destruct (fisnan x) eqn:N; [rewrite fltb_nan_l in H by auto; discriminate H|auto]|].
  destruct (fisnan y) eqn:N; [rewrite fltb_nan_r in H by auto; discriminate H|auto].
Qed.
Lemma fltb_trans x y z : fltb x y = true -> fltb y z = true -> fltb x z = true.
Proof.
  intros H1 H2. destruct (fltb_num _ _ H1) as [A B]. destruct (fltb_num _ _ H2) as [_ C].
  apply fltb_val in H1; auto. apply fltb_val in H2; auto. apply fltb_val; auto. lra.
Qed.
Lemma fltb_irrefl x : fltb x x = false.
Proof.
  destruct (fltb x x) eqn:H; auto. destruct (fltb_num _ _ H) as [A _]. apply fltb_val in H; auto. lra.
Qed.

Lemma angle_list_len a radius k hs : forall acc, length acc <= Nat.max 1 k ->
  (k <= length acc -> hs = [] \/ acc = []) ->
  length (angle_list a radius k hs acc) <= Nat.max 1 k /\ length (angle_list a radius k hs acc) <= length acc + length hs /\
  (forall h, In h (angle_list a radius k hs acc) -> In h acc \/ In h hs /\ fltb (fabs (fsub a h)) radius = true).
Proof.
  induction hs as [|h hs IH]; intros acc L S; cbn [angle_list length].
  - split; [auto|]. split; [lia|]. auto.
  - destruct (fltb (fabs (fsub a h)) radius) eqn:C.
    + rewrite app_length. cbn [length]. destruct (Nat.leb_spec k (length acc + 1)) as [K|K].
      * rewrite app_length. cbn [length]. split; [|split; [lia|]].
        { destruct (le_lt_dec k (length acc)) as [K'|K']; [|lia]. destruct (S K') as [Q|Q]; [discriminate Q|subst acc; cbn [length]; lia]. }
        intros x Hx. apply in_app_or in Hx. destruct Hx as [Hx|[<-|[]]]; [auto|right; split; [left; auto|auto]].
      * destruct (IH (acc ++ [h])) as (A & B & D); rewrite ?app_length in *; cbn [length] in *; [lia|intros; lia|].
        split; [auto|]. split; [lia|]. intros x Hx. destruct (D x Hx) as [Q|[Q1 Q2]]; [|right; split; [right; auto|auto]].
        apply in_app_or in Q. destruct Q as [Q|[<-|[]]]; [auto|right; split; [left; auto|auto]].
    + destruct (Nat.leb_spec k (length acc)) as [K|K].
      * split; [auto|]. split; [lia|auto].
      * destruct (IH acc) as (A & B & D); [auto|intros; lia|]. split; [auto|]. split; [lia|].
        intros x Hx. destruct (D x Hx) as [Q|[Q1 Q2]]; [auto|right; split; [right; auto|auto]].
Qed.

Lemma nearest_in_slice_spec vs q ang i : nearest_in_slice vs q ang = Ok i ->
  exists d0, dist_to vs q 0 d0 /\ i < length vs /\
  ((i = 0 /\ forall j d, in_slice vs ang j -> dist_to vs q j d -> fltb d d0 = false) \/
   (exists di, in_slice vs ang i /\ dist_to vs q i di /\ fltb di d0 = true /\
      (forall j d, in_slice vs ang j -> dist_to vs q j d -> fltb d di = false) /\
      (forall j d, j < i -> in_slice vs ang j -> dist_to vs q j d -> fltb d d0 = true -> fltb di d = true))).
Proof.
  unfold nearest_in_slice. intros H. ob H v0 H0. ob H d0 Hd. ob H r Hr. injection H as <-. apply idx_Ok in H0.
  exists d0. split; [exists v0; auto|].
  set (f := fun '((d, best) : f64 * nat) '((i, v) : nat * pose) =>
     obind (vec_euclid F64 q v) (fun e => if fltb e d then obind (idx v 2) (fun c =>
       Ok (if fltb (fabs (fsub c ang)) cEPS then (e, i) else (d, best))) else Ok (d, best))) in *.
  assert (Main : forall k ls (st st' : f64 * nat), k + length ls = length vs ->
     (forall m v, nth_error ls m = Some v -> nth_error vs (k + m) = Some v) ->
     let I := fun (st : f64 * nat) (k : nat) =>
       (st = (d0, 0) /\ forall j d, j < k -> in_slice vs ang j -> dist_to vs q j d -> fltb d d0 = false) \/
       (exists di i, st = (di, i) /\ i < length vs /\ in_slice vs ang i /\ dist_to vs q i di /\ fltb di d0 = true /\
         (forall j d, j < k -> in_slice vs ang j -> dist_to vs q j d -> fltb d di = false) /\
         (forall j d, j < i -> in_slice vs ang j -> dist_to vs q j d -> fltb d d0 = true -> fltb di d = true)) in
     I st k -> ofold f (combine (seq k (length ls)) ls) st = Ok st' -> I st' (length vs)).
  { intros k ls. revert k. induction ls as [|v ls IH]; intros k st st' Hk Hls I HI Hf.
    - cbn [length seq combine ofold] in *. injection Hf as <-. replace (length vs) with k by lia. exact HI.
    - cbn [length seq combine ofold] in Hf. ob Hf st1 H1. cbn [length] in Hk.
      pose proof (Hls 0 v eq_refl) as Hv. rewrite Nat.add_0_r in Hv.
      apply (IH (S k) st1 st'); [lia|intros m w Hm; replace (S k + m) with (k + S m) by lia; apply Hls; auto| |exact Hf].
      clear IH Hf. change (I st1 (S k)).
      assert (Lk : k < length vs) by lia.
      unfold f in H1. destruct st as [d best]. ob H1 e He.
      assert (De : dist_to vs q k e) by (exists v; auto).
      assert (Same : forall j d', j = k -> dist_to vs q j d' -> d' = e).
      { intros j d' -> (w & W1 & W2). congruence. }
      destruct (fltb e d) eqn:Ed.
      + ob H1 c Hc. apply idx_Ok in Hc. injection H1 as <-.
        destruct (fltb (fabs (fsub c ang)) cEPS) eqn:Ec.
        * assert (Sk : in_slice vs ang k) by (exists v, c; auto).
          right. exists e, k. split; [auto|]. split; [auto|]. split; [auto|]. split; [auto|].
          destruct HI as [[Q HI]|(di & i & Q & Li & Si & Di & Lt & Min & First)]; injection Q as -> ->.
          { split; [auto|]. split.
            - intros j d' Hj Sj Dj. destruct (Nat.eq_dec j k) as [J|J].
              + rewrite (Same j d' J Dj). apply fltb_irrefl.
              + destruct (fltb d' e) eqn:X; auto.
                pose proof (fltb_trans _ _ _ X Ed) as Y. rewrite (HI j d' ltac:(lia) Sj Dj) in Y. discriminate Y.
            - intros j d' Hj Sj Dj Lj. rewrite (HI j d' ltac:(lia) Sj Dj) in Lj. discriminate Lj. }
          { split; [eapply fltb_trans; eauto|]. split.
            - intros j d' Hj Sj Dj. destruct (Nat.eq_dec j k) as [J|J].
              + rewrite (Same j d' J Dj). apply fltb_irrefl.
              + destruct (fltb d' e) eqn:X; auto. pose proof (fltb_trans _ _ _ X Ed) as Y.
                rewrite (Min j d' ltac:(lia) Sj Dj) in Y. discriminate Y.
            - intros j d' Hj Sj Dj Lj.
              pose proof (Min j d' ltac:(lia) Sj Dj) as Mj.
              destruct (fltb_num _ _ Lj) as [N1 _]. destruct (fltb_num _ _ Ed) as [N2 N3].
              apply fltb_val_false in Mj; auto. apply fltb_val in Ed; auto. apply fltb_val; auto. lra. }
        * assert (NS : ~ in_slice vs ang k).
          { intros (w & c' & W1 & W2 & W3). congruence. }
          destruct HI as [[Q HI]|(di & i & Q & Li & Si & Di & Lt & Min & First)]; injection Q as -> ->.
          { left. split; [auto|]. intros j d' Hj Sj Dj. destruct (Nat.eq_dec j k) as [->|J]; [tauto|]. apply HI with (j := j); auto; lia. }
          { right. exists di, i. split; [auto|]. split; [auto|]. split; [auto|]. split; [auto|]. split; [auto|]. split; [|auto].
            intros j d' Hj Sj Dj. destruct (Nat.eq_dec j k) as [->|J]; [tauto|]. apply Min with (j := j); auto; lia. }
      + injection H1 as <-.
        destruct HI as [[Q HI]|(di & i & Q & Li & Si & Di & Lt & Min & First)]; injection Q as -> ->.
        { left. split; [auto|]. intros j d' Hj Sj Dj. destruct (Nat.eq_dec j k) as [J|J]; [rewrite (Same j d' J Dj); auto|].
          apply HI with (j := j); auto; lia. }
        { right. exists di, i. split; [auto|]. split; [auto|]. split; [auto|]. split; [auto|]. split; [auto|]. split; [|auto].
          intros j d' Hj Sj Dj. destruct (Nat.eq_dec j k) as [J|J]; [rewrite (Same j d' J Dj); auto|]. apply Min with (j := j); auto; lia. } }
  assert (L0 : 0 < length vs) by (apply nth_error_lt in H0; auto).
  assert (In' : forall j v, nth_error vs j = Some v -> j < length vs) by (intros j v Hj; eapply nth_error_lt; eauto).
  destruct (Main 0 vs (d0, 0) r ltac:(lia) ltac:(intros; auto) ltac:(left; split; [auto|intros; lia]) Hr)
    as [[-> HI]|(di & i & -> & Li & Si & Di & Lt & Min & First)]; cbn [snd].
  - split; [auto|]. left. split; [auto|]. intros j d (v & c & Hv & X) Dj. apply HI with (j := j); eauto. exists v, c; auto.
  - split; [auto|]. right. exists di. split; [auto|]. split; [auto|]. split; [auto|]. split.
    + intros j d Sj Dj. apply Min with (j := j); auto. destruct Sj as (v & c & Hv & _). eauto.
    + intros j d Hj Sj Dj Lj. eapply First; eauto.
Qed.

Lemma fltb_ge_trans x y z : fltb x y = true -> fltb z y = false -> fisnan z = true \/ fltb x z = true.
Proof.
  intros H K. destruct (fisnan z) eqn:N; [auto|right]. destruct (fltb_num _ _ H) as [A B].
  apply fltb_val in H; auto. apply fltb_val; auto. destruct (Rlt_or_le (fval z) (fval y)) as [Q|Q]; [|lra].
  apply fltb_val in Q; auto. congruence.
Qed.
Lemma ofold_split {A S} (f : S -> A -> outcome S) (I : list A -> S -> Prop) l :
  (forall done a rest s s', l = done ++ a :: rest -> I done s -> f s a = Ok s' -> I (done ++ [a]) s') ->
  forall rest done s s', l = done ++ rest -> I done s -> ofold f rest s = Ok s' -> I l s'.
Proof.
  intros Hf. induction rest as [|a rest IH]; intros done s s' Hl Hs H; cbn [ofold] in H.
  - injection H as <-. rewrite app_nil_r in Hl. subst l. exact Hs.
  - ob H s1 H1. apply (IH (done ++ [a]) s1 s'); [rewrite <- app_assoc; exact Hl|exact (Hf _ _ _ _ _ Hl Hs H1)|exact H].
Qed.
Lemma closest_angle_spec vs q2 a : closest_angle vs q2 = Ok a -> closest_heading vs q2 a.
Proof.
  unfold closest_angle. intros H. ob H v0 H0. ob H a0 Ha0. ob H r Hr. injection H as <-. apply idx_Ok in H0, Ha0.
  destruct r as [d x]. cbn [snd].
  unshelve refine ((fun Z => _) (ofold_split _ (fun done '(d, a) => d = fabs (fsub q2 a) /\ exists i v, nth_error vs i = Some v /\ nth_error v 2 = Some a /\ i <= length done - 1 /\
     forall j w c, j < length done -> nth_error vs j = Some w -> nth_error w 2 = Some c ->
       fltb (fabs (fsub q2 c)) d = false /\ (j < i -> fisnan (fabs (fsub q2 c)) = true \/ fltb d (fabs (fsub q2 c)) = true)) vs _ vs [] _ _ eq_refl _ Hr)); clear Hr.
  - destruct Z as (-> & i & v & Hv & Ha & _ & M). exists i, v. split; [exact Hv|]. split; [exact Ha|].
    intros j w c Hw Hc. apply (M j w c); auto. apply nth_error_lt in Hw. exact Hw.
  - intros done v rest [d1 a1] [d2 a2] Hl Inv Step. revert Step Inv. cbn beta iota. intros Step (-> & i & u & Hu & Hua & Hi & M).
    ob Step c Hc. apply idx_Ok in Hc. assert (Hv : nth_error vs (length done) = Some v).
    { cbn [app] in Hl. rewrite Hl, nth_error_app2, Nat.sub_diag by lia. reflexivity. }
    rewrite app_length. cbn [length].
    destruct (fltb (fabs (fsub q2 c)) (fabs (fsub q2 a1))) eqn:C.
    + injection Step as <- <-. split; [reflexivity|]. exists (length done), v. split; [exact Hv|]. split; [exact Hc|]. split; [lia|].
      intros j w e Hj Hw He. destruct (Nat.eq_dec j (length done)) as [->|Nj].
      * pose proof (eq_trans (eq_sym Hw) Hv) as Q. injection Q as ->. pose proof (eq_trans (eq_sym He) Hc) as Q. injection Q as ->.
        split; [apply fltb_irrefl|lia].
      * destruct (M j w e ltac:(lia) Hw He) as [M1 _]. split; [|intros _; exact (fltb_ge_trans _ _ _ C M1)].
        destruct (fltb_ge_trans _ _ _ C M1) as [Q|Q]; [apply fltb_nan_l; exact Q|].
        destruct (fltb (fabs (fsub q2 e)) (fabs (fsub q2 c))) eqn:Z; [|reflexivity]. pose proof (fltb_trans _ _ _ Z Q) as Y. rewrite fltb_irrefl in Y. discriminate Y.
    + injection Step as <- <-. split; [reflexivity|]. exists i, u. split; [exact Hu|]. split; [exact Hua|]. split; [lia|].
      intros j w e Hj Hw He. destruct (Nat.eq_dec j (length done)) as [->|Nj].
      * pose proof (eq_trans (eq_sym Hw) Hv) as Q. injection Q as ->. pose proof (eq_trans (eq_sym He) Hc) as Q. injection Q as ->.
        split; [exact C|]. intros Q. destruct (length done); lia.
      * apply (M j w e); auto; lia.
  - split; [reflexivity|]. exists 0, v0. split; [exact H0|]. split; [exact Ha0|]. split; [lia|]. intros j w c Hj. cbn [length] in Hj. lia.
Qed.

Lemma angle_list_exact a radius k hs : 1 <= k ->
  angle_list a radius k hs [] = firstn k (filter (fun h => fltb (fabs (fsub a h)) radius) hs).
Proof.
  intros K. assert (G : forall acc, length acc < k -> angle_list a radius k hs acc = acc ++ firstn (k - length acc) (filter (fun h => fltb (fabs (fsub a h)) radius) hs)).
  { induction hs as [|h hs IH]; intros acc L; cbn [angle_list filter]; [rewrite firstn_nil, app_nil_r; reflexivity|].
    destruct (fltb (fabs (fsub a h)) radius).
    - rewrite app_length. cbn [length]. destruct (Nat.leb_spec k (length acc + 1)) as [Q|Q].
      + replace (k - length acc) with 1 by lia. reflexivity.
      + rewrite IH by (rewrite app_length; cbn [length]; lia). rewrite app_length. cbn [length]. rewrite <- app_assoc. f_equal.
        replace (k - length acc) with (S (k - (length acc + 1))) by lia. reflexivity.
    - destruct (Nat.leb_spec k (length acc)) as [Q|Q]; [lia|]. apply IH. exact L. }
  rewrite (G [] ltac:(cbn; lia)). cbn [length app]. rewrite Nat.sub_0_r. reflexivity.
Qed.

Section P.
Variable E : env.
Notation st := (state E).

Lemma nearest_neighbors_spec (s : st) q k radius l : nearest_neighbors E s q k radius = Ok l ->
  exists a, closest_angle (gvert (p_graph s)) match nth_error q 2 with Some x => x | None => fnan end = Ok a /\
    length l <= Nat.max 1 k /\ length l <= length (p_headings s) /\
    forall i, In i l -> i < length (gvert (p_graph s)) /\ in_window E s q radius i /\
      exists h, In h (p_headings s) /\ fltb (fabs (fsub a h)) radius = true /\ nearest_in_slice (gvert (p_graph s)) q h = Ok i.
Proof.
  unfold nearest_neighbors. intros H. ob H v0 H0. ob H c0 Hc. ob H q2 Hq. ob H a Ha. apply idx_Ok in Hq. rewrite Hq.
  exists a. split; [auto|].
  destruct (angle_list_len a radius k (p_headings s) []) as (L1 & L2 & L3); [cbn [length]; lia|auto|].
  set (al := angle_list a radius k (p_headings s) []) in *. cbn [length Nat.add] in L2.
  assert (Main : forall al' acc l', (forall h, In h al' -> In h al) -> ofold (fun acc ang =>
    obind (nearest_in_slice (gvert (p_graph s)) q ang) (fun i => obind (idx q 1) (fun q1 => obind (idx (gvert (p_graph s)) i) (fun v =>
    obind (idx v 1) (fun y => obind (lim E 0) (fun l0 => obind (lim E 1) (fun l1 =>
    if fltb (fabs (fsub q1 y)) (fdiv (fmul radius (fsub l1 l0)) (fofnat (p_numLineY s))) then Ok (acc ++ [i]) else Ok acc))))))) al' acc = Ok l' ->
    (forall i, In i acc -> i < length (gvert (p_graph s)) /\ in_window E s q radius i /\
      exists h, In h (p_headings s) /\ fltb (fabs (fsub a h)) radius = true /\ nearest_in_slice (gvert (p_graph s)) q h = Ok i) ->
    length l' <= length acc + length al' /\
    (forall i, In i l' -> i < length (gvert (p_graph s)) /\ in_window E s q radius i /\
      exists h, In h (p_headings s) /\ fltb (fabs (fsub a h)) radius = true /\ nearest_in_slice (gvert (p_graph s)) q h = Ok i)).
  { induction al' as [|h al' IH]; intros acc l' Hsub Hf Hacc; cbn [ofold] in Hf.
    - injection Hf as <-. split; [lia|auto].
    - ob Hf acc1 H1. ob H1 i Hi. ob H1 q1 Hq1. ob H1 v Hv. ob H1 y Hy. ob H1 l0 Hl0. ob H1 l1 Hl1.
      apply idx_Ok in Hq1, Hv, Hy, Hl0, Hl1.
      destruct (fltb (fabs (fsub q1 y)) (fdiv (fmul radius (fsub l1 l0)) (fofnat (p_numLineY s)))) eqn:C; injection H1 as <-.
      + destruct (IH (acc ++ [i]) l') as [A B]; auto.
        * intros; apply Hsub; right; auto.
        * intros j Hj. apply in_app_or in Hj. destruct Hj as [Hj|[<-|[]]]; [auto|].
          split; [apply nth_error_lt in Hv; auto|]. split; [exists v, y, q1, l0, l1; auto 10|].
          destruct (L3 h (Hsub h (or_introl eq_refl))) as [[]|[X Y]]. eauto.
        * rewrite app_length in A. cbn [length] in *. split; [lia|auto].
      + destruct (IH acc l') as [A B]; auto. { intros; apply Hsub; right; auto. } split; [cbn [length]; lia|auto]. }
  destruct (Main al [] l (fun h X => X) H) as [A B]; [intros i []|]. cbn [length Nat.add] in A.
  split; [lia|]. split; [lia|auto].
Qed.

Lemma nearest_neighbors_exact (s : st) q k radius l : nearest_neighbors E s q k radius = Ok l -> 1 <= k ->
  exists a q2 picks, nth_error q 2 = Some q2 /\ closest_heading (gvert (p_graph s)) q2 a /\
    Forall2 (fun h i => nearest_in_slice (gvert (p_graph s)) q h = Ok i)
      (firstn k (filter (fun h => fltb (fabs (fsub a h)) radius) (p_headings s))) picks /\
    kept (in_window E s q radius) picks l.
Proof.
  unfold nearest_neighbors. intros H K. ob H v0 H0. ob H c0 Hc. ob H q2 Hq. ob H a Ha. apply idx_Ok in Hq.
  apply closest_angle_spec in Ha. rewrite angle_list_exact in H by exact K.
  assert (G : forall hs acc l, ofold (fun acc ang =>
    obind (nearest_in_slice (gvert (p_graph s)) q ang) (fun i => obind (idx q 1) (fun q1 => obind (idx (gvert (p_graph s)) i) (fun v =>
    obind (idx v 1) (fun y => obind (lim E 0) (fun l0 => obind (lim E 1) (fun l1 =>
    if fltb (fabs (fsub q1 y)) (fdiv (fmul radius (fsub l1 l0)) (fofnat (p_numLineY s))) then Ok (acc ++ [i]) else Ok acc))))))) hs acc = Ok l ->
    exists picks l', Forall2 (fun h i => nearest_in_slice (gvert (p_graph s)) q h = Ok i) hs picks /\ l = acc ++ l' /\ kept (in_window E s q radius) picks l').
  { clear. induction hs as [|h hs IH]; intros acc l Hf; cbn [ofold] in Hf.
    - injection Hf as <-. exists [], []. split; [constructor|]. split; [rewrite app_nil_r; reflexivity|constructor].
    - ob Hf acc1 H1. ob H1 i Hi. ob H1 q1 Hq1. ob H1 v Hv. ob H1 y Hy. ob H1 l0 Hl0. ob H1 l1 Hl1.
      apply idx_Ok in Hq1, Hv, Hy, Hl0, Hl1.
      destruct (fltb (fabs (fsub q1 y)) (fdiv (fmul radius (fsub l1 l0)) (fofnat (p_numLineY s)))) eqn:C; injection H1 as <-.
      + destruct (IH _ _ Hf) as (ps & l' & P & -> & Kp). exists (i :: ps), (i :: l'). split; [constructor; auto|]. split; [rewrite <- app_assoc; reflexivity|].
        constructor; [exists v, y, q1, l0, l1; auto 10|exact Kp].
      + destruct (IH _ _ Hf) as (ps & l' & P & -> & Kp). exists (i :: ps), l'. split; [constructor; auto|]. split; [reflexivity|].
        constructor; [|exact Kp]. intros (v' & y' & q1' & l0' & l1' & A1 & A2 & A3 & A4 & A5 & A6).
        pose proof (eq_trans (eq_sym A1) Hv) as Q. injection Q as ->. pose proof (eq_trans (eq_sym A2) Hy) as Q. injection Q as ->.
        pose proof (eq_trans (eq_sym A3) Hq1) as Q. injection Q as ->. pose proof (eq_trans (eq_sym A4) Hl0) as Q. injection Q as ->.
        pose proof (eq_trans (eq_sym A5) Hl1) as Q. injection Q as ->. congruence. }
  destruct (G _ _ _ H) as (picks & l' & P & -> & Kp). exists a, q2, picks. split; [exact Hq|]. split; [exact Ha|]. split; [exact P|exact Kp].
Qed.

Lemma nearest_neighbors_empty (s : st) q k radius : gvert (p_graph s) = [] -> nearest_neighbors E s q k radius = UB.
Proof. intros H. unfold nearest_neighbors. rewrite H. reflexivity. Qed.

(** No undefined behaviour on a non-empty planar roadmap. *)
Lemma vdiff_total (v1 v2 : list f64) : length v1 <= length v2 -> exists d, vdiff F64 v1 v2 = Ok d.
Proof.
  revert v2; induction v1 as [|x v1 IH]; intros [|y v2] H; cbn [vdiff length] in *; try lia; eauto.
  destruct (IH v2 ltac:(lia)) as (d & ->). cbn [obind]. eauto.
Qed.
Lemma vec_euclid_total (v1 v2 : list f64) : length v1 <= length v2 -> exists d, vec_euclid F64 v1 v2 = Ok d.
Proof. intros H. unfold vec_euclid. destruct (vdiff_total v1 v2 H) as (d & ->). cbn [obind]. eauto. Qed.
Lemma ofold_total {A S} (f : S -> A -> outcome S) l : (forall a s, In a l -> exists s', f s a = Ok s') -> forall s, exists s', ofold f l s = Ok s'.
Proof.
  induction l as [|x l IH]; intros H s; cbn [ofold]; [eauto|]. destruct (H x s (or_introl eq_refl)) as (s1 & ->). cbn [obind].
  apply IH. intros; apply H; right; auto.
Qed.
Lemma nth_some {A} (l : list A) i : i < length l -> exists x, nth_error l i = Some x.
Proof. intros H. destruct (nth_error l i) eqn:Q; eauto. apply nth_error_None in Q. lia. Qed.

Lemma nearest_neighbors_total (s : st) q k radius :
  gvert (p_graph s) <> [] -> Forall (fun v => length v = 3) (gvert (p_graph s)) -> length q = 3 -> 2 <= length (e_limits E) ->
  exists l, nearest_neighbors E s q k radius = Ok l.
Proof.
  intros Ne F Lq Ll. set (vs := gvert (p_graph s)) in *.
  assert (F' : forall i v, nth_error vs i = Some v -> length v = 3).
  { intros i v Hv. rewrite Forall_forall in F. apply F. eapply nth_error_In; eauto. }
  assert (L0 : 0 < length vs) by (destruct vs; [congruence|cbn; lia]).
  destruct (nth_some vs 0 L0) as (v0 & H0). pose proof (F' _ _ H0) as Lv0.
  destruct (nth_some v0 2 ltac:(lia)) as (c0 & Hc0). destruct (nth_some q 2 ltac:(lia)) as (q2 & Hq2).
  destruct (nth_some q 1 ltac:(lia)) as (q1 & Hq1).
  destruct (nth_some (e_limits E) 0 ltac:(lia)) as (l0 & Hl0). destruct (nth_some (e_limits E) 1 ltac:(lia)) as (l1 & Hl1).
  unfold nearest_neighbors. fold vs. rewrite (proj2 (idx_Ok _ _ _) H0). cbn [obind]. rewrite (proj2 (idx_Ok _ _ _) Hc0). cbn [obind].
  rewrite (proj2 (idx_Ok _ _ _) Hq2). cbn [obind].
  assert (A : exists a, closest_angle vs q2 = Ok a).
  { unfold closest_angle. rewrite (proj2 (idx_Ok _ _ _) H0). cbn [obind]. rewrite (proj2 (idx_Ok _ _ _) Hc0). cbn [obind].
    match goal with |- exists a, obind (ofold ?f ?l ?s0) _ = _ => destruct (fun X => ofold_total f l X s0) as (r & ->) end.
    - intros v [d a] Hv. apply In_nth_error in Hv. destruct Hv as (i & Hv).
      destruct (nth_some v 2) as (c & Hc); [rewrite (F' _ _ Hv); lia|]. rewrite (proj2 (idx_Ok _ _ _) Hc). cbn [obind]. eauto.
    - cbn [obind]. eauto. }
  destruct A as (a & ->). cbn [obind].
  apply ofold_total. intros h acc _.
  assert (B : exists i, nearest_in_slice vs q h = Ok i).
  { unfold nearest_in_slice. rewrite (proj2 (idx_Ok _ _ _) H0). cbn [obind].
    destruct (vec_euclid_total q v0 ltac:(lia)) as (d0 & ->). cbn [obind].
    match goal with |- exists a, obind (ofold ?f ?l ?s0) _ = _ => destruct (fun X => ofold_total f l X s0) as (r & ->) end.
    - intros [i v] [d b] Hin. apply in_combine_r in Hin. apply In_nth_error in Hin. destruct Hin as (j & Hv).
      destruct (vec_euclid_total q v) as (e & ->); [pose proof (F' _ _ Hv) as Q; change (@length f64 q <= @length f64 v); change (@length f64 q = 3) in Lq; change (@length f64 v = 3) in Q; lia|]. cbn [obind].
      destruct (fltb e d); [|eauto]. destruct (@nth_some f64 v 2) as (c & Hc); [pose proof (F' _ _ Hv) as Q; change (@length f64 v = 3) in Q; lia|].
      match goal with |- context [@idx ?T v 2] => replace (@idx T v 2) with (@Ok T c) by (symmetry; apply idx_Ok; exact Hc) end. cbn [obind]. eauto.
    - cbn [obind]. eauto. }
  destruct B as (i & B). rewrite B. cbn [obind]. rewrite (proj2 (idx_Ok _ _ _) Hq1). cbn [obind].
  apply nearest_in_slice_spec in B. destruct B as (_ & _ & Li & _).
  destruct (nth_some vs i Li) as (v & Hv). rewrite (proj2 (idx_Ok _ _ _) Hv). cbn [obind].
  destruct (nth_some v 1) as (y & Hy); [rewrite (F' _ _ Hv); lia|]. rewrite (proj2 (idx_Ok _ _ _) Hy). cbn [obind].
  unfold lim. rewrite (proj2 (idx_Ok _ _ _) Hl0). cbn [obind]. rewrite (proj2 (idx_Ok _ _ _) Hl1). cbn [obind].
  destruct (fltb _ _); eauto.
Qed.
End P.
