(** The collision tests over the exact reals: what a positive answer means. *)
From Coq Require Import List Bool Arith Lia ZArith Reals Lra.
From Verif.Base Require Import Outcome Float64 FloatFacts.
From Verif.Model Require Import MScalar MFreeSpace MLine2D MLine3D MInterp MGraph MHRM2D MHRM3D.
From Verif.Spec Require Import SLine2D SLine3D SMotion.
From Verif.Proofs Require Import PGraph PHRM2D PLine2D PLine3D PTables PMotion.
Import ListNotations.
Local Open Scope R_scope.

Lemma triangle_hit_weaken e e' o d abc p : e <= e' -> triangle_hit e o d abc p -> triangle_hit e' o d abc p.
Proof.
  intros L. destruct abc as [[a b] c]. intros (C & On & s & t & -> & A). split; [auto|]. split; [auto|].
  exists s, t. split; [reflexivity|]. lra.
Qed.

Lemma hit_unique e e' o d abc p p' : triangle_hit e o d abc p -> triangle_hit e' o d abc p' -> p = p'.
Proof.
  destruct abc as [[a b] c]. intros ((_ & C) & (k & Ek) & (s & t & Es & _)) (_ & (k' & Ek') & (s' & t' & Es' & _)).
  set (N := rcross (rsub b a) (rsub c a)) in *.
  assert (Nd : rdot N d <> 0).
  { intros Z. rewrite Z, Rabs_R0 in C. pose proof tol_pos. assert (0 <= rnorm N) by apply sqrt_pos. nra. }
  assert (Z : forall s t, rdot N (radd (rscale s (rsub b a)) (rscale t (rsub c a))) = 0).
  { intros. unfold N, rdot, rcross, radd, rscale, rsub; simpl. ring. }
  assert (Q : forall k s t p, p = radd o (rscale k d) -> p = radd a (radd (rscale s (rsub b a)) (rscale t (rsub c a))) -> rdot N (rsub o a) + k * rdot N d = 0).
  { clear - Z. intros k s t p E1 E2. rewrite <- (Z s t).
    assert (E : radd (rscale s (rsub b a)) (rscale t (rsub c a)) = radd (rsub o a) (rscale k d)).
    { rewrite E1 in E2. pose proof (f_equal rx E2) as X. pose proof (f_equal ry E2) as Y. pose proof (f_equal rz E2) as W.
      apply rv_eq; unfold radd, rscale, rsub in *; simpl in *; lra. }
    rewrite E. unfold rdot, radd, rscale; simpl. ring. }
  pose proof (Q _ _ _ _ Ek Es). pose proof (Q _ _ _ _ Ek' Es').
  assert (k = k') by (apply (Rmult_eq_reg_r (rdot N d)); [lra|auto]). subst k'. congruence.
Qed.

Lemma dot_pos_ne t1 t2 : t1 <> t2 -> 0 < rdot (rsub t2 t1) (rsub t2 t1).
Proof.
  intros Ne. destruct (rdot_self_nonneg (rsub t2 t1)) as [L|Z]; [auto|]. exfalso. apply Ne. symmetry in Z. apply zero_normal in Z.
  pose proof (f_equal rx Z) as X. pose proof (f_equal ry Z) as Y. pose proof (f_equal rz Z) as W. unfold rsub in *; simpl in *.
  apply rv_eq; lra.
Qed.

Lemma within_XR t1 t2 p : t1 <> t2 -> on_line t1 (direction t1 t2) p ->
  (within XR (lift3 p) (lift3 t1) (lift3 t2) = true <-> strictly_inside t1 t2 p).
Proof.
  intros Ne (k & Ep). pose proof (dot_pos_ne t1 t2 Ne) as P. unfold within. rewrite !vsub_lift, dot_lift.
  cbn [XR sltb sofZ xcmp car]. rewrite Rltb_true.
  set (v := rsub t2 t1) in *. set (n := rnorm v).
  assert (Pn : 0 < n) by (apply sqrt_lt_R0; exact P).
  assert (En : n * n = rdot v v) by (apply sqrt_sqrt; lra).
  set (c := k * / n).
  assert (Ep' : p = radd t1 (rscale c v)).
  { rewrite Ep. unfold direction. fold v n. unfold c. apply rv_eq; unfold radd, rscale; simpl; ring. }
  assert (D : rdot (rsub p t1) (rsub p t2) = (c * (c - 1)) * rdot v v).
  { rewrite Ep'. unfold v, rdot, rsub, radd, rscale; simpl. ring. }
  rewrite D. split.
  - intros H. exists c. split; [|exact Ep']. assert (c * (c - 1) < 0) by (apply (Rmult_lt_reg_r (rdot v v)); lra). split; [destruct (Rle_or_lt c 0); [assert (0 <= (-c) * (1 - c)) by (apply Rmult_le_pos; lra); lra|auto]|destruct (Rle_or_lt 1 c); [assert (0 <= c * (c - 1)) by (apply Rmult_le_pos; lra); lra|auto]].
  - intros (k' & Hk & E). assert (k' = c).
    { fold v in E. clearbody v c. clear - Ep' E P. rewrite Ep' in E. pose proof (f_equal rx E) as X. pose proof (f_equal ry E) as Y. pose proof (f_equal rz E) as W.
      unfold radd, rscale in X, Y, W; simpl in X, Y, W.
      assert (X' : (c - k') * rx v = 0) by lra. assert (Y' : (c - k') * ry v = 0) by lra. assert (W' : (c - k') * rz v = 0) by lra.
      assert (Q : (c - k') * rdot v v = 0).
      { unfold rdot. replace ((c - k') * (rx v * rx v + ry v * ry v + rz v * rz v)) with
          (rx v * ((c - k') * rx v) + ry v * ((c - k') * ry v) + rz v * ((c - k') * rz v)) by ring. rewrite X', Y', W'. ring. }
      apply Rmult_integral in Q. destruct Q; lra. }
    subst k'. replace (c * (c - 1) * rdot v v) with (- (c * (1 - c) * rdot v v)) by ring. assert (0 < c * (1 - c) * rdot v v) by (apply Rmult_lt_0_compat; [apply Rmult_lt_0_compat; lra|exact P]). lra.
Qed.

Lemma line_of t1 t2 : t1 <> t2 -> @L3 XR (lift3 t1) (normalize XR (vsub XR (lift3 t2) (lift3 t1))) = lift_line t1 (direction t1 t2).
Proof. intros Ne. rewrite vsub_lift, normalize_lift by (apply dot_pos_ne; auto). reflexivity. Qed.

Lemma convex_pos x y z s t : 0 < x -> 0 < y -> 0 < z -> 0 <= s -> 0 <= t -> s + t <= 1 -> 0 < (1 - s - t) * x + s * y + t * z.
Proof.
  intros Hx Hy Hz Hs Ht Hst. set (m := Rmin x (Rmin y z)).
  assert (0 < m) by (unfold m; repeat apply Rmin_glb_lt; auto).
  assert (m <= x) by apply Rmin_l. assert (m <= y) by (eapply Rle_trans; [apply Rmin_r|apply Rmin_l]). assert (m <= z) by (eapply Rle_trans; [apply Rmin_r|apply Rmin_r]).
  assert (0 <= (1 - s - t) * (x - m)) by (apply Rmult_le_pos; lra). assert (0 <= s * (y - m)) by (apply Rmult_le_pos; lra). assert (0 <= t * (z - m)) by (apply Rmult_le_pos; lra).
  lra.
Qed.
(** Exact hits on a line whose direction has no tiny component are not filtered out. *)
Lemma not_one_sided (g : rvec -> R) o d vs f abc p :
  (g = rx \/ g = ry \/ g = rz) -> not_tiny (g d) -> Rabs (g d) < / 10 ^ 6 -> face_corners vs f abc ->
  triangle_hit 0 o d abc p -> ~ one_sided g o vs.
Proof.
  intros Hg [Z|Z] T; [|lra]. destruct abc as [[a b] c]. destruct f as [[i j] k]. intros (Ha & Hb & Hc) (_ & (kk & Ek) & (s & t & Es & S1 & S2 & S3 & S4)).
  apply nth_error_In in Ha, Hb, Hc.
  assert (E1 : g p = g o).
  { rewrite Ek. destruct Hg as [->|[->| ->]]; unfold radd, rscale; simpl; rewrite Z; ring. }
  assert (E2 : g p = (1 - s - t) * g a + s * g b + t * g c).
  { rewrite Es. destruct Hg as [->|[->| ->]]; unfold radd, rscale, rsub; simpl; ring. }
  intros [H|H]; pose proof (H a Ha); pose proof (H b Hb); pose proof (H c Hc).
  - pose proof (convex_pos (g o - g a) (g o - g b) (g o - g c) s t ltac:(lra) ltac:(lra) ltac:(lra) ltac:(lra) ltac:(lra) ltac:(lra)). lra.
  - pose proof (convex_pos (g a - g o) (g b - g o) (g c - g o) s t ltac:(lra) ltac:(lra) ltac:(lra) ltac:(lra) ltac:(lra) ltac:(lra)). lra.
Qed.

Lemma straight_true ms t1 t2 : t1 <> t2 -> Forall mesh_ok ms -> straight_free XR (map lift_rmesh ms) (lift3 t1) (lift3 t2) = Ok true ->
  forall m f abc p, In m ms -> two_faces t1 (direction t1 t2) m ->
    not_tiny (rx (direction t1 t2)) -> not_tiny (ry (direction t1 t2)) -> not_tiny (rz (direction t1 t2)) ->
    In f (snd m) -> face_corners (fst m) f abc -> triangle_hit 0 t1 (direction t1 t2) abc p -> ~ strictly_inside t1 t2 p.
Proof.
  intros Ne Mo H m f abc p Hm Tw Tx Ty Tz Hf Hc Hh Hin. rewrite straight_free_iff in H.
  destruct (H (lift_rmesh m) (in_map _ _ _ Hm)) as (hits & Hl & Ms). rewrite line_of in Hl by auto.
  rewrite Forall_forall in Mo. destruct (Mo m Hm) as [M1 M2].
  destruct (line_mesh_XR t1 (direction t1 t2) (fst m) (snd m) M1 M2) as (r & Hr & Cs).
  unfold lift_rmesh in Hl. rewrite Hl in Hr. injection Hr as <-.
  pose proof tol_pos as Tp.
  destruct Cs as [[-> Rj]|(ps & Pk & ->)].
  - destruct Rj as [[A B]|[[A B]|[A B]]]; revert B; eapply not_one_sided; eauto.
  - pose proof (Tw ps Pk) as L. rewrite firstn_all2 in Ms by exact L.
    assert (G : good_face (fst m) t1 (direction t1 t2) f p) by (exists abc; split; [auto|]; eapply triangle_hit_weaken; [|exact Hh]; lra).
    destruct (pick_in _ _ _ Pk f p Hf G) as (p' & (abc' & C' & G') & Hp').
    assert (p' = p) as -> by (rewrite (corners_fun _ _ _ _ C' Hc) in G'; symmetry; eapply hit_unique; eauto).
    assert (On : on_line t1 (direction t1 t2) p) by (destruct abc as [[a b] c]; apply Hh).
    apply (within_XR t1 t2 p Ne On) in Hin.
    destruct Ms as [Z|(h0 & h1 & rest & Z & W0 & W1)]; [destruct ps; [destruct Hp'|discriminate Z]|].
    destruct ps as [|a [|b [|c ps]]]; [discriminate Z..| |cbn in L; lia]. cbn [map] in Z. injection Z as <- <- _.
    destruct Hp' as [->|[->|[]]]; congruence.
Qed.

Lemma straight_false ms t1 t2 : t1 <> t2 -> Forall mesh_ok ms -> straight_free XR (map lift_rmesh ms) (lift3 t1) (lift3 t2) = Ok false ->
  exists m f p, In m ms /\ In f (snd m) /\ good_face (fst m) t1 (direction t1 t2) f p /\ strictly_inside t1 t2 p.
Proof.
  intros Ne Mo H. apply straight_blocked in H. destruct H as (m' & hits & h & Hm & Hl & Hh & W). rewrite line_of in Hl by auto.
  apply in_map_iff in Hm. destruct Hm as (m & <- & Hm). rewrite Forall_forall in Mo. destruct (Mo m Hm) as [M1 M2].
  destruct (line_mesh_XR t1 (direction t1 t2) (fst m) (snd m) M1 M2) as (r & Hr & Cs).
  unfold lift_rmesh in Hl. rewrite Hl in Hr. injection Hr as <-.
  destruct Cs as [[-> _]|(ps & Pk & ->)]; [destruct Hh|]. apply in_map_iff in Hh. destruct Hh as (p & <- & Hp).
  assert (Hp' : In p ps) by (rewrite <- (firstn_skipn 2 ps); apply in_or_app; left; exact Hp).
  destruct (pick_sound _ _ _ Pk p Hp') as (f & Hf & G). exists m, f, p. split; [auto|]. split; [auto|]. split; [auto|].
  apply (within_XR t1 t2 p Ne); [|exact W]. destruct G as ([[a b] c] & _ & G). apply G.
Qed.

Lemma straight_defined ms t1 t2 : t1 <> t2 -> Forall mesh_ok ms ->
  (forall m ps, In m ms -> pick (good_face (fst m) t1 (direction t1 t2)) (snd m) ps -> length ps <> 1%nat) ->
  exists b, straight_free XR (map lift_rmesh ms) (lift3 t1) (lift3 t2) = Ok b.
Proof.
  intros Ne Mo Hl. unfold straight_free. rewrite line_of by auto.
  assert (G : exists b, any_mesh_crossing XR (lift_line t1 (direction t1 t2)) (lift3 t1) (lift3 t2) (map lift_rmesh ms) = Ok b).
  { induction ms as [|m ms IH]; cbn [map any_mesh_crossing]; [eauto|]. inversion_clear Mo as [|? ? [M1 M2] Mo'].
    destruct IH as (b & IH); [auto|intros m' ps Hm; apply Hl; right; auto|].
    destruct (line_mesh_XR t1 (direction t1 t2) (fst m) (snd m) M1 M2) as (r & Hr & Cs).
    unfold lift_rmesh at 1. rewrite Hr. cbn [obind]. destruct Cs as [[-> _]|(ps & Pk & ->)]; [eauto|].
    pose proof (Hl m ps (or_introl eq_refl) Pk) as L. destruct ps as [|p0 [|p1 ps]]; [cbn; eauto|cbn in L; lia|].
    cbn [firstn map idx nth_error obind]. destruct (_ || _)%bool; eauto. }
  destruct G as (b & ->). cbn [obind]. eauto.
Qed.

(** ---- ray casting ---- *)
Definition up : rvec := RV 0 0 1.
Lemma up_line p : @L3 XR (lift3 p) (V3 (sofZ XR 0) (sofZ XR 0) (sofZ XR 1)) = lift_line p up.
Proof. reflexivity. Qed.

Lemma sfmin_some a b : sfmin XR (Some a) (Some b) = Some (Rmin a b).
Proof. unfold sfmin; simpl. destruct (Rltb b a) eqn:E; [apply Rltb_true in E; rewrite Rmin_right by lra; auto|apply Rltb_false in E; rewrite Rmin_left by lra; auto]. Qed.
Lemma sfmax_some a b : sfmax XR (Some a) (Some b) = Some (Rmax a b).
Proof. unfold sfmax; simpl. destruct (Rltb a b) eqn:E; [apply Rltb_true in E; rewrite Rmax_right by lra; auto|apply Rltb_false in E; rewrite Rmax_left by lra; auto]. Qed.

Lemma point_true ms p : Forall mesh_ok ms -> point_clear3 XR (lift3 p) (map lift_rmesh ms) = Ok true ->
  forall m f1 f2 abc1 abc2 lo hi, In m ms -> two_faces p up m ->
    In f1 (snd m) -> face_corners (fst m) f1 abc1 -> triangle_hit 0 p up abc1 lo ->
    In f2 (snd m) -> face_corners (fst m) f2 abc2 -> triangle_hit 0 p up abc2 hi ->
    ~ (rz lo < rz p < rz hi).
Proof.
  intros Mo H m f1 f2 abc1 abc2 lo hi Hm Tw F1 C1 T1 F2 C2 T2 Hz. rewrite point_clear3_iff in H.
  destruct (H (lift_rmesh m) (in_map _ _ _ Hm)) as (hits & Hl & Nb). rewrite up_line in Hl.
  rewrite Forall_forall in Mo. destruct (Mo m Hm) as [M1 M2].
  destruct (vertical_line_mesh_XR p (fst m) (snd m) M1 M2) as (r & Hr & Cs).
  unfold lift_rmesh in Hl. change (RV 0 0 1) with up in *. rewrite Hl in Hr. injection Hr as <-. pose proof tol_pos as Tp.
  pose proof (exact_hit_bbox _ _ _ T1) as B1. pose proof (exact_hit_bbox _ _ _ T2) as B2.
  destruct Cs as [[-> Rj]|(ps & Pk & ->)].
  - destruct (bbox_not_one_sided p (fst m) f1 abc1 C1 B1) as [X Y]. unfold one_sided in X, Y. tauto.
  - assert (L : (length ps <= 2)%nat).
    { assert (Pick : forall fs qs, pick (fun f p0 => exists abc, face_corners (fst m) f abc /\ bbox_ok p abc /\ triangle_hit tol p up abc p0) fs qs ->
         Forall (face_ok (length (fst m))) fs -> exists qs', pick (good_face (fst m) p up) fs qs' /\ (length qs <= length qs')%nat).
      { clear. intros fs qs Pk. induction Pk as [|f q fs qs G _ IH|f fs qs G _ IH]; intros Fo.
        - exists []. split; [constructor|auto].
        - inversion_clear Fo. destruct IH as (qs' & P & L); [auto|]. destruct G as (abc & A & _ & B).
          exists (q :: qs'). split; [apply pick_hit; [exists abc; auto|auto]|cbn; lia].
        - inversion_clear Fo. destruct IH as (qs' & P & L); [auto|].
          destruct (face_pts_XR _ _ H) as (a & b & c & A & _).
          destruct (face_hit XR (lift_line p up) (lift3 a, lift3 b, lift3 c)) as [q|] eqn:Fh.
          + apply face_hit_XR in Fh. destruct Fh as (p0 & -> & T). exists (p0 :: qs'). split; [apply pick_hit; [exists (a, b, c); auto|auto]|cbn; lia].
          + exists qs'. split; [|auto]. apply pick_miss; [|auto]. intros p0 (abc & A' & T). rewrite (corners_fun _ _ _ _ A' A) in T.
            assert (X : face_hit XR (lift_line p up) (lift3 a, lift3 b, lift3 c) = Some (lift3 p0)) by (apply face_hit_XR; exists p0; auto). congruence. }
      destruct (Pick _ _ Pk M2) as (qs' & P & L). pose proof (Tw qs' P). lia. }
    rewrite firstn_all2 in Nb by exact L.
    assert (In' : forall f abc q, In f (snd m) -> face_corners (fst m) f abc -> triangle_hit 0 p up abc q -> bbox_ok p abc -> In q ps).
    { intros f abc q Hf Hc Ht Hb. destruct (pick_in _ _ _ Pk f q Hf) as (q' & (abc' & A & _ & B) & Hq).
      - exists abc. split; [auto|]. split; [auto|]. eapply triangle_hit_weaken; [|exact Ht]. lra.
      - rewrite (corners_fun _ _ _ _ A Hc) in B. rewrite (hit_unique _ _ _ _ _ _ _ Ht B). exact Hq. }
    pose proof (In' _ _ _ F1 C1 T1 B1) as I1. pose proof (In' _ _ _ F2 C2 T2 B2) as I2.
    destruct Nb as [Z|(h0 & h1 & rest & Z & W)]; [destruct ps; [destruct I1|discriminate Z]|].
    destruct ps as [|a [|b [|c ps]]]; [discriminate Z..| |cbn in L; lia]. cbn [map] in Z. injection Z as <- <- _.
    change (@vz XR (lift3 a)) with (Some (rz a)) in W. change (@vz XR (lift3 b)) with (Some (rz b)) in W. change (@vz XR (lift3 p)) with (Some (rz p)) in W.
    rewrite sfmin_some, sfmax_some, !ltb_lift in W. apply andb_false_iff in W.
    assert (Rmin (rz a) (rz b) <= rz lo) by (destruct I1 as [->|[->|[]]]; [apply Rmin_l|apply Rmin_r]).
    assert (rz hi <= Rmax (rz a) (rz b)) by (destruct I2 as [->|[->|[]]]; [apply Rmax_l|apply Rmax_r]).
    destruct W as [W|W]; apply Rltb_false in W; lra.
Qed.
Lemma point_false ms p : Forall mesh_ok ms -> point_clear3 XR (lift3 p) (map lift_rmesh ms) = Ok false ->
  exists m f1 f2 lo hi, In m ms /\ In f1 (snd m) /\ In f2 (snd m) /\
    good_face (fst m) p up f1 lo /\ good_face (fst m) p up f2 hi /\ rz lo < rz p < rz hi.
Proof.
  intros Mo H. apply point_blocked3 in H. destruct H as (m' & h0 & h1 & rest & Hm & Hl & W0 & W1).
  rewrite up_line in Hl. apply in_map_iff in Hm. destruct Hm as (m & <- & Hm). rewrite Forall_forall in Mo. destruct (Mo m Hm) as [M1 M2].
  destruct (vertical_line_mesh_XR p (fst m) (snd m) M1 M2) as (r & Hr & Cs).
  unfold lift_rmesh in Hl. change (RV 0 0 1) with up in *. rewrite Hl in Hr. injection Hr as <-.
  destruct Cs as [[Z _]|(ps & Pk & Z)]; [discriminate Z|].
  destruct ps as [|a [|b ps]]; [discriminate Z..|]. cbn [firstn map] in Z. injection Z as -> -> _.
  change (@vz XR (lift3 a)) with (Some (rz a)) in *. change (@vz XR (lift3 b)) with (Some (rz b)) in *. change (@vz XR (lift3 p)) with (Some (rz p)) in *.
  rewrite sfmin_some, ltb_lift in W0. rewrite sfmax_some, ltb_lift in W1. apply Rltb_true in W0, W1.
  destruct (pick_sound _ _ _ Pk a (or_introl eq_refl)) as (fa & Fa & abca & Ca & _ & Ta).
  destruct (pick_sound _ _ _ Pk b (or_intror (or_introl eq_refl))) as (fb & Fb & abcb & Cb & _ & Tb).
  assert (Ga : good_face (fst m) p up fa a) by (exists abca; auto). assert (Gb : good_face (fst m) p up fb b) by (exists abcb; auto).
  unfold Rmin in W0. unfold Rmax in W1. destruct (Rle_dec (rz a) (rz b)); [exists m, fa, fb, a, b|exists m, fb, fa, b, a]; auto 10.
Qed.

(** ---- planar ray casting ---- *)
Lemma point2_true (x y : R) (bs : list (list rpoint)) : (forall b, In b bs -> b <> []) ->
  point_clear2 XR (Some x, Some y) (map lift_poly bs) = Ok true ->
  forall b r, In b bs -> hline_polygon XR (Some y) (lift_poly b) = Ok r -> (length r <= 2)%nat ->
  forall lo hi a1 c1 a2 c2, is_edge b a1 c1 -> snd a1 <> snd c1 -> on_segment a1 c1 (lo, y) ->
    is_edge b a2 c2 -> snd a2 <> snd c2 -> on_segment a2 c2 (hi, y) -> ~ (lo < x < hi).
Proof.
  intros Hne H b r Hb Hr L lo hi a1 c1 a2 c2 E1 N1 S1 E2 N2 S2 Hx.
  induction bs as [|b' bs IH]; [destruct Hb|]. cbn [map point_clear2] in H. ob H hits Hh. cbn [fst snd] in Hh.
  destruct Hb as [<-|Hb].
  - rewrite Hr in Hh. injection Hh as <-.
    destruct (hline_polygon_XR y b' (Hne _ (or_introl eq_refl))) as (r' & Hr' & Hi & _). rewrite Hr in Hr'. injection Hr' as <-.
    assert (I1 : In (Some lo) r) by (apply Hi; exists lo, a1, c1; auto).
    assert (I2 : In (Some hi) r) by (apply Hi; exists hi, a2, c2; auto).
    destruct r as [|h0 [|h1 [|h2 r]]]; [destruct I1|discriminate H| |cbn in L; lia]. cbn [idx nth_error obind fst] in H.
    destruct (proj1 (Hi h0) (or_introl eq_refl)) as (x0 & _ & _ & -> & _). destruct (proj1 (Hi h1) (or_intror (or_introl eq_refl))) as (x1 & _ & _ & -> & _).
    rewrite sfmin_some, sfmax_some, !ltb_lift in H.
    destruct (Rltb (Rmin x0 x1) x) eqn:B0; [|apply Rltb_false in B0; assert (Rmin x0 x1 <= lo) by (destruct I1 as [I|[I|[]]]; injection I as <-; [apply Rmin_l|apply Rmin_r]); lra].
    destruct (Rltb x (Rmax x0 x1)) eqn:B1; [discriminate H|apply Rltb_false in B1; assert (hi <= Rmax x0 x1) by (destruct I2 as [I|[I|[]]]; injection I as <-; [apply Rmax_l|apply Rmax_r]); lra].
  - apply IH; auto; [intros q Hq; apply Hne; right; auto|]. destruct hits as [|h0 hits]; [exact H|]. ob H h1 H1.
    destruct (_ && _)%bool; [discriminate H|exact H].
Qed.
Lemma point2_false (x y : R) (bs : list (list rpoint)) : (forall b, In b bs -> b <> []) ->
  point_clear2 XR (Some x, Some y) (map lift_poly bs) = Ok false ->
  exists b lo hi a1 c1 a2 c2, In b bs /\ is_edge b a1 c1 /\ on_segment a1 c1 (lo, y) /\
    is_edge b a2 c2 /\ on_segment a2 c2 (hi, y) /\ lo < x < hi.
Proof.
  intros Hne H. induction bs as [|b' bs IH]; [discriminate H|]. cbn [map point_clear2] in H. ob H hits Hh. cbn [fst snd] in Hh.
  assert (IH' : point_clear2 XR (Some x, Some y) (map lift_poly bs) = Ok false -> exists b lo hi a1 c1 a2 c2, In b (b' :: bs) /\ is_edge b a1 c1 /\ on_segment a1 c1 (lo, y) /\
    is_edge b a2 c2 /\ on_segment a2 c2 (hi, y) /\ lo < x < hi).
  { intros Q. destruct IH as (b & lo & hi & a1 & c1 & a2 & c2 & A & B); [intros q Hq; apply Hne; right; auto|exact Q|].
    exists b, lo, hi, a1, c1, a2, c2. split; [right|]; auto. }
  destruct (hline_polygon_XR y b' (Hne _ (or_introl eq_refl))) as (r' & Hr' & Hi & _). rewrite Hh in Hr'. injection Hr' as <-.
  destruct hits as [|h0 hits]; [auto|]. ob H h1 H1. destruct hits as [|h1' hits]; [discriminate H1|]. injection H1 as <-.
  destruct (proj1 (Hi h0) (or_introl eq_refl)) as (x0 & a1 & c1 & -> & E1 & _ & S1). destruct (proj1 (Hi h1') (or_intror (or_introl eq_refl))) as (x1 & a2 & c2 & -> & E2 & _ & S2).
  cbn [fst] in H. rewrite sfmin_some, sfmax_some, !ltb_lift in H.
  destruct (Rltb (Rmin x0 x1) x) eqn:B0; [|auto]. destruct (Rltb x (Rmax x0 x1)) eqn:B1; [|auto]. apply Rltb_true in B0, B1.
  unfold Rmin in B0. unfold Rmax in B1. destruct (Rle_dec x0 x1); [exists b', x0, x1, a1, c1, a2, c2|exists b', x1, x0, a2, c2, a1, c1]; cbn [In]; auto 12.
Qed.
