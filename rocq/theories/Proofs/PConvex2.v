(** The planar point and straight motion tests are exact for convex polygons. *)
From Coq Require Import List Bool Reals Lra Lia ZArith Arith Psatz.
From Verif.Base Require Import Outcome.
From Verif.Model Require Import MScalar MLine2D MHRM2D.
From Verif.Spec Require Import SLine2D SLine3D SMotion SCover SSolid.
From Verif.Proofs Require Import PLine2D PLine2DW PCover PCoverX PCoverC PCoverE PMotionR.
Import ListNotations.
Local Open Scope R_scope.

(** A strictly positive affine function is positive a little further on; a finite list of them. *)
Lemma step_off (L : list (R * R)) : (forall c, In c L -> 0 <= fst c /\ (fst c = 0 -> 0 < snd c)) ->
  exists e, 0 < e /\ forall h, 0 < h <= e -> forall c, In c L -> 0 < fst c + h * snd c.
Proof.
  induction L as [|[a b] L IH]; intros H.
  - exists 1. split; [lra|intros h _ c []].
  - destruct IH as (e & E0 & E1). { intros c C. apply H. right; auto. }
    destruct (H (a, b) (or_introl eq_refl)) as [A B]. cbn [fst snd] in A, B.
    destruct (Rle_lt_dec 0 b) as [b0|b0].
    + exists e. split; [auto|]. intros h Hh c [<- |C]; [|auto]. cbn [fst snd].
      destruct (Req_dec a 0) as [Z|Z]; [specialize (B Z); subst a; assert (0 < h * b) by (apply Rmult_lt_0_compat; lra); lra|].
      assert (0 <= h * b) by (apply Rmult_le_pos; lra). lra.
    + assert (a0 : 0 < a) by (destruct (Req_dec a 0) as [Z|Z]; [specialize (B Z); lra|lra]).
      set (q := a / (2 * - b)). assert (q0 : 0 < q) by (apply Rdiv_lt_0_compat; lra).
      exists (Rmin e q). split; [apply Rmin_glb_lt; auto|]. intros h Hh c [<- |C].
      * cbn [fst snd]. assert (h <= q) by (eapply Rle_trans; [apply Hh|apply Rmin_r]).
        assert (h * - b <= q * - b) by (apply Rmult_le_compat_r; lra). assert (q * - b = a / 2) by (unfold q; field; lra). lra.
      * apply E1; auto. split; [lra|]. eapply Rle_trans; [apply Hh|apply Rmin_l].
Qed.

(** -- the point test -- *)
Lemma hline_polygon_out ty (P : list rpoint) : P <> [] ->
  (forall p, In p P -> snd p < ty) \/ (forall p, In p P -> ty < snd p) ->
  hline_polygon XR (Some ty) (lift_poly P) = Ok [].
Proof.
  intros Hne H. destruct (hline_polygon_XR ty P Hne) as (r & E & Hr & _). rewrite E. f_equal.
  destruct r as [|h r]; [reflexivity|]. exfalso.
  destruct (proj1 (Hr h) (or_introl eq_refl)) as (x & a & b & _ & He & _ & (t & Ht & _ & Hy)).
  destruct (is_edge_in P a b He) as [Ha Hb]. cbn [snd] in Hy.
  destruct H as [H|H]; pose proof (H a Ha); pose proof (H b Hb);
    [assert (t * snd a + (1 - t) * snd b < ty) by (destruct (Req_dec t 0); [subst; lra|nra])
    |assert (ty < t * snd a + (1 - t) * snd b) by (destruct (Req_dec t 0); [subst; lra|nra])]; lra.
Qed.
Lemma generic_level (P : list rpoint) (y : R) : P <> [] -> (forall v, In v P -> snd v <> y) ->
  (forall v, In v P -> snd v < y) \/ (forall v, In v P -> y < snd v) \/ ((exists v, In v P /\ snd v < y) /\ exists v, In v P /\ y < snd v).
Proof.
  intros _ N.
  destruct (Exists_dec (fun v : rpoint => snd v < y) P (fun v => Rlt_dec (snd v) y)) as [L|L];
  destruct (Exists_dec (fun v : rpoint => y < snd v) P (fun v => Rlt_dec y (snd v))) as [U|U].
  - right; right. apply Exists_exists in L. apply Exists_exists in U. firstorder.
  - left. intros v V. destruct (Rtotal_order (snd v) y) as [H|[H|H]]; [auto|destruct (N v V H)|destruct U; apply Exists_exists; eauto].
  - right; left. intros v V. destruct (Rtotal_order (snd v) y) as [H|[H|H]]; [destruct L; apply Exists_exists; eauto|destruct (N v V H)|auto].
  - left. intros v V. destruct (Rtotal_order (snd v) y) as [H|[H|H]]; [auto|destruct (N v V H)|destruct U; apply Exists_exists; eauto].
Qed.
Lemma between_inside P c y h0 h1 : convex_ccw P -> strictly_inside P c -> (forall v, In v P -> snd v <> y) -> h0 <> h1 ->
  (forall x, weakly_between h0 h1 x <-> inside_or_on P (x, y)) -> forall x, strictly_between h0 h1 x -> strictly_inside P (x, y).
Proof.
  intros CV IN NV NE W x SB a b E.
  assert (P0 := proj1 (W h0) ltac:(unfold weakly_between; lra) a b E).
  assert (P1 := proj1 (W h1) ltac:(unfold weakly_between; lra) a b E).
  assert (PX := proj1 (W x) ltac:(unfold weakly_between, strictly_between in *; lra) a b E).
  destruct (Req_dec (turn_of a b (x, y)) 0) as [Z|Z]; [exfalso|lra].
  destruct (edge_verts P a b E) as [Va Vb]. specialize (IN a b E). pose proof (NV a Va) as Na.
  unfold turn_of in *. cbn [fst snd] in *.
  set (B := snd b - snd a) in *. set (A := (fst b - fst a) * (y - snd a)) in *.
  assert (B0 : B = 0).
  { destruct SB as [SB|SB]; destruct (Rtotal_order B 0) as [H|[H|H]]; try exact H; exfalso.
    - assert (0 < - B * (x - h0)) by (apply Rmult_lt_0_compat; lra). lra.
    - assert (0 < B * (h1 - x)) by (apply Rmult_lt_0_compat; lra). lra.
    - assert (0 < - B * (x - h1)) by (apply Rmult_lt_0_compat; lra). lra.
    - assert (0 < B * (h0 - x)) by (apply Rmult_lt_0_compat; lra). lra. }
  assert (A0 : A = 0) by (rewrite B0 in Z; lra).
  unfold A in A0. apply Rmult_integral in A0. destruct A0 as [A0|A0]; [|lra]. rewrite A0, B0 in IN. lra.
Qed.
Lemma hits_exact P y : convex_polygon P -> (forall v, In v P -> snd v <> y) ->
  (hline_polygon XR (Some y) (lift_poly P) = Ok [] /\ forall x, ~ strictly_inside P (x, y)) \/
  exists h0 h1 rest, hline_polygon XR (Some y) (lift_poly P) = Ok (Some h0 :: Some h1 :: rest) /\
    forall x, strictly_between h0 h1 x <-> strictly_inside P (x, y).
Proof.
  intros (NE & CV & c & IN) NV. destruct (generic_level P y NE NV) as [L|[U|[L U]]].
  1,2: left; assert (E : hline_polygon XR (Some y) (lift_poly P) = Ok []).
  1,3: apply hline_polygon_out; auto.
  1,2: split; [exact E|]; intros x H; destruct (covered P (x, y) NE H NV) as (h0 & h1 & rest & E' & _); cbn [snd] in E'; rewrite E in E'; discriminate E'.
  right. destruct (convex_cross_section P c y NE CV IN L U NV) as (h0 & h1 & rest & E & N & W). exists h0, h1, rest. split; [exact E|].
  intros x. split.
  - apply (between_inside P c y h0 h1 CV IN NV N W).
  - intros H. destruct (covered P (x, y) NE H NV) as (k0 & k1 & rest' & E' & B). cbn [fst snd] in E', B. rewrite E in E'.
    assert (Q0 := f_equal (fun o => match o with Ok (Some a :: _) => a | _ => 0 end) E').
    assert (Q1 := f_equal (fun o => match o with Ok (_ :: Some a :: _) => a | _ => 0 end) E'). cbn in Q0, Q1. subst k0 k1. exact B.
Qed.
Lemma between_test h0 h1 x : sltb XR (sfmin XR (Some h0) (Some h1)) (Some x) && sltb XR (Some x) (sfmax XR (Some h0) (Some h1)) = true <-> strictly_between h0 h1 x.
Proof.
  rewrite sfmin_some, sfmax_some. unfold sltb, strictly_between. cbn. rewrite andb_true_iff, !Rltb_true.
  unfold Rmin, Rmax. destruct (Rle_dec h0 h1); lra.
Qed.
Lemma planar_point_exact (Ps : list (list rpoint)) x y : (forall P, In P Ps -> convex_polygon P /\ forall v, In v P -> snd v <> y) ->
  exists b, point_clear2 XR (Some x, Some y) (map lift_poly Ps) = Ok b /\ (b = true <-> forall P, In P Ps -> ~ strictly_inside P (x, y)).
Proof.
  induction Ps as [|P Ps IH]; intros H.
  - exists true. split; [reflexivity|]. split; [intros _ P []|auto].
  - destruct IH as (b & E & B). { intros Q HQ. apply H. right; auto. }
    destruct (H P (or_introl eq_refl)) as [CP NV]. cbn [map point_clear2 snd fst].
    destruct (hits_exact P y CP NV) as [[HE NI]|(h0 & h1 & rest & HE & W)]; rewrite HE; cbn [obind idx nth_error].
    + exists b. split; [exact E|]. rewrite B. split; [intros K Q [<- |HQ]; auto|intros K Q HQ; apply K; right; auto].
    + destruct (sltb XR (sfmin XR (Some h0) (Some h1)) (Some x) && sltb XR (Some x) (sfmax XR (Some h0) (Some h1))) eqn:T.
      * exists false. split; [reflexivity|]. split; [intros K; discriminate K|]. intros K. exfalso.
        apply (K P (or_introl eq_refl)). apply W. apply between_test. exact T.
      * exists b. split; [exact E|]. rewrite B. split; [|intros K Q HQ; apply K; right; auto].
        intros K Q [<- |HQ]; [|auto]. intros I. apply W in I. apply between_test in I. rewrite I in T. discriminate T.
Qed.

(** -- the straight motion test -- *)
Lemma crossing_enters P c (q1 q2 a b x : rpoint) : convex_ccw P -> strictly_inside P c -> is_edge P a b -> transversal q1 q2 a b ->
  in_open_segment q1 q2 x -> in_open_segment a b x -> exists p, in_open_segment q1 q2 p /\ strictly_inside P p.
Proof.
  intros CV IN E TR (t & T & X1 & X2) (s & S & Y1 & Y2).
  assert (ON : inside_or_on P x). { apply (hit_on P a b); auto. exists s. split; [lra|split; auto]. }
  set (sl := fun e : rpoint * rpoint => turn_of (fst e) (snd e) q1 - turn_of (fst e) (snd e) q2).
  assert (M : forall e h, turn_of (fst e) (snd e) ((t + h) * fst q1 + (1 - (t + h)) * fst q2, (t + h) * snd q1 + (1 - (t + h)) * snd q2) = turn_of (fst e) (snd e) x + h * sl e).
  { intros e h. unfold sl, turn_of. rewrite X1, X2. cbn [fst snd]. ring. }
  set (s0 := sl (a, b)).
  assert (N0 : s0 <> 0). { unfold s0, sl, turn_of. cbn [fst snd]. unfold transversal in TR. intros Z. apply TR. lra. }
  (* the slopes of the tight edges have the sign of s0 *)
  assert (SG : forall e, In e (redges P) -> turn_of (fst e) (snd e) x = 0 -> 0 < s0 * sl e).
  { intros [u v] I Z. cbn [fst snd] in Z. apply redges_is_edge in I. pose proof (IN u v I) as C1'. pose proof (IN a b E) as C2'.
    destruct (edge_verts P a b E) as [Va Vb]. pose proof (CV u v a I Va) as Ta. pose proof (CV u v b I Vb) as Tb.
    assert (MX : turn_of u v x = s * turn_of u v a + (1 - s) * turn_of u v b) by (unfold turn_of; rewrite Y1, Y2; ring).
    assert (Za : turn_of u v a = 0) by nra. assert (Zb : turn_of u v b = 0) by nra.
    assert (PR : turn_of a b c * sl (u, v) = turn_of u v c * s0).
    { assert (K : forall q, turn_of a b c * turn_of u v q = turn_of u v c * turn_of a b q).
      { intros q. assert (DE : (fst v - fst u) * (snd b - snd a) - (snd v - snd u) * (fst b - fst a) = 0) by (unfold turn_of in Za, Zb; lra).
        assert (F : forall z, turn_of u v z = (fst v - fst u) * (snd z - snd a) - (snd v - snd u) * (fst z - fst a)) by (intros z; unfold turn_of in *; lra).
        rewrite !F. unfold turn_of.
        assert (G : ((fst b - fst a) * (snd c - snd a) - (snd b - snd a) * (fst c - fst a)) * ((fst v - fst u) * (snd q - snd a) - (snd v - snd u) * (fst q - fst a)) -
          ((fst v - fst u) * (snd c - snd a) - (snd v - snd u) * (fst c - fst a)) * ((fst b - fst a) * (snd q - snd a) - (snd b - snd a) * (fst q - fst a)) =
          ((fst v - fst u) * (snd b - snd a) - (snd v - snd u) * (fst b - fst a)) * ((fst c - fst a) * (snd q - snd a) - (snd c - snd a) * (fst q - fst a)) \/
          ((fst b - fst a) * (snd c - snd a) - (snd b - snd a) * (fst c - fst a)) * ((fst v - fst u) * (snd q - snd a) - (snd v - snd u) * (fst q - fst a)) -
          ((fst v - fst u) * (snd c - snd a) - (snd v - snd u) * (fst c - fst a)) * ((fst b - fst a) * (snd q - snd a) - (snd b - snd a) * (fst q - fst a)) =
          - ((fst v - fst u) * (snd b - snd a) - (snd v - snd u) * (fst b - fst a)) * ((fst c - fst a) * (snd q - snd a) - (snd c - snd a) * (fst q - fst a))) by (first [left; ring|right; ring]).
        rewrite DE in G. lra. }
      unfold s0, sl. cbn [fst snd]. rewrite !Rmult_minus_distr_l, !K. reflexivity. }
    assert (0 < s0 * s0) by nra.
    assert (Q : turn_of a b c * (s0 * sl (u, v)) = turn_of u v c * (s0 * s0)) by (rewrite <- Rmult_assoc, (Rmult_comm _ s0), Rmult_assoc, PR; ring).
    assert (0 < turn_of u v c * (s0 * s0)) by (apply Rmult_lt_0_compat; auto).
    destruct (Rlt_le_dec 0 (s0 * sl (u, v))) as [H1|H1]; [auto|exfalso]. assert (turn_of a b c * (s0 * sl (u, v)) <= 0) by (assert (0 <= turn_of a b c * - (s0 * sl (u, v))) by (apply Rmult_le_pos; lra); lra). lra. }
  set (L := map (fun e => (turn_of (fst e) (snd e) x, s0 * sl e)) (redges P)).
  destruct (step_off L) as (h & H0 & HL).
  { intros k K. apply in_map_iff in K. destruct K as (e & <- & I). cbn [fst snd]. split; [apply ON; apply redges_is_edge; destruct e; exact I|apply SG; auto]. }
  (* a step small enough to stay in the segment *)
  set (m := Rmin (t / 2) ((1 - t) / 2) / (1 + Rabs s0)).
  assert (AB : 0 <= Rabs s0) by apply Rabs_pos. assert (MM : 0 < Rmin (t / 2) ((1 - t) / 2)) by (apply Rmin_glb_lt; lra).
  assert (m0 : 0 < m) by (apply Rdiv_lt_0_compat; lra).
  set (g := Rmin h m). assert (g0 : 0 < g) by (apply Rmin_glb_lt; auto).
  assert (GS : Rabs (g * s0) <= Rmin (t / 2) ((1 - t) / 2)).
  { rewrite Rabs_mult, (Rabs_pos_eq g) by lra. assert (g <= m) by apply Rmin_r.
    assert (g * Rabs s0 <= m * (1 + Rabs s0)) by (apply Rmult_le_compat; lra).
    assert (m * (1 + Rabs s0) = Rmin (t / 2) ((1 - t) / 2)) by (unfold m; field; lra). lra. }
  assert (M1 := Rmin_l (t / 2) ((1 - t) / 2)). assert (M2 := Rmin_r (t / 2) ((1 - t) / 2)).
  assert (GS' : - Rmin (t / 2) ((1 - t) / 2) <= g * s0 <= Rmin (t / 2) ((1 - t) / 2)) by (revert GS; unfold Rabs; destruct (Rcase_abs (g * s0)); lra).
  exists ((t + g * s0) * fst q1 + (1 - (t + g * s0)) * fst q2, (t + g * s0) * snd q1 + (1 - (t + g * s0)) * snd q2). split.
  - exists (t + g * s0). split; [lra|]. split; reflexivity.
  - intros u v I. pose proof (M (u, v) (g * s0)) as MV. cbn [fst snd] in MV. rewrite MV.
    assert (GL : 0 < g <= h) by (split; [auto|apply Rmin_l]).
    pose proof (HL g GL (turn_of u v x, s0 * sl (u, v))) as K. cbn [fst snd] in K. rewrite Rmult_assoc. apply K.
    unfold L. apply in_map_iff. exists (u, v). split; [reflexivity|]. apply redges_is_edge. exact I.
Qed.
Lemma planar_straight_exact solve P (q1 q2 : rpoint) r1 r2 : solve_exact solve -> convex_polygon P ->
  strictly_outside P q1 -> (forall v, In v P -> off_line q1 q2 v) ->
  exists b, seg_polygon XR solve (Some (fst q1) :: Some (snd q1) :: r1) (Some (fst q2) :: Some (snd q2) :: r2) (lift_poly P) = Ok b /\
    (b = true <-> exists p, in_open_segment q1 q2 p /\ strictly_inside P p).
Proof.
  intros HS (NE & CV & c & IN) OU NV. destruct (seg_polygon_XR solve HS q1 q2 r1 r2 P) as (b & E & B). exists b. split; [exact E|]. split.
  - intros T. apply B in T. destruct T as (u & v & EU & TR & x & X1 & X2). exact (crossing_enters P c q1 q2 u v x CV IN EU TR X1 X2).
  - intros (p & P1 & P2). destruct b; [reflexivity|]. exfalso. exact (free_motion_outside solve P q1 q2 r1 r2 HS NE CV OU NV E p P1 P2).
Qed.
