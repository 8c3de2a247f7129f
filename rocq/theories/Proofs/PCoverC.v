(** C14: the recorded interval of a convex polygon is its cross-section. *)
From Coq Require Import List Reals Lia Lra Psatz.
From Verif.Base Require Import Outcome.
From Verif.Model Require Import MScalar MLine2D.
From Verif.Spec Require Import SLine2D SCover.
From Verif.Proofs Require Import PLine2D PLine2DW PCover PCoverX.
Import ListNotations.
Local Open Scope R_scope.

Definition mixp (s : R) (p q : rpoint) : rpoint := ((1 - s) * fst p + s * fst q, (1 - s) * snd p + s * snd q).
Lemma turn_mix a b p q s : turn_of a b (mixp s p q) = (1 - s) * turn_of a b p + s * turn_of a b q.
Proof. unfold turn_of, mixp. cbn [fst snd]. ring. Qed.

Lemma on_segment_mix a b x : on_segment a b x -> exists t, 0 <= t <= 1 /\ x = mixp t b a.
Proof.
  intros (t & Ht & X & Y). exists t. split; [exact Ht|]. destruct x as [u v]. cbn [fst snd] in X, Y. unfold mixp. f_equal; lra.
Qed.
Lemma edge_verts P a b : is_edge P a b -> In a P /\ In b P.
Proof.
  intros [(i & A & B)|(l & E & L)].
  - split; eapply nth_error_In; eassumption.
  - split; [|rewrite E; left; reflexivity]. rewrite <- L. clear L. rewrite E. clear E. generalize b at 1 3. revert b. induction l as [|x l IH]; intros b d; [left; reflexivity|].
    right. apply IH.
Qed.
Lemma hit_on P a b x : convex_ccw P -> is_edge P a b -> on_segment a b x -> inside_or_on P x.
Proof.
  intros C E S a' b' E'. destruct (on_segment_mix _ _ _ S) as (t & Ht & ->). rewrite turn_mix.
  destruct (edge_verts _ _ _ E) as [Ia Ib]. pose proof (C a' b' a E' Ia). pose proof (C a' b' b E' Ib). nra.
Qed.

Lemma affine_between A B d h0 h1 x : weakly_between h0 h1 x -> 0 <= A - B * (h0 - d) -> 0 <= A - B * (h1 - d) -> 0 <= A - B * (x - d).
Proof. intros [W|W] T0 T1; destruct (Rle_or_lt 0 B); nra. Qed.

Lemma convex_cross_section : forall (P : list rpoint) (c : rpoint) (y : R), P <> [] -> convex_ccw P -> strictly_inside P c ->
  (exists v, In v P /\ snd v < y) -> (exists v, In v P /\ y < snd v) -> (forall v, In v P -> snd v <> y) ->
  exists h0 h1 rest, hline_polygon XR (Some y) (lift_poly P) = Ok (Some h0 :: Some h1 :: rest) /\ h0 <> h1 /\
    forall x, weakly_between h0 h1 x <-> inside_or_on P (x, y).
Proof.
  intros P c y N C I (lo & Ilo & Hlo) (hi & Ihi & Hhi) NV.
  assert (V : forall v, In v P -> inside_or_on P v) by (intros v Hv a b E; exact (C a b v E Hv)).
  assert (M : forall p q s, strictly_inside P p -> inside_or_on P q -> 0 <= s < 1 -> strictly_inside P (mixp s p q)).
  { intros p q s Hp Hq Hs a b E. rewrite turn_mix. specialize (Hp a b E). specialize (Hq a b E). nra. }
  (* a point strictly inside on the line *)
  assert (X0 : exists x0, strictly_inside P (x0, y)).
  { destruct (Rtotal_order (snd c) y) as [H|[H|H]].
    - assert (K : 0 <= (y - snd c) / (snd hi - snd c) < 1).
      { split; [apply Rmult_le_pos; [lra|left; apply Rinv_0_lt_compat; lra]|]. apply (Rmult_lt_reg_r (snd hi - snd c)); [lra|]. unfold Rdiv. rewrite Rmult_assoc, Rinv_l by lra. lra. }
      pose proof (M c hi _ I (V hi Ihi) K) as Q. match type of Q with strictly_inside _ ?m => assert (Y : snd m = y) by (unfold mixp; cbn [snd]; field; lra); rewrite (surjective_pairing m), Y in Q; eexists; exact Q end.
    - exists (fst c). rewrite <- H. destruct c; exact I.
    - assert (K : 0 <= (snd c - y) / (snd c - snd lo) < 1).
      { split; [apply Rmult_le_pos; [lra|left; apply Rinv_0_lt_compat; lra]|]. apply (Rmult_lt_reg_r (snd c - snd lo)); [lra|]. unfold Rdiv. rewrite Rmult_assoc, Rinv_l by lra. lra. }
      pose proof (M c lo _ I (V lo Ilo) K) as Q. match type of Q with strictly_inside _ ?m => assert (Y : snd m = y) by (unfold mixp; cbn [snd]; field; lra); rewrite (surjective_pairing m), Y in Q; eexists; exact Q end. }
  destruct X0 as (x0 & I0). destruct (covered P (x0, y) N I0 NV) as (h0 & h1 & rest & E & B0). cbn [fst snd] in E, B0.
  exists h0, h1, rest. split; [exact E|]. split; [intros ->; destruct B0; lra|].
  destruct (hline_polygon_XR y P N) as (r & Er & Hr & _). rewrite E in Er. injection Er as <-.
  assert (H : forall h, h = h0 \/ h = h1 -> inside_or_on P (h, y)).
  { intros h Hh. assert (K : In (Some h) (Some h0 :: Some h1 :: rest)) by (destruct Hh as [->| ->]; [left|right; left]; reflexivity).
    apply Hr in K. destruct K as (x & a & b & Ex & Ed & _ & S). injection Ex as <-. exact (hit_on P a b _ C Ed S). }
  intros x. split.
  - intros W a b Ed. pose proof (H h0 (or_introl eq_refl) a b Ed) as T0. pose proof (H h1 (or_intror eq_refl) a b Ed) as T1.
    unfold turn_of in T0, T1 |- *. cbn [fst snd] in T0, T1 |- *.
    apply (affine_between ((fst b - fst a) * (y - snd a)) (snd b - snd a) (fst a) h0 h1 x W T0 T1).
  - intros W.
    assert (G : forall s, 0 <= s < 1 -> strictly_between h0 h1 ((1 - s) * x0 + s * x)).
    { intros s Hs. pose proof (M (x0, y) (x, y) s I0 W Hs) as Q. unfold mixp in Q. cbn [fst snd] in Q. replace ((1 - s) * y + s * y) with y in Q by ring.
      destruct (covered P _ N Q NV) as (k0 & k1 & rest' & E' & B'). cbn [fst snd] in E', B'. rewrite E in E'. injection E' as <- <- _. exact B'. }
    assert (Lim : forall u w, (forall s, 0 <= s < 1 -> u < (1 - s) * w + s * x) -> u <= x).
    { intros u w K. destruct (Rle_or_lt u x) as [L|L]; [exact L|exfalso]. pose proof (K 0 ltac:(lra)) as K0.
      assert (D : 0 < w - x) by lra. specialize (K ((w - u) / (w - x))).
      assert (0 <= (w - u) / (w - x) < 1).
      { split; [apply Rmult_le_pos; [lra|left; apply Rinv_0_lt_compat; lra]|]. apply (Rmult_lt_reg_r (w - x)); [lra|]. unfold Rdiv. rewrite Rmult_assoc, Rinv_l by lra. lra. }
      specialize (K H0). replace ((1 - (w - u) / (w - x)) * w + (w - u) / (w - x) * x) with u in K by (field; lra). lra. }
    assert (Lim' : forall u w, (forall s, 0 <= s < 1 -> (1 - s) * w + s * x < u) -> x <= u).
    { intros u w K. destruct (Rle_or_lt x u) as [L|L]; [exact L|exfalso]. pose proof (K 0 ltac:(lra)) as K0.
      assert (D : 0 < x - w) by lra. specialize (K ((u - w) / (x - w))).
      assert (0 <= (u - w) / (x - w) < 1).
      { split; [apply Rmult_le_pos; [lra|left; apply Rinv_0_lt_compat; lra]|]. apply (Rmult_lt_reg_r (x - w)); [lra|]. unfold Rdiv. rewrite Rmult_assoc, Rinv_l by lra. lra. }
      specialize (K H0). replace ((1 - (u - w) / (x - w)) * w + (u - w) / (x - w) * x) with u in K by (field; lra). lra. }
    destruct B0 as [B0|B0].
    + left. split; [apply (Lim h0 x0)|apply (Lim' h1 x0)]; intros s Hs; destruct (G s Hs) as [K|K]; lra.
    + right. split; [apply (Lim h1 x0)|apply (Lim' h0 x0)]; intros s Hs; destruct (G s Hs) as [K|K]; lra.
Qed.
