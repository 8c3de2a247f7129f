(** Interpolation. *)
From Coq Require Import List Bool Arith Lia ZArith Reals Lra.
From Verif.Base Require Import Outcome Float64 FloatFacts.
From Verif.Model Require Import MScalar MInterp.
From Verif.Proofs Require Import PTables PGraph PHRM2D.
Import ListNotations.
Local Open Scope outcome_scope.

Lemma omap_seq {B} (f : nat -> outcome B) n bs : omap f (seq 0 n) = Ok bs ->
  length bs = n /\ forall i, i < n -> exists b, f i = Ok b /\ nth_error bs i = Some b.
Proof.
  intros H. apply omap_Ok in H.
  assert (G : forall l bs, Forall2 (fun a b => f a = Ok b) l bs -> length bs = length l /\
    forall k i, nth_error l k = Some i -> exists b, f i = Ok b /\ nth_error bs k = Some b).
  { clear. induction 1 as [|a b l bs H1 H2 [IH1 IH2]]; [split; [auto|]; intros [|k] i Hk; discriminate Hk|].
    split; [cbn; lia|]. intros [|k] i Hk; cbn in Hk; [injection Hk as <-; exists b; split; [exact H1|reflexivity]|exact (IH2 k i Hk)]. }
  destruct (G _ _ H) as [G1 G2]. rewrite seq_length in G1. split; [auto|]. intros i Hi.
  apply (G2 i i). rewrite (nth_error_nth' _ 0) by (rewrite seq_length; auto). rewrite seq_nth by auto. f_equal.
Qed.
Lemma omap_total {A B} (f : A -> outcome B) l : (forall a, In a l -> exists b, f a = Ok b) -> exists bs, omap f l = Ok bs.
Proof.
  induction l as [|a l IH]; intros H; cbn [omap]; [eauto|]. destruct (H a (or_introl eq_refl)) as (b & ->).
  destruct IH as (bs & ->); [intros; apply H; right; auto|]. cbn [obind]. eauto.
Qed.

Lemma nth_skip {A} k (l : list A) j : nth_error (skipn k l) j = nth_error l (k + j).
Proof. revert l. induction k as [|k IH]; intros l; [reflexivity|]. destruct l as [|x l]; [destruct j; reflexivity|]. exact (IH l). Qed.

Section G.
Variable S : scalar.
Notation T := (car S).
Lemma blend_total t (a b : list T) : length a <= length b -> exists r, blend S t a b = Ok r /\ length r = length a.
Proof.
  revert b. induction a as [|x a IH]; intros [|y b] L; cbn [length blend] in *; try lia; [eauto..|].
  destruct (IH b ltac:(lia)) as (r & -> & Hr). cbn [obind]. eexists. split; [reflexivity|]. cbn [length]. lia.
Qed.
Lemma blend_len t (a b r : list T) : blend S t a b = Ok r -> length r = length a /\ length a <= length b.
Proof.
  revert b r. induction a as [|x a IH]; intros [|y b] r H; cbn [length blend] in *; try (injection H as <-; cbn; lia); [discriminate H|].
  ob H r' H'. injection H as <-. apply IH in H'. cbn [length]. lia.
Qed.
Lemma blend_UB t (a b : list T) : length b < length a -> blend S t a b = UB.
Proof.
  revert b. induction a as [|x a IH]; intros [|y b] L; cbn [length blend] in *; try lia; [reflexivity|]. rewrite IH by lia. reflexivity.
Qed.
Lemma blend_nth t (a b r : list T) : blend S t a b = Ok r -> forall j x y, nth_error a j = Some x -> nth_error b j = Some y ->
  nth_error r j = Some (sadd S (smul S (ssub S (sone S) t) x) (smul S t y)).
Proof.
  revert b r. induction a as [|x a IH]; intros [|y b] r H j x' y' Hx Hy; try (destruct j; discriminate Hx); try (destruct j; discriminate Hy).
  cbn [blend] in H. ob H r' H'. injection H as <-. destruct j as [|j]; cbn [nth_error] in *; [injection Hx as <-; injection Hy as <-; reflexivity|eauto].
Qed.

Lemma rn_ok (a b : list T) n : length a <= length b -> exists r, interpolate_rn S a b n = Ok r /\ length r = n + 1 /\
  forall i v, nth_error r i = Some v -> length v = length a /\
    forall j x y, nth_error a j = Some x -> nth_error b j = Some y ->
      nth_error v j = Some (sadd S (smul S (ssub S (sone S) (param S n i)) x) (smul S (param S n i) y)).
Proof.
  intros L. unfold interpolate_rn. destruct (omap_total (fun i => blend S (param S n i) a b) (seq 0 (n + 1))) as (r & Hr).
  { intros i _. destruct (blend_total (param S n i) a b L) as (v & Hv & _). eauto. }
  exists r. split; [exact Hr|]. apply omap_seq in Hr. destruct Hr as [L1 H]. split; [exact L1|]. intros i v Hi.
  assert (Li : i < n + 1) by (rewrite <- L1; eapply nth_error_lt; eauto). destruct (H i Li) as (v' & Hv & Hi').
  rewrite Hi in Hi'. injection Hi' as <-. split; [apply blend_len in Hv; tauto|]. intros j x y. eapply blend_nth; eauto.
Qed.
Lemma rn_UB (a b : list T) n : length b < length a -> interpolate_rn S a b n = UB.
Proof.
  intros L. unfold interpolate_rn. replace (n + 1) with (Datatypes.S n) by lia. cbn [seq omap]. rewrite blend_UB by auto. reflexivity.
Qed.

Variable slerp : quat S -> T -> quat S -> quat S.

Definition se3_at (a b : list T) (n i : nat) (v : list T) : Prop :=
  exists qa qb q x y z, get_quat S a = Ok qa /\ get_quat S b = Ok qb /\ q = slerp qa (param S n i) qb /\
    v = [x; y; z; fst (fst (fst q)); snd (fst (fst q)); snd (fst q); snd q] /\
    (forall j u w, j < 3 -> nth_error a j = Some u -> nth_error b j = Some w ->
       nth_error v j = Some (sadd S (smul S (ssub S (sone S) (param S n i)) u) (smul S (param S n i) w))).

Lemma get_quat_ok (v : list T) : 7 <= length v -> exists q, get_quat S v = Ok q /\
  nth_error v 3 = Some (fst (fst (fst q))) /\ nth_error v 4 = Some (snd (fst (fst q))) /\ nth_error v 5 = Some (snd (fst q)) /\ nth_error v 6 = Some (snd q).
Proof. intros H. do 7 (destruct v as [|? v]; [cbn in H; lia|]). eexists. split; [reflexivity|]. cbn. auto. Qed.
Lemma get_trans_ok (v : list T) : 3 <= length v -> exists t, get_trans S v = Ok t /\ length t = 3 /\ forall j, j < 3 -> nth_error t j = nth_error v j.
Proof.
  intros H. do 3 (destruct v as [|? v]; [cbn in H; lia|]). eexists. split; [reflexivity|]. split; [reflexivity|].
  intros [|[|[|j]]] Hj; try reflexivity. lia.
Qed.

Lemma se3_ok (a b : list T) n : 7 <= length a -> 7 <= length b ->
  exists r, interpolate_se3 S slerp a b n = Ok r /\ length r = n + 1 /\
  forall i v, nth_error r i = Some v -> length v = 7 /\ se3_at a b n i v.
Proof.
  intros La Lb. unfold interpolate_se3.
  destruct (get_quat_ok a La) as (qa & Qa & _). destruct (get_quat_ok b Lb) as (qb & Qb & _).
  destruct (get_trans_ok a ltac:(lia)) as (ta & Ta & Lta & Na). destruct (get_trans_ok b ltac:(lia)) as (tb & Tb & Ltb & Nb).
  rewrite Qa, Qb, Ta, Tb. cbn [obind]. destruct (rn_ok ta tb n ltac:(lia)) as (ts & -> & Lts & Hts). cbn [obind].
  match goal with |- context [omap ?f (seq 0 (n + 1))] => set (F := f) end.
  assert (Fi : forall i, i < n + 1 -> exists t x y z, nth_error ts i = Some t /\ t = [x; y; z] /\
     F i = Ok [x; y; z; fst (fst (fst (slerp qa (param S n i) qb))); snd (fst (fst (slerp qa (param S n i) qb))); snd (fst (slerp qa (param S n i) qb)); snd (slerp qa (param S n i) qb)]).
  { intros i Hi. destruct (nth_error ts i) as [t|] eqn:E; [|apply nth_error_None in E; lia].
    destruct (Hts i t E) as [L3 _]. rewrite Lta in L3. destruct t as [|x [|y [|z [|? ?]]]]; try discriminate L3.
    exists [x; y; z], x, y, z. split; [reflexivity|]. split; [reflexivity|]. subst F. cbv beta. unfold idx at 1. rewrite E.
    cbn [obind idx nth_error]. unfold interpolate_slerp, idx. rewrite nth_error_map.
    rewrite (nth_error_nth' _ 0) by (rewrite seq_length; auto). rewrite seq_nth by auto. cbn [option_map obind Nat.add].
    destruct (slerp qa (param S n i) qb) as [[[qw qx] qy] qz]. reflexivity. }
  destruct (omap_total F (seq 0 (n + 1))) as (r & Hr).
  { intros i Hi. apply in_seq in Hi. destruct (Fi i ltac:(lia)) as (t & x & y & z & _ & _ & Q). eauto. }
  exists r. split; [exact Hr|]. apply omap_seq in Hr. destruct Hr as [Lr Hr]. split; [exact Lr|].
  intros i v Hi. assert (Li : i < n + 1) by (rewrite <- Lr; eapply nth_error_lt; eauto).
  destruct (Hr i Li) as (v' & Hv & Hi'). rewrite Hi in Hi'. injection Hi' as <-.
  destruct (Fi i Li) as (t & x & y & z & Ht & -> & Q). rewrite Q in Hv. injection Hv as <-. split; [reflexivity|].
  exists qa, qb, (slerp qa (param S n i) qb), x, y, z. split; [auto|]. split; [auto|]. split; [auto|]. split; [reflexivity|].
  intros j u w Hj Hu Hw. destruct (Hts i _ Ht) as [_ N]. rewrite <- Na in Hu by auto. rewrite <- Nb in Hw by auto.
  specialize (N j u w Hu Hw). rewrite <- N. destruct j as [|[|[|j]]]; try reflexivity. lia.
Qed.

Lemma se3_at_prefix a b n i v : 7 <= length a -> 7 <= length b -> se3_at (firstn 7 a) (firstn 7 b) n i v -> se3_at a b n i v.
Proof.
  intros La Lb (qa & qb & q & x & y & z & Qa & Qb & Eq & V & N). exists qa, qb, q, x, y, z.
  do 7 (destruct a as [|? a]; [cbn in La; lia|]). do 7 (destruct b as [|? b]; [cbn in Lb; lia|]).
  split; [exact Qa|]. split; [exact Qb|]. split; [auto|]. split; [auto|].
  intros j u w Hj Hu Hw. apply N; auto; destruct j as [|[|[|j]]]; auto; lia.
Qed.

Lemma compound_ok (a b : list T) n : 7 <= length a -> length a <= length b ->
  exists r, interpolate_compound S slerp a b n = Ok r /\
  (1 <= n -> length r = n + 1 /\ forall i v, nth_error r i = Some v -> length v = length a /\
     (exists p tl, v = p ++ tl /\ length p = 7 /\ se3_at a b n i p /\
        (forall j x y, nth_error a (7 + j) = Some x -> nth_error b (7 + j) = Some y ->
           nth_error tl j = Some (sadd S (smul S (ssub S (sone S) (param S n i)) x) (smul S (param S n i) y))))) /\
  (n = 0 -> length r = if Nat.eqb (length a) 7 then 1 else 3).
Proof.
  intros La Lb. unfold interpolate_compound. destruct (Nat.eqb_spec (length a) 7) as [E7|E7].
  - destruct (se3_ok a b n ltac:(lia) ltac:(lia)) as (r & -> & Lr & Hr). exists r. split; [reflexivity|]. split.
    + intros _. split; [exact Lr|]. intros i v Hi. destruct (Hr i v Hi) as [L7 Q]. split; [congruence|].
      exists v, []. rewrite app_nil_r. split; [reflexivity|]. split; [auto|]. split; [auto|].
      intros j x y Hx _. apply nth_error_lt in Hx. lia.
    + intros ->. exact Lr.
  - unfold split7. destruct (Nat.ltb_spec (length a) 7); [lia|]. destruct (Nat.ltb_spec (length b) 7); [lia|].
    cbn [obind fst snd].
    destruct (se3_ok (firstn 7 a) (firstn 7 b) n) as (r1 & -> & L1 & H1); [rewrite firstn_length; lia|rewrite firstn_length; lia|].
    cbn [obind]. destruct (rn_ok (skipn 7 a) (skipn 7 b) n) as (r2 & -> & L2 & H2); [rewrite !skipn_length; lia|]. cbn [obind].
    match goal with |- context [omap ?f (seq 0 (n + 1))] => set (F := f) end.
    destruct (omap_total F (seq 0 (n + 1))) as (r & Hr).
    { intros i Hi. apply in_seq in Hi. subst F. cbv beta.
      destruct (at_lt r1 i) as (u & ->); [lia|]. destruct (at_lt r2 i) as (w & ->); [lia|]. cbn [obind]. eauto. }
    rewrite Hr. cbn [obind]. apply omap_seq in Hr. destruct Hr as [Lr Hr]. eexists. split; [reflexivity|]. split.
    + intros Hn. destruct (Nat.eqb_spec n 0) as [Z|Z]; [lia|]. cbn [app]. split; [exact Lr|].
      intros i v Hi. assert (Li : i < n + 1) by (rewrite <- Lr; eapply nth_error_lt; eauto).
      destruct (Hr i Li) as (v' & Hv & Hi'). rewrite Hi in Hi'. injection Hi' as <-. subst F. cbv beta in Hv.
      ob Hv u Hu. ob Hv w Hw. injection Hv as <-. apply at_Ok in Hu, Hw. destruct (H1 i u Hu) as [Lu Su]. destruct (H2 i w Hw) as [Lw Sw].
      split; [rewrite app_length, Lu, Lw, skipn_length; lia|]. exists u, w. split; [reflexivity|]. split; [exact Lu|].
      split; [apply se3_at_prefix; auto; lia|].
      intros j x y Hx Hy. apply Sw; rewrite nth_skip; auto.
    + intros ->. cbn [Nat.eqb app length]. rewrite Lr. reflexivity.
Qed.

Lemma compound_UB (a b : list T) n : length a < 7 -> interpolate_compound S slerp a b n = UB.
Proof.
  intros L. unfold interpolate_compound. destruct (Nat.eqb_spec (length a) 7); [lia|]. unfold split7.
  destruct (Nat.ltb_spec (length a) 7); [reflexivity|lia].
Qed.
End G.
