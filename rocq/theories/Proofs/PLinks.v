(** The linking of two vertex ranges is greedy, and nothing else: a close and free pair that is not
    linked was passed over for an earlier partner, or lies before the partner of an earlier vertex. *)
From Coq Require Import List Bool Arith Lia.
From Verif.Base Require Import Outcome Float64.
From Verif.Model Require Import MScalar MDistance MGraph.
From Verif.Proofs Require Import PGraph PTables.
Import ListNotations.

Lemma find_link_first near ok g v1 : forall n s o, find_link near ok g v1 (seq s n) = Ok o ->
  forall b v2, s <= b -> (match o with Some m => b < m | None => b < s + n end) -> nth_error (gvert g) b = Some v2 ->
    near v1 v2 = Ok true -> ok v1 v2 = Ok true -> False.
Proof.
  induction n as [|n IH]; intros s o E b v2 Hs Hb Hv N O; cbn [seq find_link] in E.
  - injection E as <-. lia.
  - apply obind_Ok in E. destruct E as (w & Ew & E). apply idx_Ok in Ew. apply obind_Ok in E. destruct E as (c & Nc & E).
    destruct (Nat.eq_dec b s) as [->|Ne].
    + rewrite Hv in Ew. injection Ew as <-. rewrite N in Nc. injection Nc as <-. rewrite O in E. cbn [obind] in E. injection E as <-. lia.
    + assert (R : find_link near ok g v1 (seq (S s) n) = Ok o -> False).
      { intros E'. apply (IH (S s) o E' b v2); [lia| |exact Hv|exact N|exact O]. destruct o; lia. }
      destruct c; [|exact (R E)]. apply obind_Ok in E. destruct E as (d & Od & E). destruct d; [|exact (R E)].
      injection E as <-. lia.
Qed.

Lemma link_ranges_complete near ok lo1 hi1 lo2 hi2 g g' : link_ranges near ok lo1 hi1 lo2 hi2 g = Ok g' ->
  exists es, gedge g' = gedge g ++ es /\
    forall a b v1 v2, lo1 <= a < hi1 -> lo2 <= b < hi2 -> nth_error (gvert g) a = Some v1 -> nth_error (gvert g) b = Some v2 ->
      near v1 v2 = Ok true -> ok v1 v2 = Ok true ->
      (exists b', In (a, b') es /\ b' <= b) \/ (exists a' b', In (a', b') es /\ a' < a /\ b < b').
Proof.
  unfold link_ranges. intros E. apply obind_Ok in E. destruct E as ([g1 s1] & E & Eg).
  set (I := fun (lo : nat) (x : graph * nat) => exists es,
    gvert (fst x) = gvert g /\ gedge (fst x) = gedge g ++ es /\ (snd x = lo2 \/ exists a', In (a', snd x) es /\ a' < lo) /\
    forall a b v1 v2, lo1 <= a < lo -> lo2 <= b < hi2 -> nth_error (gvert g) a = Some v1 -> nth_error (gvert g) b = Some v2 ->
      near v1 v2 = Ok true -> ok v1 v2 = Ok true ->
      (exists b', In (a, b') es /\ b' <= b) \/ (exists a' b', In (a', b') es /\ a' < a /\ b < b')).
  assert (Main : forall n lo s t, lo1 <= lo -> I lo s ->
     ofold (fun '(g, s) m0 => obind (idx (gvert g) m0) (fun v1 => obind (find_link near ok g v1 (seq s (hi2 - s))) (fun o =>
       match o with Some m1 => obind (add_edge m0 m1 g) (fun g' => Ok (g', m1)) | None => Ok (g, s) end))) (seq lo n) s = Ok t ->
     I (lo + n) t).
  { induction n as [|n IH]; intros lo [ga sa] t Hlo HI Et.
    - simpl in Et. injection Et as <-. rewrite Nat.add_0_r. exact HI.
    - cbn [seq ofold] in Et. apply obind_Ok in Et. destruct Et as ([gb sb] & E1 & Et).
      replace (lo + S n) with (S lo + n) by lia. apply (IH (S lo) (gb, sb) t); [lia| |exact Et]. clear IH Et t.
      apply obind_Ok in E1. destruct E1 as (v0 & V0 & E1). apply obind_Ok in E1. destruct E1 as (o & O & E1).
      pose proof (find_link_first _ _ _ _ _ _ _ O) as F. apply idx_Ok in V0.
      destruct HI as (es & I1 & I2 & I3 & I4). cbn [fst snd] in *.
      assert (Base : forall es', incl es es' -> (forall b v2, lo2 <= b < hi2 -> nth_error (gvert g) b = Some v2 -> near v0 v2 = Ok true -> ok v0 v2 = Ok true ->
                 (exists b', In (lo, b') es' /\ b' <= b) \/ (exists a' b', In (a', b') es' /\ a' < lo /\ b < b')) ->
               forall a b v1 v2, lo1 <= a < S lo -> lo2 <= b < hi2 -> nth_error (gvert g) a = Some v1 -> nth_error (gvert g) b = Some v2 ->
                 near v1 v2 = Ok true -> ok v1 v2 = Ok true ->
                 (exists b', In (a, b') es' /\ b' <= b) \/ (exists a' b', In (a', b') es' /\ a' < a /\ b < b')).
      { intros es' Inc New a b v1 v2 Ha Hb Hv1 Hv2 N OK. destruct (Nat.eq_dec a lo) as [->|Ne].
        - rewrite <- I1 in Hv1. rewrite V0 in Hv1. injection Hv1 as <-. exact (New b v2 Hb Hv2 N OK).
        - destruct (I4 a b v1 v2 ltac:(lia) Hb Hv1 Hv2 N OK) as [(b' & A & B)|(a' & b' & A & B & C)]; [left; exists b'|right; exists a', b']; auto. }
      destruct o as [m1|].
      + apply obind_Ok in E1. destruct E1 as (gc & E1 & Q). injection Q as <- <-.
        apply add_edge_inv in E1. destruct E1 as (u1 & u2 & w & U1 & U2 & W & ->).
        exists (es ++ [(lo, m1)]). cbn [fst snd gvert gedge]. split; [exact I1|]. split; [rewrite I2, app_assoc; reflexivity|].
        split; [right; exists lo; split; [apply in_or_app; right; left; reflexivity|lia]|].
        apply Base; [intros e He; apply in_or_app; left; exact He|]. intros b v2 Hb Hv2 N OK.
        destruct (Nat.leb_spec m1 b) as [L|L]; [left; exists m1; split; [apply in_or_app; right; left; reflexivity|exact L]|].
        destruct (Nat.leb_spec sa b) as [L2|L2]; [exfalso; rewrite <- I1 in Hv2; exact (F b v2 L2 L Hv2 N OK)|].
        destruct I3 as [->|(a' & A & B)]; [lia|]. right. exists a', sa. split; [apply in_or_app; left; exact A|lia].
      + injection E1 as <- <-. exists es. cbn [fst snd]. split; [exact I1|]. split; [exact I2|].
        split; [destruct I3 as [->|(a' & A & B)]; [left; reflexivity|right; exists a'; split; [exact A|lia]]|].
        apply Base; [intros e He; exact He|]. intros b v2 Hb Hv2 N OK.
        destruct (Nat.leb_spec sa b) as [L2|L2]; [exfalso; rewrite <- I1 in Hv2; exact (F b v2 L2 ltac:(lia) Hv2 N OK)|].
        destruct I3 as [->|(a' & A & B)]; [lia|]. right. exists a', sa. split; [exact A|lia]. }
  injection Eg as Eg. subst g'. cbn [fst].
  apply (Main _ lo1 (g, lo2)) in E; [|lia|].
  - destruct E as (es & _ & E2 & _ & E4). cbn [fst] in E2. exists es. split; [exact E2|]. intros a b v1 v2 Ha. apply E4. lia.
  - exists []. cbn [fst snd]. split; [reflexivity|]. split; [rewrite app_nil_r; reflexivity|]. split; [left; reflexivity|]. intros a b v1 v2 Ha. lia.
Qed.

(** Two descriptions of the edges appended are of the same edges. *)
Lemma same_suffix {A} (l a b : list A) r : r = l ++ a -> r = l ++ b -> a = b.
Proof. intros -> H. exact (app_inv_head _ _ _ H). Qed.
