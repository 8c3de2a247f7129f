From Coq Require Import List Bool Arith Lia ZArith.
From Verif.Base Require Import Outcome Float64.
From Verif.Model Require Import MScalar MDistance MFreeSpace MGraph MSearch.
From Verif.Spec Require Import SGraph SSearch.
From Verif.Proofs Require Import PGraph PHRM2D.
Import ListNotations.

Lemma pred_chain_hd g p s x l : pred_chain g p s x l -> exists r, l = x :: r.
Proof. destruct 1; eauto. Qed.
Lemma pred_chain_last g p s x l : pred_chain g p s x l -> exists r, l = r ++ [s].
Proof. induction 1 as [|x y l _ _ _ _ (r & ->)]; [exists []; auto|exists (x :: r); auto]. Qed.
Lemma adj_sym g a b : adj g a b -> adj g b a.
Proof. intros [H|H]; [right|left]; auto. Qed.
Lemma walk_snoc g a b c l : walk_between g b a l -> adj g b c -> walk_between g c a (l ++ [c]).
Proof.
  induction 1 as [|a d l A _ IH]; intros H; cbn [app].
  - apply wb_step with (c := c); [auto|constructor].
  - apply wb_step with (c := d); auto.
Qed.
Lemma chain_walk g p s x l : pred_chain g p s x l -> walk_between g x s (rev l).
Proof.
  induction 1 as [|x y l N P A _ IH]; [constructor|]. cbn [rev]. eapply walk_snoc; eauto. apply adj_sym; auto.
Qed.

(** The reconstruction loop follows the chain. *)
Lemma walk_chain g p weight s x l : pred_chain g p s x l -> forall k path cost, length l <= S k ->
  walk p weight s k (length path) (path ++ [x]) cost =
  obind (id_cost weight cost l) (fun c => Ok (path ++ l, c, length path + (length l - 1))).
Proof.
  induction 1 as [|x y l N P A C IH]; intros k path cost L.
  - assert (X : forall k, walk p weight s k (length path) (path ++ [s]) cost = Ok (path ++ [s], cost, length path)).
    { intros k'. destruct k'; cbn [walk]; rewrite (proj2 (idx_Ok _ _ _) (nth_snoc path s)); cbn [obind]; rewrite Nat.eqb_refl; auto. }
    rewrite X. cbn [id_cost obind length Nat.sub]. rewrite Nat.add_0_r. reflexivity.
  - destruct (pred_chain_hd _ _ _ _ _ C) as (r & ->). destruct k as [|k]; [cbn [length] in L; lia|].
    cbn [walk]. rewrite (proj2 (idx_Ok _ _ _) (nth_snoc path x)). cbn [obind].
    rewrite (proj2 (Nat.eqb_neq x s) N). rewrite (proj2 (idx_Ok _ _ _) P). cbn [obind].
    change (id_cost weight cost (x :: y :: r)) with (obind (idx weight x) (fun w => id_cost weight (fadd cost w) (y :: r))).
    destruct (idx weight x) as [w| |]; cbn [obind]; auto.
    specialize (IH k (path ++ [x]) (fadd cost w)). rewrite app_length in IH. cbn [length] in IH.
    rewrite IH by (cbn [length] in L; lia).
    destruct (id_cost weight (fadd cost w) (y :: r)) as [c| |]; cbn [obind]; auto.
    rewrite <- app_assoc. cbn [app length]. f_equal. f_equal. lia.
Qed.

Lemma id_cost_outcome weight l : forall acc, (exists c, id_cost weight acc l = Ok c) \/ id_cost weight acc l = UB.
Proof.
  induction l as [|x l IH]; intros acc; cbn [id_cost]; [eauto|]. destruct l as [|y l]; [eauto|].
  unfold idx. destruct (nth_error weight x); cbn [obind]; auto.
Qed.
(** The cost is undefined exactly when a chain vertex other than the start has no
    edge with its own number. *)
Lemma id_cost_UB weight l : forall acc, id_cost weight acc l = UB <-> exists x, In x (removelast l) /\ length weight <= x.
Proof.
  induction l as [|x l IH]; intros acc; cbn [id_cost].
  - split; [intros H; discriminate H|intros (x & [] & _)].
  - destruct l as [|y l]; [split; [intros H; discriminate H|intros (z & [] & _)]|].
    change (removelast (x :: y :: l)) with (x :: removelast (y :: l)).
    unfold idx. destruct (nth_error weight x) as [w|] eqn:W; cbn [obind].
    + rewrite IH. apply nth_error_lt in W. split.
      * intros (z & Hz & L). exists z. split; [right; auto|auto].
      * intros (z & [<-|Hz] & L); [lia|]. exists z; auto.
    + split; [|auto]. intros _. exists x. split; [left; auto|]. apply nth_error_None; auto.
Qed.

Section S.
Variable astar : graph -> nat -> nat -> option (list nat).
Variable g : graph.
Notation nv := (length (gvert g)).

Lemma try_pair_some s t p l r : s_path r = [] -> astar g s t = Some p -> pred_chain g p s t l -> length l <= nv ->
  try_pair astar g s t r = obind (id_cost (gweight g) (fofZ 0) l) (fun c => Ok (Sol true (rev l) c, true)).
Proof.
  intros Hr Ha Hc Hl. unfold try_pair. rewrite Ha, Hr.
  pose proof (walk_chain g p (gweight g) s t l Hc (nv + 1) [] (fofZ 0) ltac:(lia)) as W.
  cbn [length app Nat.add] in W. cbn [app]. rewrite W.
  destruct (id_cost (gweight g) (fofZ 0) l) as [c| |]; cbn [obind]; auto.
  destruct (Nat.eqb_spec (length l - 1) (nv + 1)); [lia|]. reflexivity.
Qed.

Definition path_ids (s t : nat) (ids : list nat) : Prop :=
  walk_between g t s ids /\ length ids <= nv.

Lemma try_pairs_spec ps r r' : astar_sound g astar -> Forall (fun st => fst st < nv /\ snd st < nv) ps ->
  s_path r = [] -> try_pairs astar g ps r = Ok r' ->
  (r' = r /\ forall s t, In (s, t) ps -> astar g s t = None) \/
  (exists s t, In (s, t) ps /\ s_solved r' = true /\ path_ids s t (s_path r') /\
     id_cost (gweight g) (fofZ 0) (rev (s_path r')) = Ok (s_cost r')).
Proof.
  intros Hs. induction ps as [|[s t] ps IH]; intros F Hr H; cbn [try_pairs] in H.
  - injection H as <-. left. split; [auto|]. intros s t [].
  - inversion F as [|? ? [F1 F2] F3]; subst. cbn [fst snd] in *. ob H x Hx.
    destruct (astar g s t) as [p|] eqn:A.
    + destruct (Hs s t p F1 F2 A) as (l & C & L).
      rewrite (try_pair_some s t p l r Hr A C L) in Hx. ob Hx c Hc. injection Hx as <-. cbn [fst snd] in H. injection H as <-.
      right. exists s, t. cbn [s_solved s_path s_cost]. split; [left; auto|]. split; [auto|]. split.
      * split; [eapply chain_walk; eauto|]. rewrite rev_length. exact L.
      * rewrite rev_involutive. exact Hc.
    + unfold try_pair in Hx. rewrite A in Hx. injection Hx as <-. cbn [fst snd] in H.
      destruct (IH F3 Hr H) as [[-> Hn]|(s' & t' & Hin & X)].
      * left. split; [auto|]. intros s' t' [Q|Q]; [injection Q as <- <-; auto|auto].
      * right. exists s', t'. split; [right; auto|auto].
Qed.

Lemma search_spec ss ts r r' : astar_sound g astar -> (forall x, In x ss \/ In x ts -> x < nv) ->
  s_path r = [] -> search astar g ss ts r = Ok r' ->
  (r' = r /\ forall s t, In s ss -> In t ts -> astar g s t = None) \/
  (exists s t, In s ss /\ In t ts /\ s_solved r' = true /\ path_ids s t (s_path r') /\
     id_cost (gweight g) (fofZ 0) (rev (s_path r')) = Ok (s_cost r')).
Proof.
  intros Hs Hb Hr H. unfold search in H. destruct (Nat.ltb (length (gweight g)) (length (gedge g))); [discriminate H|].
  apply try_pairs_spec in H; auto.
  - destruct H as [[-> Hn]|(s & t & Hin & X)].
    + left. split; [auto|]. intros s t H1 H2. apply Hn. apply in_prod; auto.
    + right. apply in_prod_iff in Hin. destruct Hin. exists s, t. auto.
  - apply Forall_forall. intros [s t] Hin. apply in_prod_iff in Hin. cbn [fst snd]. destruct Hin. split; apply Hb; auto.
Qed.

(** No undefined behaviour when every vertex number is an edge number. *)
Lemma search_total ss ts r : astar_sound g astar -> (forall x, In x ss \/ In x ts -> x < nv) -> s_path r = [] ->
  length (gweight g) = length (gedge g) ->
  (exists r', search astar g ss ts r = Ok r') \/
  (search astar g ss ts r = UB /\ exists s t p l x, In s ss /\ In t ts /\ astar g s t = Some p /\ pred_chain g p s t l /\
     In x (removelast l) /\ length (gedge g) <= x).
Proof.
  intros Hs Hb Hr Hw. unfold search. rewrite Hw, Nat.ltb_irrefl.
  assert (F : forall st, In st (list_prod ss ts) -> In (fst st) ss /\ In (snd st) ts).
  { intros [s t] Hin. apply in_prod_iff in Hin. auto. }
  induction (list_prod ss ts) as [|[s t] ps IH]; cbn [try_pairs]; [eauto|].
  destruct (F (s, t) (or_introl eq_refl)) as [F1 F2]. cbn [fst snd] in *.
  destruct (astar g s t) as [p|] eqn:A.
  - destruct (Hs s t p) as (l & C & L); auto.
    rewrite (try_pair_some s t p l r Hr A C L).
    destruct (id_cost_outcome (gweight g) l (fofZ 0)) as [(c & ->)|U]; cbn [obind fst snd]; [eauto|].
    rewrite U. cbn [obind]. right. split; [auto|]. apply id_cost_UB in U. destruct U as (x & Hx & Lx).
    exists s, t, p, l, x. rewrite <- Hw. auto 10.
  - assert (X : try_pair astar g s t r = Ok (r, false)) by (unfold try_pair; rewrite A; auto). rewrite X. cbn [obind fst snd]. apply IH. intros; apply F; right; auto.
Qed.

(** A second search keeps the old path in front: it stops at once if the old path
    begins with the source. *)
Lemma try_pair_stale s t p rest r : s_path r = s :: rest -> astar g s t = Some p ->
  try_pair astar g s t r = Ok (Sol true (t :: rev (s :: rest)) (fofZ 0), true).
Proof.
  intros Hr A. unfold try_pair. rewrite A, Hr. replace (nv + 1) with (S nv) by lia. cbn [walk app idx nth_error obind].
  rewrite Nat.eqb_refl. cbn [obind Nat.eqb]. rewrite app_comm_cons, rev_app_distr. reflexivity.
Qed.
End S.

Lemma solution_path_spec g start goal ids path : solution_path g start goal ids = Ok path ->
  exists v0 ms, nth_error (gvert g) 0 = Some v0 /\
    path = resize_pose start (length v0) :: ms ++ [resize_pose goal (length v0)] /\
    Forall2 (fun i v => nth_error (gvert g) i = Some v) ids ms.
Proof.
  unfold solution_path. intros H. ob H v0 H0. ob H ms Hm. injection H as <-. apply at_Ok in H0. apply omap_Ok in Hm.
  exists v0, ms. split; [auto|]. split; [auto|]. clear H0. induction Hm as [|i v ids ms Q _ IH]; constructor; auto.
  apply at_Ok; auto.
Qed.
Lemma resize_same {A} (v : list A) n x : length v = n -> resize v n x = v.
Proof. intros <-. unfold resize. rewrite firstn_all, Nat.sub_diag. apply app_nil_r. Qed.
