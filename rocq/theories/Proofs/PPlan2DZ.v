(** Planar planner: the search part of a planning call. *)
From Coq Require Import List Bool Arith Lia ZArith.
From Verif.Base Require Import Outcome Float64 FloatFacts.
From Verif.Model Require Import MScalar MDistance MInterval MFreeSpace MLine2D MGraph MSearch MHRM2D MAStar.
From Verif.Spec Require Import SFreeSpace SGraph SSearch SPlanner2D.
From Verif.Proofs Require Import PTables PGraph PHRM2D PPlan2D PPlan2DY PSearch PNearest PSampling PAStarF.
Import ListNotations.

Lemma boost_astar_sound g astar : well_formed g -> tame g -> astar_is_boost g astar -> astar_sound g astar.
Proof.
  intros W T B s t p Hs Ht A. destruct (B s t Hs Ht) as (top & fuel & H & Q). rewrite A in Q.
  apply boost_sound in Q; auto; [tauto|]. intros c q N. apply H; auto.
Qed.
Lemma boost_astar_complete g astar : well_formed g -> tame g -> astar_is_boost g astar -> astar_complete g astar.
Proof.
  intros W T B s t Hs Ht A. destruct (B s t Hs Ht) as (top & fuel & H & Q). rewrite A in Q.
  eapply (boost_complete g W top); eauto. intros c q N. apply H; auto.
Qed.
Lemma walk_chain_connected g s t ids : walk_between g t s ids -> connected g s t.
Proof. intros H. exists ids. exact H. Qed.

(** The heap of the concrete runs. *)
Lemma first_top_ok : heap_ok fltb first_top.
Proof.
  intros cost [|x r] H; [congruence|]. clear H. unfold first_top.
  assert (G : forall r seen b, In b seen -> (forall z, In z seen -> fltb (cost z) (cost b) = false) ->
    In (fold_left (fun b y => if fltb (cost y) (cost b) then y else b) r b) (seen ++ r) /\
    forall z, In z (seen ++ r) -> fltb (cost z) (cost (fold_left (fun b y => if fltb (cost y) (cost b) then y else b) r b)) = false).
  { clear. induction r as [|y r IH]; intros seen b Hb Hm; cbn [fold_left]; [rewrite app_nil_r; auto|].
    replace (seen ++ y :: r) with ((seen ++ [y]) ++ r) by (rewrite <- app_assoc; auto).
    destruct (fltb (cost y) (cost b)) eqn:L; apply IH.
    - apply in_or_app; right; left; auto.
    - intros z Hz. apply in_app_or in Hz. destruct Hz as [Hz|[<-|[]]]; [|apply fltb_irrefl].
      destruct (fltb (cost z) (cost y)) eqn:Q; [|auto]. pose proof (fltb_trans _ _ _ Q L) as Z. rewrite (Hm z Hz) in Z. discriminate Z.
    - apply in_or_app; left; auto.
    - intros z Hz. apply in_app_or in Hz. destruct Hz as [Hz|[<-|[]]]; auto. }
  apply (G r [x] x); [left; auto|]. intros z [<-|[]]. apply fltb_irrefl.
Qed.

Section P.
Variable E : env.
Notation st := (state E).
Notation n := (e_numSlice E).

Lemma construct_slice_sol i (s s' : st) : construct_slice E i s = Ok s' -> p_sol s' = p_sol s /\ p_headings s' = p_headings s.
Proof.
  unfold construct_slice. intros H. ob H h Hh. ob H b Hb. destruct b as [[fsb sb] all]. ob H ts Hts. ob H gv Hgv. ob H g Hg.
  injection H as <-. auto.
Qed.
Section C.
Variable connect : st -> outcome st.
Hypothesis connect_grew : forall s s', connect s = Ok s' ->
  exists g, s' = with_graph E s g /\ grew (justified E s) (p_graph s) g /\ gvert g = gvert (p_graph s).
Lemma build_sol (s s' : st) : build_roadmap E connect s = Ok s' -> p_sol s' = p_sol s /\
  p_headings s' = p_headings s ++ map (heading E) (seq 0 n).
Proof.
  unfold build_roadmap. intros H. ob H t Ht.
  apply (ofold_inv _ (fun x : st => p_sol x = p_sol s /\ p_headings x = p_headings s ++ map (heading E) (seq 0 n))) in Ht; [|split; reflexivity|].
  - apply connect_grew in H. destruct H as (g & -> & _). exact Ht.
  - intros i u u' _ [Hu Hv] Q. ob Q v Hq. injection Q as <-. apply construct_slice_sol in Hq. destruct Hq as [Q1 Q2].
    cbn [record_slice p_sol p_headings]. split; congruence.
Qed.
Lemma plan_headings rounds (s s' : st) r : all_inv E s -> plan E connect rounds s = Ok (s', r) ->
  p_headings s' = p_headings s ++ map (heading E) (seq 0 n).
Proof.
  intros (I & Hh & m & L) H. apply (plan_once E connect connect_grew m) in H; auto.
  destruct H as (s1 & Hb & Hs & _). apply build_sol in Hb. apply do_search_inv in Hs. destruct Hs as (? & ? & ? & _ & _ & _ & ->).
  cbn [with_sol p_headings]. tauto.
Qed.

(** The search part of a first planning call. *)
Lemma plan_search rounds (s s' : st) r : all_inv E s -> s_path (p_sol s) = [] -> s_solved (p_sol s) = false ->
  plan E connect rounds s = Ok (s', r) -> astar_sound (p_graph s') (e_astar E) ->
  exists ss ts, nearest_neighbors E s' (e_start E) (e_numNeighbor E) (e_radius E) = Ok ss /\
    nearest_neighbors E s' (e_goal E) (e_numNeighbor E) (e_radius E) = Ok ts /\
    ((r = None /\ (forall a b, In a ss -> In b ts -> e_astar E (p_graph s') a b = None)) \/
     (exists path a b, r = Some (path, path) /\ In a ss /\ In b ts /\ path_ids (p_graph s') a b (s_path (p_sol s')) /\
        solution_path (p_graph s') (e_start E) (e_goal E) (s_path (p_sol s')) = Ok path /\
        id_cost (gweight (p_graph s')) (fofZ 0) (rev (s_path (p_sol s'))) = Ok (s_cost (p_sol s')))).
Proof.
  intros (I & Hh & m & L) Hp0 Hs0 H Snd. pose proof (plan_result E _ _ _ _ _ H) as Res.
  apply (plan_once E connect connect_grew m) in H; auto. destruct H as (s1 & Hb & Hs & _).
  apply build_sol in Hb. destruct Hb as [Hb _]. apply do_search_inv in Hs. destruct Hs as (ss & ts & rr & N1 & N2 & Sr & ->).
  cbn [with_sol p_sol p_graph p_headings] in *.
  exists ss, ts. split; [exact N1|]. split; [exact N2|].
  pose proof (nearest_neighbors_spec E _ _ _ _ _ N1) as (a1 & _ & _ & _ & B1).
  pose proof (nearest_neighbors_spec E _ _ _ _ _ N2) as (a2 & _ & _ & _ & B2).
  apply search_spec in Sr; auto; [| |congruence].
  - destruct Sr as [[-> Hn]|(a & b & Ha & Hb' & Q & P & C)].
    + left. split; [|auto]. destruct Res as [[_ ->]|[Q _]]; [auto|]. congruence.
    + right. destruct Res as [[Q' _]|(_ & path & -> & Sp)]; [congruence|]. exists path, a, b. auto 10.
  - intros x [Hx|Hx]; [apply B1|apply B2]; auto.
Qed.
End C.

(** One slice: no neighbours are ever found. *)
Lemma nan_abs_sub a h : fisnan h = true -> fltb (fabs (fsub a h)) (e_radius E) = true -> False.
Proof.
  intros N L. apply fltb_num in L. destruct L as [L _].
  destruct h; try discriminate N. destruct a; discriminate L.
Qed.
Lemma one_slice_none connect rounds robot fsr nx ny nA nO (s s' : st) r :
  (forall s s', connect s = Ok s' -> exists g, s' = with_graph E s g /\ grew (justified E s) (p_graph s) g /\ gvert g = gvert (p_graph s)) ->
  n = 1 -> construct E robot fsr nx ny nA nO = Ok s -> plan E connect rounds s = Ok (s', r) -> r = None.
Proof.
  intros Cg N1 H0 H. pose proof (plan_result E _ _ _ _ _ H) as Res.
  destruct (construct_inv2 E _ _ _ _ _ _ _ H0) as (I & Hh & L & _).
  assert (S0 : s_solved (p_sol s) = false) by (unfold construct in H0; ob H0 l0 L0; ob H0 l1 L1; injection H0 as <-; reflexivity).
  apply (plan_once E connect Cg 0) in H; auto. destruct H as (s1 & Hb & Hs & _).
  apply (build_sol connect Cg) in Hb. destruct Hb as [Hb Hb'].
  apply do_search_inv in Hs. destruct Hs as (ss & ts & rr & Ns & _ & Sr & ->).
  assert (ss = []) as ->.
  { destruct ss as [|x ss]; [auto|]. exfalso.
    pose proof (nearest_neighbors_spec E _ _ _ _ _ Ns) as (a & _ & _ & _ & B).
    destruct (B x (or_introl eq_refl)) as (_ & _ & h & Hin & Lt & _).
    rewrite Hb', Hh, N1 in Hin. destruct Hin as [<-|[]]. eapply nan_abs_sub; [|exact Lt]. apply heading_one; auto. }
  unfold search in Sr. destruct (Nat.ltb _ _); [discriminate Sr|]. cbn [list_prod try_pairs] in Sr. injection Sr as <-.
  destruct Res as [[_ ->]|[Q _]]; [auto|]. cbn [with_sol p_sol] in Q. congruence.
Qed.
End P.
