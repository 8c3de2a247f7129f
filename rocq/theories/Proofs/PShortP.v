(** C84 for the search and for the planners. *)
From Coq Require Import List Bool Arith Lia ZArith Reals Lra.
From Verif.Base Require Import Outcome Float64 FloatFacts.
From Verif.Model Require Import MScalar MDistance MInterval MFreeSpace MLine2D MLine3D MGraph MSearch MHRM2D MHRM3D MAStar.
From Verif.Spec Require Import SFreeSpace SGraph SSearch SPlanner2D SPlanner3D SShort.
From Verif.Proofs Require Import PTables PGraph PHRM2D PPlan2D PPlan2DY PPlan2DZ PSearch PNearest PAStarF PShort PHRM2DW PGraph3D PHRM3D PPlan3D PPlan3DX PPlan3DY PPlan3DZ PHRM3DW.
Import ListNotations.
Local Open Scope R_scope.
Local Opaque fval fofZ.

Lemma walk_snoc_len g l a : walk_length g (l ++ [a]) = walk_length g l + match rev l with b :: _ => apart g b a | [] => 0 end.
Proof.
  induction l as [|x l IH]; [cbn [app walk_length rev]; ring|]. destruct l as [|y l].
  - cbn [app walk_length rev]. ring.
  - rewrite <- !app_comm_cons in *. rewrite !walk_cons, IH. change (rev (x :: y :: l)) with (rev (y :: l) ++ [x]).
    destruct (rev (y :: l)) as [|z r] eqn:Q; [apply (f_equal (@length nat)) in Q; rewrite rev_length in Q; discriminate Q|]. cbn [app]. ring.
Qed.
Lemma walk_rev g l : walk_length g (rev l) = walk_length g l.
Proof.
  induction l as [|a l IH]; [auto|]. cbn [rev]. rewrite walk_snoc_len, rev_involutive, IH. destruct l as [|b l]; [cbn [walk_length]; ring|].
  rewrite walk_cons, (apart_sym g b a). ring.
Qed.

(** The search reports the predecessor chain of the first pair that A* connects. *)
Lemma search_first astar g ss ts r r' : astar_sound g astar -> (forall x, In x ss \/ In x ts -> (x < length (gvert g))%nat) ->
  s_path r = [] -> s_solved r = false -> search astar g ss ts r = Ok r' -> s_solved r' = true ->
  exists a b p, In a ss /\ In b ts /\ astar g a b = Some p /\ pred_chain g p a b (rev (s_path r')).
Proof.
  intros Hs Hb Hr Hf H. unfold search in H. destruct (Nat.ltb (length (gweight g)) (length (gedge g))); [discriminate H|].
  assert (F : forall st, In st (list_prod ss ts) -> In (fst st) ss /\ In (snd st) ts) by (intros [s t] Hin; apply in_prod_iff in Hin; auto).
  revert H F. generalize (list_prod ss ts). induction l as [|[s t] ps IH]; intros H F; cbn [try_pairs] in H.
  - injection H as <-. intros Q. congruence.
  - destruct (F (s, t) (or_introl eq_refl)) as [F1 F2]. cbn [fst snd] in F1, F2. ob H x Hx. destruct (astar g s t) as [p|] eqn:A.
    + destruct (Hs s t p) as (l & C & L); auto. rewrite (try_pair_some astar g s t p l r Hr A C L) in Hx. ob Hx c Hc. injection Hx as <-. cbn [fst snd] in H. injection H as <-.
      intros _. exists s, t, p. cbn [s_path]. rewrite rev_involutive. auto.
    + unfold try_pair in Hx. rewrite A in Hx. injection Hx as <-. cbn [fst snd] in H. apply IH; auto. intros st Hst. apply F. right. auto.
Qed.

Lemma small_graph g m : (Z.of_nat (length (gvert g)) * (Z.of_nat m + 4) <= 2 ^ 44)%Z -> INR (length (gvert g)) * (INR m + 4) <= 2 ^ 44.
Proof. intros H. apply IZR_le in H. rewrite mult_IZR, plus_IZR, <- !INR_IZR_INZ in H. rewrite pow_IZR. exact H. Qed.

Definition runs_boost (g : graph) (astar : graph -> nat -> nat -> option (list nat)) : Prop :=
  forall a b p, (a < length (gvert g))%nat -> (b < length (gvert g))%nat -> astar g a b = Some p -> exists top fuel, heap_ok fltb top /\ boost_astar top fuel g a b = Some (Some p).
Lemma is_runs g astar : astar_is_boost g astar -> runs_boost g astar.
Proof. intros B a b p Ha Hb A. destruct (B a b Ha Hb) as (top & fuel & H & Q). rewrite A in Q. eauto. Qed.
Lemma from_runs g astar : astar_from_boost astar -> runs_boost g astar.
Proof. intros B a b p Ha Hb A. exact (B g a b p A). Qed.
Lemma runs_sound g astar : well_formed g -> tame g -> runs_boost g astar -> astar_sound g astar.
Proof.
  intros W T B s t p Hs Ht A. destruct (B _ _ _ Hs Ht A) as (top & fuel & H & Q). apply boost_sound in Q; auto; [tauto|]. intros c q N. apply H; auto.
Qed.
Lemma search_near astar g m ss ts r r' : well_formed g -> tame g -> dimension g m -> (m <= 1000)%nat -> (Z.of_nat (length (gvert g)) * (Z.of_nat m + 4) <= 2 ^ 44)%Z ->
  runs_boost g astar -> (forall x, In x ss \/ In x ts -> (x < length (gvert g))%nat) ->
  s_path r = [] -> s_solved r = false -> search astar g ss ts r = Ok r' -> s_solved r' = true ->
  exists a b, In a ss /\ In b ts /\ nearly_shortest g m a b (s_path r').
Proof.
  intros W T D Hm Hn B Hb Hr Hf H S. destruct (search_first astar g ss ts r r' (runs_sound g astar W T B) Hb Hr Hf H S) as (a & b & p & Ha & Hb' & A & C).
  exists a, b. split; [auto|]. split; [auto|]. split; [rewrite <- (rev_involutive (s_path r')); eapply PSearch.chain_walk; exact C|].
  destruct (B a b p) as (top & fuel & Hh & Hf'); auto.
  destruct (near_shortest g m top a b fuel p W T D Hm (small_graph g m Hn) Hh ltac:(auto) ltac:(auto) Hf') as (l & Hc & Hl).
  assert (l = rev (s_path r')) as ->.
  { clear - C Hc. revert l Hc. induction C as [|x y k Hx Hy _ C IH]; intros l Hc; inversion Hc as [Q|x' y' k' Hx' Hy' _ Hk Q]; subst; auto; try contradiction.
    f_equal. apply IH. rewrite Hy in Hy'. injection Hy' as <-. exact Hk. }
  rewrite walk_rev in Hl. exact Hl.
Qed.

(** Planar roadmaps have dimension 3. *)
Lemma in_range n l m a : ranges n l m -> (n <= a < m)%nat -> exists k w, nth_error l k = Some w /\ (vstart w <= a < vslice w)%nat.
Proof.
  intros R. induction R as [n|n w l m Hw Hl R IH]; intros Ha; [lia|].
  destruct (Nat.lt_ge_cases a (vslice w)) as [Q|Q]; [exists 0%nat, w; split; [reflexivity|lia]|].
  destruct IH as (k & w' & Hk & Hb); [lia|]. exists (S k), w'. auto.
Qed.
Lemma planar_dim (E : env) (s : state E) : reachable E s -> dimension (p_graph s) 3.
Proof.
  intros R. pose proof (reachable_inv2 E s R) as (I & _). intros v Hv. apply In_nth_error in Hv. destruct Hv as (a & Ha).
  destruct (in_range _ _ _ a (j_ranges E s I)) as (j & w & Hj & Hb); [split; [apply Nat.le_0_l|apply nth_error_lt in Ha; exact Ha]|].
  destruct (j_slice E s I j w a Hj Hb) as (p & Hp & (r & x & y & l2 & l3 & -> & _)). pose proof (eq_trans (eq_sym Ha) Hp) as Hq. injection Hq as ->. reflexivity.
Qed.
Lemma spatial_dim (E : env3) (s : state3 E) : m_prob E = false -> reachable3 E s -> dimension (q_graph s) 7.
Proof.
  intros P R. pose proof (reachable3_inv E s R) as (I & _). intros v Hv. apply In_nth_error in Hv. destruct Hv as (a & Ha).
  destruct (in_range _ _ _ a (k_ranges _ _ _ I)) as (j & w & Hj & Hb); [split; [apply Nat.le_0_l|apply nth_error_lt in Ha; exact Ha]|].
  destruct (k_slice _ _ _ I j w a Hj Hb) as (i & p & _ & Hp & Sv). unfold slice_vertex3 in Sv. rewrite P in Sv. destruct Sv as (r & q & _ & (x & y & z & l0 & l1 & l2 & l3 & -> & _)).
  pose proof (eq_trans (eq_sym Ha) Hp) as Hq. injection Hq as ->. destruct (m_quat E _) as [[[? ?] ?] ?]. reflexivity.
Qed.

Lemma planar_near (E : env) connect robot fsr nx ny nA nO rounds (s0 s : state E) path ipath :
  (forall s s', connect s = Ok s' -> exists g, s' = with_graph E s g /\ grew (justified E s) (p_graph s) g /\ gvert g = gvert (p_graph s)) ->
  construct E robot fsr nx ny nA nO = Ok s0 -> plan E connect rounds s0 = Ok (s, Some (path, ipath)) -> well_formed (p_graph s) -> dimension (p_graph s) 3 ->
  tame (p_graph s) -> astar_is_boost (p_graph s) (e_astar E) -> (Z.of_nat (length (gvert (p_graph s))) <= 2 ^ 41)%Z ->
  exists ss ts a b, nearest_neighbors E s (e_start E) (e_numNeighbor E) (e_radius E) = Ok ss /\
    nearest_neighbors E s (e_goal E) (e_numNeighbor E) (e_radius E) = Ok ts /\
    In a ss /\ In b ts /\ nearly_shortest (p_graph s) 3 a b (s_path (p_sol s)).
Proof.
  intros Cg H0 H W D T B Hn. pose proof (plan_result E _ _ _ _ _ H) as Res.
  destruct Res as [[_ Q]|(Sv & _)]; [discriminate Q|].
  pose proof (construct_inv2 E _ _ _ _ _ _ _ H0) as (I & Hh & L & _).
  assert (P0 : s_path (p_sol s0) = [] /\ s_solved (p_sol s0) = false) by (unfold construct in H0; ob H0 l0 L0; ob H0 l1 L1; injection H0 as <-; auto). destruct P0 as [P0 S0].
  apply (plan_once E connect Cg 0) in H; auto. destruct H as (s1 & Hb & Hs & _).
  apply (build_sol E connect Cg) in Hb. destruct Hb as [Hb _]. apply do_search_inv in Hs. destruct Hs as (ss & ts & rr & N1 & N2 & Sr & Es). subst s.
  cbn [with_sol p_sol p_graph p_headings] in *.
  pose proof (nearest_neighbors_spec E _ _ _ _ _ N1) as (a1 & _ & _ & _ & B1).
  pose proof (nearest_neighbors_spec E _ _ _ _ _ N2) as (a2 & _ & _ & _ & B2).
  destruct (search_near (e_astar E) (p_graph s1) 3 ss ts (p_sol s1) rr) as (a & b & Ha & Hb' & N); auto using is_runs; [lia|lia| |rewrite Hb; exact P0|rewrite Hb; exact S0|].
  - intros x [Hx|Hx]; [apply B1|apply B2]; auto.
  - exists ss, ts, a, b. auto.
Qed.

Lemma spatial_near (E : env3) robot nS nx ny nA nO rq rounds (s0 s : state3 E) path ipath : m_prob E = false ->
  construct3 E robot nS nx ny nA nO = Ok s0 -> plan3 E rq rounds s0 = Ok (s, Some (path, ipath)) ->
  tame (q_graph s) -> astar_is_boost (q_graph s) (m_astar E) -> (Z.of_nat (length (gvert (q_graph s))) <= 2 ^ 40)%Z ->
  exists ss ts a b, nearest_neighbors3 E s (m_start E) (m_numNeighbor E) (m_radius E) = Ok ss /\
    nearest_neighbors3 E s (m_goal E) (m_numNeighbor E) (m_radius E) = Ok ts /\
    In a ss /\ In b ts /\ nearly_shortest (q_graph s) 7 a b (s_path (q_sol s)).
Proof.
  intros Pf H0 H T B Hn. pose proof (plan3_result _ _ _ _ _ _ H) as Res. destruct Res as [[_ Q]|(Sv & _)]; [discriminate Q|].
  assert (R0 : reachable3 E s0) by (eapply reach3_new; exact H0).
  assert (R : reachable3 E s) by (eapply reach3_plan; eauto).
  pose proof (spatial_dim E s Pf R) as D. pose proof (reachable3_inv E s R) as [Is _]. pose proof (k_wf _ _ _ Is) as W. clear Is.
  destruct (construct3_inv E eq _ _ _ _ _ _ _ H0) as (I & V & _).
  apply (plan3_keep E Pf) in H; auto. destruct H as (s1 & _ & Hs & _ & _ & _ & _ & _ & _ & _ & _ & Q1 & _).
  pose proof (k_fresh _ _ _ I V) as F. rewrite F in Q1.
  apply do_search3_inv in Hs. destruct Hs as (ss & ts & rr & N1 & N2 & Sr & Es). subst s. cbn [with_sol3 q_sol q_graph] in *.
  pose proof (nearest_neighbors3_spec _ _ _ _ _ _ N1) as (_ & m1 & B1). pose proof (nearest_neighbors3_spec _ _ _ _ _ _ N2) as (_ & m2 & B2).
  destruct (search_near (m_astar E) (q_graph s1) 7 ss ts (q_sol s1) rr) as (a & b & Ha & Hb' & N); auto using is_runs; [lia|lia| |rewrite Q1; reflexivity|rewrite Q1; reflexivity|].
  - intros x [Hx|Hx]; [apply B1 in Hx|apply B2 in Hx]; destruct Hx as (w & q & Wn & _); apply nth_error_lt in Wn; auto.
  - exists ss, ts, a, b. auto.
Qed.


(** ProbHRM3D. *)
Section Prob.
Variable E : env3.
Hypothesis Hp : m_prob E = true.
Lemma prob_dim (s : state3 E) : reachable3 E s -> dimension (q_graph s) (7 + m_dof E).
Proof.
  intros R. pose proof (reachable3_inv E s R) as (I & _). pose proof (k_conf _ _ _ I) as K. rewrite Hp in K. intros v Hv. apply In_nth_error in Hv. destruct Hv as (a & Ha).
  destruct (in_range _ _ _ a (k_ranges _ _ _ I)) as (j & w & Hj & Hb); [split; [apply Nat.le_0_l|apply nth_error_lt in Ha; exact Ha]|].
  destruct (k_slice _ _ _ I j w a Hj Hb) as (i & p & _ & Hpp & Sv). unfold slice_vertex3 in Sv. rewrite Hp in Sv. destruct Sv as (r & ci & ck & _ & Hk & (x & y & z & l0 & l1 & l2 & l3 & -> & _)).
  pose proof (eq_trans (eq_sym Ha) Hpp) as Hq. injection Hq as ->. clear - K Hk.
  assert (X : exists q, config_of E q ck).
  { revert Hk. generalize j as jj. clear - K. induction K as [|q c qs cs H K IH]; intros [|jj] Hk; cbn [nth_error] in Hk; try discriminate Hk; [injection Hk as <-; eauto|eauto]. }
  destruct X as (q & js & -> & Lj). destruct q as [[[? ?] ?] ?]. destruct (m_quat E _) as [[[? ?] ?] ?]. cbn [app quat_list skipn length]. rewrite Lj. reflexivity.
Qed.
Lemma prob_loop_last base ds : forall d (s s' : state3 E), inv3 E eq s -> length (q_confs s) = length (q_vidx s) ->
  base = 0%nat -> length (q_vidx s) = (base + q_numSlice s)%nat ->
  q_sol s = Sol false [] (fofZ 0) -> prob_loop E d ds s = Ok s' -> tame (q_graph s') -> astar_from_boost (m_astar E) -> s_solved (q_sol s') = true ->
  exists s4, q_sol s4 = Sol false [] (fofZ 0) /\ q_graph s4 = q_graph s' /\ do_search3 E s4 = Ok s'.
Proof.
  assert (Ext : forall ds d (s s' : state3 E), inv3 E eq s -> length (q_confs s) = length (q_vidx s) -> length (q_vidx s) = q_numSlice s ->
    prob_loop E d ds s = Ok s' -> extends (q_graph s) (q_graph s')).
  { clear ds. induction ds as [|d' ds IH]; intros d s s' I Hl Hb H; cbn [prob_loop] in H; ob H s1 H1;
      apply (prob_step_keep E Hp eq) in H1; auto; destruct H1 as (I1 & L1 & V1 & N1 & _ & _ & _ & _ & _ & _ & X).
    - assert (s' = s1) as -> by (destruct (s_solved (q_sol s1)); injection H as <-; auto). exact X.
    - destruct (s_solved (q_sol s1)); [injection H as <-; exact X|]. eapply extends_trans; [exact X|]. apply (IH d'); auto. lia. }
  induction ds as [|d' ds IH]; intros d s s' I Hl -> Hb F H T B Sv; cbn [prob_loop] in H; ob H s1 H1;
    apply (prob_step_keep E Hp eq) in H1; auto; destruct H1 as (I1 & L1 & V1 & N1 & _ & _ & _ & _ & _ & (s4 & F4 & G4 & Hs) & X).
  - assert (s' = s1) as -> by (destruct (s_solved (q_sol s1)); injection H as <-; auto). exists s4. rewrite F4, F. auto.
  - destruct (s_solved (q_sol s1)) eqn:Q; [injection H as <-; exists s4; rewrite F4, F; auto|].
    apply (IH d' s1 s'); auto; [cbn [Nat.add] in *; lia|].
    assert (X1 : extends (q_graph s1) (q_graph s')) by (apply (Ext ds d'); auto; cbn [Nat.add] in *; lia).
    assert (W1 : well_formed (q_graph s1)) by exact (k_wf _ _ _ I1).
    apply do_search3_ids in Hs; [|rewrite F4, F; reflexivity|rewrite G4; apply from_boost_sound; [exact B|exact W1|eapply tame_prefix; eauto]].
    destruct Hs as (ss & ts & _ & _ & [[Q1 _]|[Q1 _]]); [rewrite Q1, F4; exact F|congruence].
Qed.
Lemma prob_near robot nS nx ny nA nO d ds (s0 s : state3 E) path ipath :
  construct3 E robot nS nx ny nA nO = Ok s0 -> plan_prob E d ds s0 = Ok (s, Some (path, ipath)) -> (m_dof E <= 900)%nat ->
  tame (q_graph s) -> astar_from_boost (m_astar E) -> (Z.of_nat (length (gvert (q_graph s))) <= 2 ^ 34)%Z ->
  exists ss ts a b, nearest_neighbors3 E s (m_start E) (m_numNeighbor E) (m_radius E) = Ok ss /\
    nearest_neighbors3 E s (m_goal E) (m_numNeighbor E) (m_radius E) = Ok ts /\
    In a ss /\ In b ts /\ nearly_shortest (q_graph s) (7 + m_dof E) a b (s_path (q_sol s)).
Proof.
  intros H0 H Hd T B Hn. pose proof (plan_prob_result _ _ _ _ _ _ H) as Res. destruct Res as [[_ Q]|(Sv & _)]; [discriminate Q|].
  assert (R0 : reachable3 E s0) by (eapply reach3_new; exact H0).
  assert (R : reachable3 E s) by (eapply reach3_prob; eauto).
  pose proof (prob_dim s R) as D. pose proof (reachable3_inv E s R) as [Is _]. pose proof (k_wf _ _ _ Is) as W. clear Is.
  destruct (construct3_inv E eq _ _ _ _ _ _ _ H0) as (I & V & Cf & _). pose proof (k_fresh _ _ _ I V) as F.
  unfold plan_prob in H. ob H s1 H1. assert (s = s1) as -> by (destruct (s_solved (q_sol s1)); [ob H pp Hpp; ob H ip Hip|]; injection H as <- _; auto). clear H.
  apply (with_num_inv E eq _ 0) in I.
  apply (prob_loop_last 0) in H1; auto; [|change (length (q_confs s0) = length (q_vidx s0)); rewrite V, Cf; reflexivity|change (length (q_vidx s0) = 0%nat); rewrite V; reflexivity].
  destruct H1 as (s4 & F4 & G4 & Hs).
  apply do_search3_inv in Hs. destruct Hs as (ss & ts & rr & N1 & N2 & Sr & Es). subst s1. cbn [with_sol3 q_sol q_graph] in *.
  pose proof (nearest_neighbors3_spec _ _ _ _ _ _ N1) as (_ & m1 & B1). pose proof (nearest_neighbors3_spec _ _ _ _ _ _ N2) as (_ & m2 & B2).
  destruct (search_near (m_astar E) (q_graph s4) (7 + m_dof E) ss ts (q_sol s4) rr) as (a & b & Ha & Hb' & N); auto using from_runs; [lia|nia| |rewrite F4; reflexivity|rewrite F4; reflexivity|].
  - intros x [Hx|Hx]; [apply B1 in Hx|apply B2 in Hx]; destruct Hx as (w & q & Wn & _); apply nth_error_lt in Wn; auto.
  - exists ss, ts, a, b. auto.
Qed.
End Prob.

(** Seven slices, no obstacles; start heading 0, goal heading 2 at the same place. *)
Definition E9 : env := demo_env 7 [] [[]] (zpose 0 (-10) 0) (zpose 0 (-10) 2).
Lemma E9_view : view E9 (run E9 origin 2 0 []) = Ok (14%nat, 21%nat, 7%nat, true, [4%nat; 6%nat; 8%nat], Some 5%nat).
Proof. vm_compute. reflexivity. Qed.
Lemma E9_ok : ok_search E9 (obind (run E9 origin 2 0 []) (fun p => Ok (fst p))) = true.
Proof. vm_compute. reflexivity. Qed.
Definition mem (a : nat) (o : outcome (list nat)) : bool := match o with Ok l => existsb (Nat.eqb a) l | _ => false end.
Lemma E9_near : (match run E9 origin 2 0 [] with
  | Ok (s, _) => (mem 8 (nearest_neighbors E9 s (e_start E9) (e_numNeighbor E9) (e_radius E9)) && mem 8 (nearest_neighbors E9 s (e_goal E9) (e_numNeighbor E9) (e_radius E9)) &&
      match nth_error (gvert (p_graph s)) 4, nth_error (gvert (p_graph s)) 8 with
      | Some [_; _; h], Some [_; _; k] => fltb h (fofZ (-1)) && fltb (fofZ 1) k | _, _ => false end)%bool
  | _ => false end) = true.
Proof. vm_compute. reflexivity. Qed.
Lemma mem_In a o : mem a o = true -> exists l, o = Ok l /\ In a l.
Proof. destruct o as [l| |]; intros H; try discriminate H. exists l. split; [auto|]. cbn [mem] in H. apply existsb_exists in H. destruct H as (x & Hx & Q). apply Nat.eqb_eq in Q. subst. auto. Qed.

Lemma E9_run : exists s0 s path ss ts, construct E9 origin origin 1 2 1 0 = Ok s0 /\ plan E9 (connect_multi E9) [] s0 = Ok (s, Some (path, path)) /\
  tame (p_graph s) /\ astar_is_boost (p_graph s) (e_astar E9) /\
  nearest_neighbors E9 s (e_start E9) (e_numNeighbor E9) (e_radius E9) = Ok ss /\ nearest_neighbors E9 s (e_goal E9) (e_numNeighbor E9) (e_radius E9) = Ok ts /\
  In 8%nat ss /\ In 8%nat ts /\ s_path (p_sol s) = [4%nat; 6%nat; 8%nat] /\ 2 < walk_length (p_graph s) [4%nat; 6%nat; 8%nat].
Proof.
  destruct (view_inv _ _ _ _ _ _ _ _ E9_view) as (s & r & H & V & Ed & X & Sv & Pa & L).
  pose proof E9_ok as K. rewrite H in K. cbn [obind fst ok_search] in K. apply andb_prop in K. destruct K as [K1 K2].
  pose proof E9_near as N. rewrite H in N. pose proof (demo_reachable _ _ _ _ _ _ _ H) as Re.
  apply demo_construct in H. destruct H as (s0 & H0 & H). pose proof (plan_result _ _ _ _ _ _ H) as [[Q ->]|(_ & path & -> & _)]; [discriminate L|].
  apply andb_prop in N. destruct N as [N N3]. apply andb_prop in N. destruct N as [N1 N2]. apply mem_In in N1, N2. destruct N1 as (ss & N1 & I1), N2 as (ts & N2 & I2).
  exists s0, s, path, ss, ts. split; [exact H0|]. split; [exact H|]. split; [apply tame_b_ok; exact K1|]. split; [change (e_astar E9) with demo_astar; apply boost_b_ok; exact K2|].
  split; [exact N1|]. split; [exact N2|]. split; [exact I1|]. split; [exact I2|]. split; [exact Pa|].
  pose proof (planar_dim E9 s Re) as D.
  apply Rlt_le_trans with (apart (p_graph s) 4 8).
  - unfold apart. destruct (nth_error (gvert (p_graph s)) 4) as [[|x0 [|y0 [|h [|? ?]]]]|]; try discriminate N3. destruct (nth_error (gvert (p_graph s)) 8) as [[|x1 [|y1 [|k [|? ?]]]]|]; try discriminate N3.
    apply andb_prop in N3. destruct N3 as [A B]. pose proof (fltb_num _ _ A) as [A0 A1']. pose proof (fltb_num _ _ B) as [B0 B1']. apply (fltb_val _ _ A0 A1') in A. apply (fltb_val _ _ B0 B1') in B.
    assert (G : fval h < -1 /\ 1 < fval k) by (rewrite (fofZ_val (-1)) in A by lia; rewrite (fofZ_val 1) in B by lia; split; assumption). clear A B. destruct G as [A B].
    cbn [sqdist]. apply Rlt_le_trans with (sqrt ((fval h - fval k) * (fval h - fval k))).
    + revert A B. generalize (fval h) (fval k). clear. intros p q A B. replace ((p - q) * (p - q)) with ((q - p) * (q - p)) by ring. rewrite sqrt_square by lra. lra.
    + apply sqrt_le_1_alt. pose proof (Rle_0_sqr (fval x0 - fval x1)) as S1. pose proof (Rle_0_sqr (fval y0 - fval y1)) as S2. unfold Rsqr in S1, S2. revert S1 S2. generalize ((fval x0 - fval x1) * (fval x0 - fval x1)) ((fval y0 - fval y1) * (fval y0 - fval y1)) ((fval h - fval k) * (fval h - fval k)). clear. intros; lra.
  - rewrite !walk_cons. cbn [walk_length]. pose proof (apart_tri (p_graph s) 3 4 6 8 D) as Tr. assert (Lt : forall i, (i < 14)%nat -> (i < length (gvert (p_graph s)))%nat) by (intros i Hi; rewrite V; exact Hi).
    specialize (Tr (Lt 4%nat ltac:(lia)) (Lt 6%nat ltac:(lia)) (Lt 8%nat ltac:(lia))). lra.
Qed.
