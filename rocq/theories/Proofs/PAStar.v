(** The A* search of Model/MAStar.v: soundness of the predecessor map. *)
From Coq Require Import List Bool Arith Lia Reals Lra.
From Verif.Model Require Import MAStar.
Import ListNotations.
Local Open Scope R_scope.

Definition nw (c : color) : bool := match c with White => false | _ => true end.
Lemma nw_White c : nw c = false <-> c = White. Proof. destruct c; split; intros H; auto; discriminate H. Qed.
Lemma set_eq {A} (f : nat -> A) k a : set f k a k = a. Proof. unfold set. rewrite Nat.eqb_refl. reflexivity. Qed.
Lemma set_neq {A} (f : nat -> A) k a x : x <> k -> set f k a x = f x.
Proof. unfold set. intros H. destruct (Nat.eqb_spec x k); [contradiction|reflexivity]. Qed.

(** Following [p] from [x] visits exactly [l] until [s] is met for the first time. *)
Inductive fchain (p : nat -> nat) (s : nat) : nat -> list nat -> Prop :=
| fc_end : fchain p s s [s]
| fc_step x l : x <> s -> fchain p s (p x) l -> fchain p s x (x :: l).

Lemma fchain_fun p s x l : fchain p s x l -> forall l', fchain p s x l' -> l' = l.
Proof.
  induction 1 as [|x l Hx H IH]; intros l' H'; inversion H'; subst; auto; try contradiction. f_equal. auto.
Qed.
Lemma fchain_sub p s x l : fchain p s x l -> forall y, In y l -> exists l', fchain p s y l' /\ (length l' <= length l)%nat /\
  (y <> x -> (length l' < length l)%nat).
Proof.
  induction 1 as [|x l Hx H IH]; intros y Hy.
  - destruct Hy as [<-|[]]. exists [s]. split; [constructor|]. split; [auto|]. congruence.
  - destruct Hy as [<-|Hy]; [exists (x :: l); split; [constructor; auto|split; [auto|congruence]]|].
    destruct (IH y Hy) as (l' & C & L & _). exists l'. split; [auto|]. cbn [length]. split; intros; lia.
Qed.
Lemma fchain_nodup p s x l : fchain p s x l -> NoDup l.
Proof.
  induction 1 as [|x l Hx H IH]; constructor; auto; [constructor|].
  intros Hin. destruct (fchain_sub _ _ _ _ H x Hin) as (l' & C & L & _).
  assert (l' = x :: l). { eapply fchain_fun; [|exact C]. constructor; auto. } subst l'. cbn [length] in L. lia.
Qed.
Lemma fchain_avoid p s v u x l : fchain p s x l -> ~ In v l -> fchain (set p v u) s x l.
Proof.
  induction 1 as [|x l Hx H IH]; intros Nin; constructor; auto.
  rewrite set_neq; [apply IH; intros Q; apply Nin; right; auto|]. intros ->. apply Nin; left; auto.
Qed.
Lemma fchain_update p s v u lu : v <> s -> fchain p s u lu -> ~ In v lu ->
  forall x l, fchain p s x l -> exists l', fchain (set p v u) s x l'.
Proof.
  intros Hv Hu Nin.
  assert (Hu' : fchain (set p v u) s u lu) by (apply fchain_avoid; auto).
  induction 1 as [|x l Hx H IH]; [eexists; constructor|].
  destruct (Nat.eq_dec x v) as [->|Q].
  - exists (v :: lu). constructor; auto. rewrite set_eq. exact Hu'.
  - destruct IH as (l' & IH). exists (x :: l'). constructor; auto. rewrite set_neq by auto. exact IH.
Qed.
Lemma fchain_ext p p' s x l : (forall y, p y = p' y) -> fchain p s x l -> fchain p' s x l.
Proof. intros E. induction 1; constructor; auto. rewrite <- E. auto. Qed.

Section A.
Variable W : Type.
Variable wlt : W -> W -> bool.
Variable wplus : W -> W -> W.
Variables winf wzero : W.
Variable out : nat -> list (nat * W).
Variable h : nat -> W.
Variable top : (nat -> W) -> list nat -> nat.
Variables n src t : nat.
Notation ast := (ast W).

(** ---- reachability, independent of the numbers ---- *)
Hypothesis top_in : forall c q, q <> [] -> In (top c q) q.

Definition nonwhite (st : ast) (v : nat) : Prop := nw (a_col st v) = true.
Inductive linked : nat -> nat -> Prop :=
| lk_refl a : linked a a
| lk_step a b c w : In (b, w) (out a) -> linked b c -> linked a c.

Lemma relax_col u v w (st : ast) : a_col (fst (relax_cost W wlt wplus h u v w st)) = a_col st /\
  a_queue (fst (relax_cost W wlt wplus h u v w st)) = a_queue st.
Proof.
  unfold relax_cost, relax. destruct (wlt _ _); [cbn; auto|]. destruct (wlt _ _); cbn; auto.
Qed.

Record cinv (st : ast) (u : option nat) : Prop := CInv {
  c_gray : forall v, a_col st v = Gray -> In v (a_queue st) \/ u = Some v;
  c_black : forall v x w, a_col st v = Black -> In (x, w) (out v) -> nonwhite st x;
  c_src : nonwhite st src;
  c_goal : a_col st t <> Black;
  c_queue : forall v, In v (a_queue st) -> a_col st v = Gray;
  c_cur : forall v, u = Some v -> a_col st v = Gray /\ ~ In v (a_queue st)
}.

Notation EDGE := (edge_step W wlt wplus h).
Lemma edge_col u (st : ast) v w :
  (forall x, x <> v -> a_col (EDGE u st (v, w)) x = a_col st x) /\
  (a_col (EDGE u st (v, w)) v = Gray \/ a_col (EDGE u st (v, w)) v = Black /\ a_col st v = Black) /\
  ((a_queue (EDGE u st (v, w)) = a_queue st /\ a_col (EDGE u st (v, w)) v = a_col st v) \/
   (a_queue (EDGE u st (v, w)) = a_queue st ++ [v] /\ a_col (EDGE u st (v, w)) v = Gray /\ a_col st v <> Gray)).
Proof.
  unfold edge_step. destruct (relax_col u v w st) as [C Q]. destruct (relax_cost W wlt wplus h u v w st) as [s1 b] eqn:R. cbn [fst] in C, Q.
  destruct (a_col st v) eqn:K; cbn [push a_col a_queue fst].
  - rewrite !set_eq, C, Q. split; [intros; rewrite set_neq; auto|]. split; auto. right. split; [auto|]. split; [auto|discriminate].
  - rewrite C, Q. split; auto.
  - destruct b; cbn [push a_col a_queue].
    + rewrite !set_eq, C, Q. split; [intros; rewrite set_neq; auto|]. split; auto. right. split; [auto|]. split; [auto|discriminate].
    + rewrite C, Q. split; auto.
Qed.

Lemma edge_cinv u (st : ast) v w : cinv st (Some u) -> cinv (EDGE u st (v, w)) (Some u) /\ nonwhite (EDGE u st (v, w)) v.
Proof.
  intros [G B S T Q C]. destruct (edge_col u st v w) as (A1 & A2 & A3). set (st' := EDGE u st (v, w)) in *.
  assert (Mono : forall x, nonwhite st x -> nonwhite st' x).
  { intros x Hx. unfold nonwhite in *. destruct (Nat.eq_dec x v) as [->|Ne]; [|rewrite A1; auto].
    destruct A2 as [->|[-> _]]; reflexivity. }
  destruct (C u eq_refl) as [Cu Nu].
  split; [|unfold nonwhite; destruct A2 as [->|[-> _]]; reflexivity].
  constructor.
  - intros x Hx. destruct (Nat.eq_dec x v) as [->|Ne].
    + destruct A3 as [[-> K]|[-> _]]; [apply G; congruence|left; apply in_or_app; right; left; auto].
    + rewrite A1 in Hx by auto. destruct (G x Hx) as [H|H]; [left|auto].
      destruct A3 as [[-> _]|[-> _]]; [auto|apply in_or_app; auto].
  - intros x y w' Hx Hin. apply Mono. apply (B x y w'); auto. destruct (Nat.eq_dec x v) as [->|Ne]; [|rewrite A1 in Hx; auto].
    destruct A2 as [A2|[_ A2]]; [congruence|auto].
  - auto.
  - destruct (Nat.eq_dec t v) as [->|Ne]; [|rewrite A1; auto]. destruct A2 as [->|[_ A2]]; [discriminate|congruence].
  - intros x Hx. destruct A3 as [[E K]|[E [K K']]]; rewrite E in Hx.
    + destruct (Nat.eq_dec x v) as [->|Ne]; [rewrite K; auto|rewrite A1; auto].
    + apply in_app_or in Hx. destruct (Nat.eq_dec x v) as [->|Ne]; [auto|]. destruct Hx as [Hx|[Hx|[]]]; [|congruence]. rewrite A1; auto.
  - intros x Ex. injection Ex as <-. destruct (Nat.eq_dec u v) as [->|Ne].
    + destruct A3 as [[-> K]|[_ [_ K]]]; [split; congruence|congruence].
    + rewrite A1 by auto. split; [auto|]. destruct A3 as [[-> _]|[-> _]]; [auto|]. intros H. apply in_app_or in H. destruct H as [H|[H|[]]]; auto.
Qed.

Lemma examine_cinv u (st : ast) : cinv st None -> In u (a_queue st) -> u <> t ->
  cinv (examine W wlt wplus out h u st) None.
Proof.
  intros [G B S T Q C] Hu Ht. unfold examine.
  assert (I0 : cinv (pop W u st) (Some u)).
  { constructor; cbn [pop a_col a_queue]; auto.
    - intros v Hv. destruct (Nat.eq_dec v u) as [->|Ne]; [auto|]. left. destruct (G v Hv) as [H|H]; [|discriminate H].
      apply in_in_remove; auto.
    - intros v Hv. apply in_remove in Hv. apply Q; tauto.
    - intros v Hv. injection Hv as <-. split; [apply Q; auto|apply remove_In]. }
  assert (Main : forall l st0, cinv st0 (Some u) -> let st1 := fold_left (EDGE u) l st0 in
     cinv st1 (Some u) /\ (forall x w, In (x, w) l -> nonwhite st1 x) /\ (forall x, nonwhite st0 x -> nonwhite st1 x)).
  { induction l as [|[v w] l IH]; intros st0 I; cbn [fold_left]; [split; [auto|split; [intros x w []|auto]]|].
    destruct (edge_cinv u st0 v w I) as [I1 N1]. destruct (IH _ I1) as (I2 & N2 & M2). split; [exact I2|]. split.
    - intros x w' [Eq|Hin]; [injection Eq as -> ->; auto|eauto].
    - intros x Hx. apply M2. unfold nonwhite in *. destruct (edge_col u st0 v w) as (A1 & A2 & _).
      destruct (Nat.eq_dec x v) as [->|Ne]; [destruct A2 as [->|[-> _]]; reflexivity|rewrite A1; auto]. }
  destruct (Main (out u) _ I0) as ([G' B' S' T' Q' C'] & N & _). cbn zeta in *. set (st1 := fold_left (EDGE u) (out u) (pop W u st)) in *.
  assert (Mono : forall x, nonwhite st1 x -> nonwhite (blacken W u st1) x).
  { intros x Hx. unfold nonwhite, blacken in *. cbn [a_col]. destruct (Nat.eq_dec x u) as [->|Ne]; [rewrite set_eq; auto|rewrite set_neq; auto]. }
  destruct (C' u eq_refl) as [Cu Nu].
  constructor; cbn [blacken a_col a_queue].
  - intros v Hv. destruct (Nat.eq_dec v u) as [->|Ne]; [rewrite set_eq in Hv; discriminate Hv|]. rewrite set_neq in Hv by auto.
    destruct (G' v Hv) as [H|H]; [auto|injection H as ->; contradiction].
  - intros v x w Hv Hin. apply Mono. destruct (Nat.eq_dec v u) as [->|Ne]; [eauto|]. rewrite set_neq in Hv by auto. eauto.
  - apply Mono. exact S'.
  - rewrite set_neq by auto. exact T'.
  - intros v Hv. destruct (Nat.eq_dec v u) as [->|Ne]; [contradiction|]. rewrite set_neq by auto. auto.
  - intros v Hv. discriminate Hv.
Qed.

Notation INIT := (astar_init W winf wzero h src).
Notation LOOP := (astar_loop W wlt wplus out h top).
Lemma init_cinv : cinv INIT None.
Proof.
  constructor; cbn [astar_init a_col a_queue].
  - intros v Hv. destruct (Nat.eq_dec v src) as [->|Ne]; [left; left; auto|]. rewrite set_neq in Hv by auto. discriminate Hv.
  - intros v x w Hv. destruct (Nat.eq_dec v src) as [->|Ne]; [rewrite set_eq in Hv|rewrite set_neq in Hv by auto]; discriminate Hv.
  - unfold nonwhite. cbn [astar_init a_col]. rewrite set_eq. reflexivity.
  - destruct (Nat.eq_dec t src) as [->|Ne]; [rewrite set_eq|rewrite set_neq by auto]; discriminate.
  - intros v [<-|[]]. apply set_eq.
  - intros v Hv; discriminate Hv.
Qed.

Lemma loop_none fuel : forall st, cinv st None -> LOOP fuel t st = Some None -> ~ linked src t.
Proof.
  assert (Base : forall st, cinv st None -> a_queue st = [] -> ~ linked src t).
  { intros st [G B S T Q C] E L.
    assert (R : forall a b, linked a b -> nonwhite st a -> nonwhite st b).
    { induction 1 as [|a b c w Hin _ IH]; auto. intros Ha. apply IH. apply (B a b w); auto. unfold nonwhite in Ha.
      destruct (a_col st a) eqn:K; [discriminate Ha| |auto]. destruct (G a K) as [H|H]; [rewrite E in H; destruct H|discriminate H]. }
    specialize (R _ _ L S). unfold nonwhite in R. destruct (a_col st t) eqn:K; [discriminate R| |congruence].
    destruct (G t K) as [H|H]; [rewrite E in H; destruct H|discriminate H]. }
  induction fuel as [|fuel IH]; intros st I H; cbn [astar_loop] in H.
  - destruct (a_queue st) eqn:E; [eapply Base; eauto|]. destruct (Nat.eqb _ t); discriminate H.
  - destruct (a_queue st) as [|q0 qs] eqn:E; [eapply Base; eauto|].
    rewrite <- E in *. destruct (Nat.eqb_spec (top (a_cost st) (a_queue st)) t) as [K|K]; [discriminate H|].
    eapply IH; [|exact H]. apply examine_cinv; auto. apply top_in. rewrite E. discriminate.
Qed.

(** ---- the numbers ---- *)
Variable val : W -> R.
Variable good : nat -> W -> Prop.     (* reached with at most that many edges *)
Variable wt : W -> Prop.              (* admissible weights *)
Hypothesis good0 : good 0 wzero.
Hypothesis val0 : val wzero = 0.
Hypothesis good_S : forall k x, good k x -> good (S k) x.
Hypothesis good_plus : forall k x w, (k < n)%nat -> good k x -> wt w -> good (S k) (wplus x w).
Hypothesis good_lt : forall k x y, (k <= n)%nat -> good k x -> good k y -> (wlt x y = true <-> val x < val y).
Hypothesis good_inf : forall k x, (k <= n)%nat -> good k x -> wlt x winf = true.
Hypothesis good_infl : forall k x w, (k < n)%nat -> good k x -> wt w -> val x <= val (wplus x w).
Hypothesis good_mono : forall k x y w, (k < n)%nat -> good k x -> good k y -> wt w -> val x <= val y -> val (wplus x w) <= val (wplus y w).
Hypothesis good_down : forall k k' x y, good k y -> good k' x -> val x <= val y -> good k x.
Hypothesis good_pos : forall k x, good k x -> 0 <= val x.
Hypothesis out_wt : forall u v w, In (v, w) (out u) -> wt w /\ (v < n)%nat.
Hypothesis out_sym : forall u v w, In (v, w) (out u) -> In (u, w) (out v).
Hypothesis src_lt : (src < n)%nat.

Lemma good_le k k' x : (k <= k')%nat -> good k x -> good k' x.
Proof. induction 1; auto. Qed.

Definition cnt (c : nat -> color) : nat := length (filter (fun v => nw (c v)) (seq 0 n)).
Record ainv (d : nat -> W) (p : nat -> nat) (c : nat -> color) : Prop := AInv {
  v_src : nw (c src) = true /\ d src = wzero;
  v_good : forall v, nw (c v) = true -> (v < n)%nat /\ good (cnt c - 1) (d v);
  v_white : forall v, nw (c v) = false -> d v = winf;
  v_pred : forall v, nw (c v) = true -> v <> src -> exists w, nw (c (p v)) = true /\ In (v, w) (out (p v)) /\
     val (wplus (d (p v)) w) <= val (d v);
  v_chain : forall v, nw (c v) = true -> exists l, fchain p src v l
}.

Lemma cnt_ext c c' : (forall v, nw (c v) = nw (c' v)) -> cnt c = cnt c'.
Proof. intros E. unfold cnt. f_equal. apply filter_ext. auto. Qed.
Lemma cnt_le c : (cnt c <= n)%nat.
Proof. unfold cnt. rewrite <- (seq_length n 0) at 2. generalize (seq 0 n) as l. induction l as [|a l IH]; cbn; [lia|]. destruct (nw _); cbn; lia. Qed.
Lemma filter_add (c : nat -> color) v : nw (c v) = false -> forall a m, (a <= v < a + m)%nat ->
  length (filter (fun x => nw (set c v Gray x)) (seq a m)) = S (length (filter (fun x => nw (c x)) (seq a m))).
Proof.
  intros N a m. revert a. induction m as [|m IH]; intros a H; [lia|]. cbn [seq filter].
  destruct (Nat.eq_dec a v) as [->|Ne].
  - rewrite set_eq, N. cbn [nw length]. f_equal. f_equal. apply filter_ext_in. intros x Hx. apply in_seq in Hx.
    rewrite set_neq; [auto|lia].
  - rewrite set_neq by auto. destruct (nw (c a)); cbn [length]; rewrite IH by lia; reflexivity.
Qed.
Lemma cnt_add c v : (v < n)%nat -> nw (c v) = false -> cnt (set c v Gray) = S (cnt c).
Proof. intros H N. unfold cnt. apply filter_add; auto. lia. Qed.
Lemma cnt_pos c v : (v < n)%nat -> nw (c v) = true -> (1 <= cnt c)%nat.
Proof.
  intros H N. unfold cnt. assert (In v (filter (fun v => nw (c v)) (seq 0 n))).
  { apply filter_In. split; [apply in_seq; lia|auto]. }
  destruct (filter _ _); [contradiction|cbn; lia].
Qed.
Lemma ainv_ext d p c c' : (forall v, nw (c v) = nw (c' v)) -> ainv d p c -> ainv d p c'.
Proof.
  intros E [S G Wh P C]. constructor.
  - rewrite <- E. auto.
  - intros v Hv. rewrite <- E in Hv. rewrite <- (cnt_ext c c' E). auto.
  - intros v Hv. rewrite <- E in Hv. auto.
  - intros v Hv Ne. rewrite <- E in Hv. destruct (P v Hv Ne) as (w & A & B). exists w. rewrite <- E. auto.
  - intros v Hv. rewrite <- E in Hv. auto.
Qed.

Lemma chain_mono d p c x l : ainv d p c -> fchain p src x l -> nw (c x) = true -> forall y, In y l -> val (d y) <= val (d x).
Proof.
  intros I. induction 1 as [|x l Hx H IH]; intros Nx y Hy.
  - destruct Hy as [<-|[]]. lra.
  - destruct Hy as [<-|Hy]; [lra|]. destruct (v_pred _ _ _ I x Nx Hx) as (w & Np & Hin & Hle).
    specialize (IH Np y Hy). destruct (v_good _ _ _ I _ Np) as [_ Gp]. destruct (out_wt _ _ _ Hin) as [Ww _].
    assert (val (d (p x)) <= val (wplus (d (p x)) w)).
    { apply good_infl with (k := (cnt c - 1)%nat); auto. pose proof (cnt_le c). lia. }
    lra.
Qed.

(** One successful relaxation. *)
Lemma relax_ainv d p c u v w : ainv d p c -> nw (c u) = true -> In (v, w) (out u) -> (nw (c v) = true \/ c v = White) ->
  wlt (wplus (d u) w) (d v) = true ->
  ainv (set d v (wplus (d u) w)) (set p v u) (if nw (c v) then c else set c v Gray) /\ v <> src /\
  (nw (c v) = true -> val (wplus (d u) w) < val (d v)).
Proof.
  intros I Nu Hin Hcol Hlt. pose proof I as [[S0 S1] G Wh P C].
  destruct (G u Nu) as [Lu Gu]. destruct (out_wt _ _ _ Hin) as [Ww Lv]. pose proof (cnt_pos c u Lu Nu) as Cp. pose proof (cnt_le c) as Cn.
  assert (Gc : good (cnt c) (wplus (d u) w)).
  { replace (cnt c) with (S (cnt c - 1)) by lia. apply good_plus; auto. lia. }
  assert (Infl : val (d u) <= val (wplus (d u) w)).
  { apply good_infl with (k := (cnt c - 1)%nat); auto. lia. }
  destruct (C u Nu) as (lu & Clu).
  assert (Lt : nw (c v) = true -> val (wplus (d u) w) < val (d v)).
  { intros Nv. destruct (G v Nv) as [_ Gv]. apply (good_lt (cnt c)) in Hlt; auto.
    apply good_le with (cnt c - 1)%nat; [lia|auto]. }
  assert (Vs : v <> src).
  { intros ->. specialize (Lt S0). rewrite S1, val0 in Lt. pose proof (good_pos _ _ Gc). lra. }
  assert (Nin : ~ In v lu).
  { intros Hv. destruct (nw (c v)) eqn:Nv.
    - pose proof (chain_mono d p c u lu I Clu Nu v Hv). specialize (Lt eq_refl). lra.
    - clear - Clu Hv Nv Nu I Vs. induction Clu as [|x l Hx H IH].
      + destruct Hv as [<-|[]]. congruence.
      + destruct Hv as [<-|Hv]; [congruence|]. apply IH; auto. destruct (v_pred _ _ _ I x Nu Hx) as (w & Np & _). auto. }
  split; [|auto]. set (c' := if nw (c v) then c else set c v Gray).
  assert (Nc : forall x, nw (c' x) = (nw (c x) || Nat.eqb x v)%bool).
  { intros x. unfold c'. destruct (nw (c v)) eqn:Nv.
    - destruct (Nat.eqb_spec x v) as [->|Ne]; [rewrite Nv; auto|rewrite orb_false_r; auto].
    - destruct (Nat.eqb_spec x v) as [->|Ne]; [rewrite set_eq, Nv; auto|rewrite set_neq, orb_false_r by auto; auto]. }
  assert (Cc : (cnt c <= cnt c')%nat /\ (nw (c v) = false -> cnt c' = S (cnt c))).
  { unfold c'. destruct (nw (c v)) eqn:Nv; [split; [auto|discriminate]|]. rewrite cnt_add by auto. split; [lia|auto]. }
  pose proof (cnt_le c') as Cn'.
  assert (Gx : forall x, nw (c x) = true -> x <> v -> good (cnt c' - 1) (set d v (wplus (d u) w) x)).
  { intros x Nx Ne. rewrite set_neq by auto. destruct (G x Nx). apply good_le with (cnt c - 1)%nat; [lia|auto]. }
  assert (Uv : u <> v).
  { intros ->. specialize (Lt Nu). lra. }
  (* the new value of v, as good as needed *)
  assert (Gv' : good (cnt c' - 1) (wplus (d u) w)).
  { destruct (nw (c v)) eqn:Nv.
    - destruct (G v Nv) as [_ Gv]. specialize (Lt eq_refl). apply good_down with (cnt c) (d v); [|auto|lra].
      apply good_le with (cnt c - 1)%nat; [lia|auto].
    - destruct Cc as [_ Cc]. rewrite (Cc eq_refl). replace (S (cnt c) - 1)%nat with (cnt c) by lia. auto. }
  (* values never increase *)
  assert (Dec : forall x, nw (c x) = true -> val (set d v (wplus (d u) w) x) <= val (d x)).
  { intros x Nx. destruct (Nat.eq_dec x v) as [->|Ne]; [rewrite set_eq; specialize (Lt Nx); lra|rewrite set_neq by auto; lra]. }
  constructor.
  - rewrite Nc, S0. split; [auto|]. rewrite set_neq by auto. auto.
  - intros x Nx. rewrite Nc in Nx. destruct (Nat.eq_dec x v) as [->|Ne]; [rewrite set_eq; auto|].
    destruct (Nat.eqb_spec x v) as [Q|_]; [contradiction|]. rewrite orb_false_r in Nx. split; [apply G; auto|auto].
  - intros x Nx. rewrite Nc in Nx. apply orb_false_iff in Nx. destruct Nx as [Nx Ne]. apply Nat.eqb_neq in Ne.
    rewrite set_neq by auto. auto.
  - intros x Nx Ne. destruct (Nat.eq_dec x v) as [->|Nv].
    + exists w. rewrite !set_eq. rewrite Nc, Nu. split; [auto|]. split; [auto|]. rewrite set_neq by auto. lra.
    + rewrite Nc in Nx. destruct (Nat.eqb_spec x v) as [Q|_]; [contradiction|]. rewrite orb_false_r in Nx.
      destruct (P x Nx Ne) as (w' & A & B & D). exists w'. rewrite (set_neq p) by auto. rewrite Nc, A. split; [auto|]. split; [auto|].
      rewrite (set_neq d v _ x) by auto. destruct (out_wt _ _ _ B) as [Ww' _].
      apply Rle_trans with (val (wplus (d (p x)) w')); [|auto].
      assert (Gp : good (cnt c' - 1) (set d v (wplus (d u) w) (p x))).
      { destruct (Nat.eq_dec (p x) v) as [->|Q]; [rewrite set_eq; auto|auto]. }
      assert (Gp0 : good (cnt c' - 1) (d (p x))).
      { destruct (G _ A). apply good_le with (cnt c - 1)%nat; [lia|auto]. }
      apply good_mono with (cnt c' - 1)%nat; auto. lia.
  - intros x Nx. rewrite Nc in Nx. destruct (Nat.eq_dec x v) as [->|Ne].
    + exists (v :: lu). constructor; [auto|]. rewrite set_eq. apply fchain_avoid; auto.
    + destruct (Nat.eqb_spec x v) as [Q|_]; [contradiction|]. rewrite orb_false_r in Nx. destruct (C x Nx) as (l & Cl).
      eapply fchain_update; eauto.
Qed.

Definition AInvS (st : ast) : Prop := ainv (a_dist st) (a_pred st) (a_col st).

(** What one out-edge does: nothing, or one strict improvement. *)
Definition improved (st st' : ast) : Prop :=
  exists x c, a_dist st' = set (a_dist st) x c /\ (x < n)%nat /\ wlt c (a_dist st x) = true /\
    ((nw (a_col st x) = true /\ exists k, (k <= n)%nat /\ good k c /\ good k (a_dist st x)) \/
     (a_dist st x = winf /\ exists k, (k <= n)%nat /\ good k c)).
Lemma edge_ainv u (st : ast) v w : AInvS st -> nonwhite st u -> In (v, w) (out u) ->
  AInvS (EDGE u st (v, w)) /\ (improved st (EDGE u st (v, w)) \/ EDGE u st (v, w) = st).
Proof.
  intros I Nu Hin. unfold AInvS in *. pose proof I as [_ G Wh _ _]. destruct (G u Nu) as [Lu Gu].
  destruct (out_wt _ _ _ Hin) as [Ww Lv]. pose proof (cnt_pos _ u Lu Nu) as Cp. pose proof (cnt_le (a_col st)) as Cn.
  assert (Gc : forall x w', nw (a_col st x) = true -> wt w' -> good (cnt (a_col st)) (wplus (a_dist st x) w')).
  { intros x w' Nx Ww'. destruct (G x Nx) as [_ Gx]. replace (cnt (a_col st)) with (S (cnt (a_col st) - 1)) by lia. apply good_plus; auto. lia. }
  assert (Gd : forall x, nw (a_col st x) = true -> good (cnt (a_col st)) (a_dist st x)).
  { intros x Nx. destruct (G x Nx) as [_ Gx]. apply good_le with (cnt (a_col st) - 1)%nat; [lia|auto]. }
  unfold edge_step. destruct (nw (a_col st v)) eqn:Nv.
  - (* already reached *)
    assert (NV : nonwhite st v) by exact Nv.
    assert (Imp : forall x y w', nw (a_col st x) = true -> nw (a_col st y) = true -> wt w' -> (y < n)%nat ->
       wlt (wplus (a_dist st x) w') (a_dist st y) = true -> forall st', a_dist st' = set (a_dist st) y (wplus (a_dist st x) w') -> improved st st').
    { intros x y w' Nx Ny Ww' Ly Hl st' Ed. exists y, (wplus (a_dist st x) w'). split; [auto|]. split; [auto|]. split; [auto|].
      left. split; [auto|]. exists (cnt (a_col st)). auto. }
    assert (Ext : forall x, nw (a_col st x) = nw (set (a_col st) v Gray x)).
    { intros x. destruct (Nat.eq_dec x v) as [->|Ne]; [rewrite set_eq; auto|rewrite set_neq; auto]. }
    unfold relax_cost, relax.
    destruct (wlt (wplus (a_dist st u) w) (a_dist st v)) eqn:L1.
    + destruct (relax_ainv _ _ _ u v w I Nu Hin (or_introl Nv) L1) as (I' & _ & _). rewrite Nv in I'.
      destruct (a_col st v) eqn:K; [discriminate Nv| |]; cbn [push a_dist a_pred a_col a_queue fst].
      * split; [exact I'|left; apply (Imp u v w Nu NV Ww Lv L1); reflexivity].
      * split; [apply ainv_ext with (a_col st); [auto|exact I']|left; apply (Imp u v w Nu NV Ww Lv L1); reflexivity].
    + destruct (wlt (wplus (a_dist st v) w) (a_dist st u)) eqn:L2.
      * destruct (relax_ainv _ _ _ v u w I Nv (out_sym _ _ _ Hin) (or_introl Nu) L2) as (I' & _ & _). unfold nonwhite in Nu. rewrite Nu in I'.
        destruct (a_col st v) eqn:K; [discriminate Nv| |]; cbn [push a_dist a_pred a_col a_queue fst].
        -- split; [exact I'|left; apply (Imp v u w NV Nu Ww Lu L2); reflexivity].
        -- split; [apply ainv_ext with (a_col st); [auto|exact I']|left; apply (Imp v u w NV Nu Ww Lu L2); reflexivity].
      * destruct (a_col st v) eqn:K; [discriminate Nv| |]; cbn [fst]; auto.
  - apply nw_White in Nv. rewrite Nv. pose proof (Wh v ltac:(apply nw_White; auto)) as Dv.
    assert (L1 : wlt (wplus (a_dist st u) w) (a_dist st v) = true).
    { rewrite Dv. apply good_inf with (cnt (a_col st)); auto. }
    destruct (relax_ainv _ _ _ u v w I Nu Hin (or_intror Nv) L1) as (I' & _ & _). rewrite Nv in I'. cbn [nw] in I'.
    unfold relax_cost, relax. rewrite L1. cbn [push a_dist a_pred a_col a_queue fst]. split; [exact I'|]. left.
    exists v, (wplus (a_dist st u) w). cbn [a_dist]. split; [auto|]. split; [auto|]. split; [auto|]. right. split; [auto|].
    exists (cnt (a_col st)). auto.
Qed.

Lemma edge_nonwhite u (st : ast) v w x : nonwhite st x -> nonwhite (EDGE u st (v, w)) x.
Proof.
  intros Hx. unfold nonwhite in *. destruct (edge_col u st v w) as (A1 & A2 & _).
  destruct (Nat.eq_dec x v) as [->|Ne]; [destruct A2 as [->|[-> _]]; reflexivity|rewrite A1; auto].
Qed.

Variable rank : W -> nat.
Hypothesis rank_lt : forall k x y, (k <= n)%nat -> good k x -> good k y -> wlt x y = true -> (rank x < rank y)%nat.
Hypothesis rank_inf : forall k x, (k <= n)%nat -> good k x -> (rank x < rank winf)%nat.
Definition total (d : nat -> W) : nat := list_sum (map (fun v => rank (d v)) (seq 0 n)).

Lemma sum_set d x c a m : (a <= x < a + m)%nat -> (rank c < rank (d x))%nat ->
  (list_sum (map (fun v => rank (set d x c v)) (seq a m)) < list_sum (map (fun v => rank (d v)) (seq a m)))%nat.
Proof.
  revert a. induction m as [|m IH]; intros a H Hr; [lia|].
  change (list_sum (map (fun v => rank (set d x c v)) (seq a (S m)))) with
    (rank (set d x c a) + list_sum (map (fun v => rank (set d x c v)) (seq (S a) m)))%nat.
  change (list_sum (map (fun v => rank (d v)) (seq a (S m)))) with
    (rank (d a) + list_sum (map (fun v => rank (d v)) (seq (S a) m)))%nat.
  destruct (Nat.eq_dec a x) as [->|Ne].
  - rewrite set_eq. replace (map (fun v => rank (set d x c v)) (seq (S x) m)) with (map (fun v => rank (d v)) (seq (S x) m)); [lia|].
    apply map_ext_in. intros y Hy. apply in_seq in Hy. rewrite set_neq by lia. auto.
  - rewrite set_neq by auto. specialize (IH (S a) ltac:(lia) Hr). lia.
Qed.
Lemma improved_total st st' : improved st st' -> (total (a_dist st') < total (a_dist st))%nat.
Proof.
  intros (x & c & E & L & Hl & H). unfold total. rewrite E. apply sum_set; [lia|].
  destruct H as [(_ & k & Hk & G1 & G2)|(Dx & k & Hk & G1)]; [eapply rank_lt; eauto|rewrite Dx; eapply rank_inf; eauto].
Qed.

Lemma examine_ainv u (st : ast) : AInvS st -> nonwhite st u ->
  AInvS (examine W wlt wplus out h u st) /\
  ((total (a_dist (examine W wlt wplus out h u st)) < total (a_dist st))%nat \/
   (total (a_dist (examine W wlt wplus out h u st)) = total (a_dist st) /\
    a_queue (examine W wlt wplus out h u st) = remove Nat.eq_dec u (a_queue st))).
Proof.
  intros I Nu. unfold examine.
  assert (Main : forall l (st0 : ast), (forall x, In x l -> In x (out u)) -> AInvS st0 -> nonwhite st0 u ->
    AInvS (fold_left (EDGE u) l st0) /\ nonwhite (fold_left (EDGE u) l st0) u /\
    ((total (a_dist (fold_left (EDGE u) l st0)) < total (a_dist st0))%nat \/ fold_left (EDGE u) l st0 = st0)).
  { induction l as [|[v w] l IH]; intros st0 Hl I0 N0; cbn [fold_left]; [auto|].
    destruct (edge_ainv u st0 v w I0 N0 (Hl _ (or_introl eq_refl))) as [I1 D1].
    pose proof (edge_nonwhite u st0 v w u N0) as N1.
    destruct (IH (EDGE u st0 (v, w)) (fun x H => Hl x (or_intror H)) I1 N1) as (I2 & N2 & D2). split; [auto|]. split; [auto|].
    destruct D1 as [D1|D1].
    - apply improved_total in D1. left. destruct D2 as [D2| ->]; [lia|auto].
    - rewrite D1 in *. auto. }
  destruct (Main (out u) (pop W u st) (fun x H => H)) as (I1 & N1 & D1); [exact I|exact Nu|].
  set (st1 := fold_left (EDGE u) (out u) (pop W u st)) in *. split.
  - unfold AInvS, blacken in *. cbn [a_dist a_pred a_col]. apply ainv_ext with (a_col st1); [|exact I1].
    intros x. destruct (Nat.eq_dec x u) as [->|Ne]; [rewrite set_eq; auto|rewrite set_neq; auto].
  - cbn [blacken a_dist a_queue]. destruct D1 as [D1|D1]; [left; exact D1|right]. rewrite D1. auto.
Qed.

Lemma init_ainv : AInvS INIT.
Proof.
  assert (N : forall v, nw (set (fun _ : nat => White) src Gray v) = true -> v = src).
  { intros v H. destruct (Nat.eq_dec v src) as [|Ne]; auto. rewrite set_neq in H by auto. discriminate H. }
  constructor; cbn [astar_init a_dist a_pred a_col].
  - rewrite !set_eq. auto.
  - intros v H. apply N in H. subst v. split; [auto|]. rewrite set_eq. apply good_le with 0%nat; [lia|auto].
  - intros v H. destruct (Nat.eq_dec v src) as [->|Ne]; [rewrite set_eq in H; discriminate H|]. rewrite set_neq by auto. auto.
  - intros v H Ne. apply N in H. congruence.
  - intros v H. apply N in H. subst v. exists [src]. constructor.
Qed.

Lemma remove_len u (l : list nat) : In u l -> (length (remove Nat.eq_dec u l) < length l)%nat.
Proof.
  induction l as [|a l IH]; intros H; [destruct H|]. cbn [remove length]. destruct (Nat.eq_dec u a) as [->|Ne].
  - clear. induction l as [|b l IH]; cbn [remove length]; [lia|]. destruct (Nat.eq_dec a b); cbn [length] in *; lia.
  - destruct H as [H|H]; [congruence|]. cbn [length]. specialize (IH H). lia.
Qed.

Lemma loop_eq fuel (st : ast) : a_queue st <> [] -> LOOP fuel t st =
  if Nat.eqb (top (a_cost st) (a_queue st)) t then Some (Some st) else
  match fuel with 0%nat => None | S f => LOOP f t (examine W wlt wplus out h (top (a_cost st) (a_queue st)) st) end.
Proof. intros H. destruct fuel; cbn [astar_loop]; destruct (a_queue st); try congruence; reflexivity. Qed.

(** The loop ends. *)
Lemma loop_terminates : exists fuel r, LOOP fuel t INIT = Some r.
Proof.
  assert (Main : forall m q (st : ast), AInvS st -> cinv st None -> (total (a_dist st) <= m)%nat -> (length (a_queue st) <= q)%nat ->
    exists fuel r, LOOP fuel t st = Some r).
  { intros m. induction m as [m IHm] using lt_wf_ind. intros q. induction q as [q IHq] using lt_wf_ind. intros st I C Hm Hq.
    destruct (a_queue st) as [|q0 qs] eqn:E; [exists 0%nat, None; cbn [astar_loop]; rewrite E; auto|]. rewrite <- E in *.
    assert (Hin : In (top (a_cost st) (a_queue st)) (a_queue st)) by (apply top_in; rewrite E; discriminate).
    set (u := top (a_cost st) (a_queue st)) in *.
    destruct (Nat.eqb_spec u t) as [K|K].
    { exists 0%nat, (Some st). rewrite loop_eq by (rewrite E; discriminate). fold u. rewrite (proj2 (Nat.eqb_eq u t) K). auto. }
    assert (Nu : nonwhite st u) by (unfold nonwhite; rewrite (c_queue _ _ C u Hin); auto).
    pose proof (examine_cinv u st C Hin K) as C'. destruct (examine_ainv u st I Nu) as [I' D].
    assert (X : exists fuel r, LOOP fuel t (examine W wlt wplus out h u st) = Some r).
    { destruct D as [D|[D1 D2]].
      - eapply (IHm (total (a_dist (examine W wlt wplus out h u st)))); eauto. lia.
      - pose proof (remove_len u _ Hin) as Lr. rewrite <- D2 in Lr.
        eapply (IHq (length (a_queue (examine W wlt wplus out h u st)))); eauto; lia. }
    destruct X as (fuel & r & X). exists (S fuel), r. rewrite loop_eq by (rewrite E; discriminate). fold u. rewrite (proj2 (Nat.eqb_neq u t) K). exact X. }
  eapply Main; [apply init_ainv|apply init_cinv|apply le_n|apply le_n].
Qed.

(** Soundness of the result. *)
Lemma loop_some fuel : forall st r, AInvS st -> cinv st None -> LOOP fuel t st = Some (Some r) ->
  AInvS r /\ cinv r None /\ nonwhite r t.
Proof.
  induction fuel as [|fuel IH]; intros st r I C H; cbn [astar_loop] in H; destruct (a_queue st) as [|q0 qs] eqn:E; try discriminate H;
    rewrite <- E in *; assert (Hin : In (top (a_cost st) (a_queue st)) (a_queue st)) by (apply top_in; rewrite E; discriminate);
    assert (Nu : nonwhite st (top (a_cost st) (a_queue st))) by (unfold nonwhite; rewrite (c_queue _ _ C _ Hin); auto);
    destruct (Nat.eqb_spec (top (a_cost st) (a_queue st)) t) as [K|K].
  - injection H as <-. rewrite K in Nu. auto.
  - discriminate H.
  - injection H as <-. rewrite K in Nu. auto.
  - eapply IH; [| |exact H]; [apply examine_ainv; auto|apply examine_cinv; auto].
Qed.

Lemma chain_bound (st : ast) x l : AInvS st -> nonwhite st x -> fchain (a_pred st) src x l ->
  (length l <= n)%nat /\ (forall y, In y l -> nonwhite st y /\ (y < n)%nat).
Proof.
  intros I Nx H.
  assert (A : forall y, In y l -> nonwhite st y /\ (y < n)%nat).
  { induction H as [|x l Hx H IH]; intros y Hy.
    - destruct Hy as [<-|[]]. split; [auto|]. apply (v_good _ _ _ I); auto.
    - destruct Hy as [<-|Hy]; [split; [auto|apply (v_good _ _ _ I); auto]|]. destruct (v_pred _ _ _ I x Nx Hx) as (w & Np & _). auto. }
  split; [|exact A]. apply fchain_nodup in H. rewrite <- (seq_length n 0). apply NoDup_incl_length; auto.
  intros y Hy. apply in_seq. destruct (A y Hy). lia.
Qed.

(** ---- how far the result is from a shortest path ---- *)
Variable E : nat -> nat -> R.            (* the exact distance of two vertices *)
Variables L M tau : R.
Hypothesis tau_pos : 0 <= tau.
Hypothesis M_big : L + 6 * tau * (INR n + 2) <= M.
Hypothesis t_lt : (t < n)%nat.
Hypothesis E_pos : forall a b, 0 <= E a b.
Hypothesis E_refl : forall a, (a < n)%nat -> E a a = 0.
Hypothesis E_tri : forall a b c, (a < n)%nat -> (b < n)%nat -> (c < n)%nat -> E a c <= E a b + E b c.
Hypothesis wt_pos : forall w, wt w -> 0 <= val w.
Hypothesis wt_h : forall v, (v < n)%nat -> wt (h v).
Hypothesis h_err : forall v, (v < n)%nat -> val (h v) <= 2 * M \/ E v t <= 2 * M -> Rabs (val (h v) - E v t) <= tau.
Hypothesis w_err : forall u v w, In (v, w) (out u) -> val w <= 2 * M \/ E u v <= 2 * M -> Rabs (val w - E u v) <= tau.
Hypothesis plus_err : forall k x w, (k < n)%nat -> good k x -> wt w -> val x + val w <= 2 * M -> Rabs (val (wplus x w) - (val x + val w)) <= tau.
Hypothesis plus_half : forall k x w, (k < n)%nat -> good k x -> wt w -> val x + val w <= 2 * val (wplus x w).
Hypothesis wt_good : forall w, wt w -> good 1 w.
Hypothesis plus_zero : forall w, wt w -> val (wplus wzero w) = val w.
Hypothesis top_least : forall c q x, In x q -> wlt (c x) (c (top c q)) = false.

(** A walk from the start: its end, number of edges and exact length. *)
Inductive rwalk : nat -> nat -> R -> Prop :=
| rw0 : rwalk src 0 0
| rwS u j l v w : rwalk u j l -> In (v, w) (out u) -> rwalk v (S j) (l + E u v).

Definition closed_by (d : nat -> W) (v : nat) (dp : W) : Prop := forall x w, In (x, w) (out v) -> val (d x) <= val (wplus dp w).
Definition near (v : nat) (dp : W) : Prop := forall j l, (j <= n)%nat -> rwalk v j l -> l + E v t <= L -> val dp <= l + 6 * tau * (INR j + 1).
Record oinv (st : ast) : Prop := OInv {
  o_cost : forall v, In v (a_queue st) -> good n (a_cost st v) /\ val (a_cost st v) = val (wplus (a_dist st v) (h v));
  o_black : forall v, a_col st v = Black -> exists dp, good (n - 1) dp /\ closed_by (a_dist st) v dp /\ near v dp
}.

Lemma good_top (st : ast) v : AInvS st -> nonwhite st v -> (v < n)%nat /\ good (n - 1) (a_dist st v).
Proof.
  intros I N. destruct (v_good _ _ _ I v N) as [A B]. split; [auto|]. pose proof (cnt_le (a_col st)). apply good_le with (cnt (a_col st) - 1)%nat; [lia|auto].
Qed.
Lemma rwalk_lt v j l : rwalk v j l -> (v < n)%nat /\ 0 <= l.
Proof.
  induction 1 as [|u j l v w H [IH1 IH2] Hin]; [split; [auto|lra]|]. split; [apply (out_wt _ _ _ Hin)|]. pose proof (E_pos u v). lra.
Qed.
Lemma abs_le a b c : Rabs (a - b) <= c -> b - c <= a <= b + c.
Proof. intros H. unfold Rabs in H. destruct (Rcase_abs (a - b)) in H; lra. Qed.

(** Where a walk leaves the examined vertices. *)
Lemma frontier (st : ast) : AInvS st -> cinv st None -> oinv st -> forall u j l, rwalk u j l -> (j <= n)%nat -> l + E u t <= L -> a_col st u <> Black ->
  exists v i l', In v (a_queue st) /\ (i <= j)%nat /\ (v < n)%nat /\ l' + E v u <= l /\ 0 <= l' /\ val (a_dist st v) <= l' + 6 * tau * INR i + 2 * tau.
Proof.
  intros I C O. induction 1 as [|u j l v w H IH Hin]; intros Hj HL Hb.
  - exists src, 0%nat, 0. pose proof (c_src _ _ C) as Ns. assert (Q : In src (a_queue st)).
    { unfold nonwhite in Ns. destruct (a_col st src) eqn:K; [discriminate Ns| |congruence]. destruct (c_gray _ _ C src K) as [X|Q]; [auto|discriminate Q]. }
    rewrite (proj2 (v_src _ _ _ I)), val0, E_refl by auto. cbn [INR]. repeat split; auto; lra.
  - destruct (rwalk_lt _ _ _ H) as [Lu L0]. destruct (out_wt _ _ _ Hin) as [Ww Lv]. pose proof (E_pos u v) as P1. pose proof (E_pos v t) as P3.
    assert (HL' : l + E u t <= L) by (pose proof (E_tri u v t Lu Lv t_lt); lra).
    assert (Rest : a_col st u <> Black -> exists x i l', In x (a_queue st) /\ (i <= S j)%nat /\ (x < n)%nat /\ l' + E x v <= l + E u v /\ 0 <= l' /\ val (a_dist st x) <= l' + 6 * tau * INR i + 2 * tau).
    { intros Nb. destruct (IH ltac:(lia) HL' Nb) as (x & i & l' & Y1 & Y2 & Y3 & Y4 & Y5 & Y6). exists x, i, l'. pose proof (E_tri x u v Y3 Lu Lv). repeat split; auto; lra. }
    destruct (a_col st u) eqn:Ku; [apply Rest; discriminate|apply Rest; discriminate|]. clear Rest.
    destruct (o_black _ O u Ku) as (dp & Gd & Cl & Ne). exists v, (S j), (l + E u v).
    assert (Q : In v (a_queue st)).
    { pose proof (c_black _ _ C u v w Ku Hin) as Nv. unfold nonwhite in Nv. destruct (a_col st v) eqn:K; [discriminate Nv| |congruence]. destruct (c_gray _ _ C v K) as [X|Q]; [auto|discriminate Q]. }
    split; [auto|]. split; [auto|]. split; [auto|]. rewrite (E_refl v) by auto. split; [lra|]. split; [lra|].
    assert (Hjn : INR (S j) <= INR n) by (apply le_INR; auto). pose proof (pos_INR (S j)) as J0. rewrite S_INR in *. pose proof (pos_INR n) as N0.
    pose proof (Ne j l ltac:(lia) H HL') as D1. pose proof (Cl v w Hin) as D2.
    assert (T1 : 6 * tau * (INR j + 1) <= 6 * tau * INR n) by (apply Rmult_le_compat_l; lra).
    assert (We : Rabs (val w - E u v) <= tau) by (apply w_err; [auto|]; right; assert (0 <= 6 * tau * (INR n + 2)) by (apply Rmult_le_pos; lra); lra).
    apply abs_le in We.
    assert (Pe : Rabs (val (wplus dp w) - (val dp + val w)) <= tau) by (apply plus_err with (n - 1)%nat; auto; [lia|]; pose proof (good_pos _ _ Gd); lra).
    apply abs_le in Pe. lra.
Qed.

(** The vertex taken from the queue is near the end of every walk that matters. *)
Lemma pop_near (st : ast) : AInvS st -> cinv st None -> oinv st -> a_queue st <> [] ->
  near (top (a_cost st) (a_queue st)) (a_dist st (top (a_cost st) (a_queue st))).
Proof.
  intros I C O Hq. pose proof (top_in (a_cost st) (a_queue st) Hq) as Hu. pose proof (top_least (a_cost st) (a_queue st)) as Hl.
  set (u := top (a_cost st) (a_queue st)) in *. intros j l Hj H HL.
  pose proof (c_queue _ _ C u Hu) as Ku.
  destruct (frontier st I C O u j l H Hj HL) as (v & i & l' & Qv & Hi & Lv & Hle & L0 & Dv); [congruence|].
  assert (Nq : forall x, In x (a_queue st) -> nonwhite st x) by (intros x Hx; unfold nonwhite; rewrite (c_queue _ _ C x Hx); auto).
  destruct (good_top st u I (Nq _ Hu)) as [Lu Gu]. destruct (good_top st v I (Nq _ Qv)) as [_ Gv].
  specialize (Hl v Qv). destruct (o_cost _ O u Hu) as [Gcu Vcu]. destruct (o_cost _ O v Qv) as [Gcv Vcv].
  assert (Cle : val (wplus (a_dist st u) (h u)) <= val (wplus (a_dist st v) (h v))).
  { destruct (Rle_lt_dec (val (wplus (a_dist st u) (h u))) (val (wplus (a_dist st v) (h v)))) as [X|Q]; [auto|]. exfalso.
    rewrite <- Vcu, <- Vcv in Q. apply (good_lt n) in Q; auto. congruence. }
  assert (Hjn : INR i <= INR n) by (apply le_INR; lia). assert (Hij : INR i <= INR j) by (apply le_INR; auto). pose proof (pos_INR i) as J0. pose proof (pos_INR n) as N0.
  assert (T1 : 6 * tau * INR i <= 6 * tau * INR n) by (apply Rmult_le_compat_l; lra).
  assert (T2 : 6 * tau * INR i <= 6 * tau * INR j) by (apply Rmult_le_compat_l; lra).
  pose proof (E_tri v u t Lv Lu t_lt) as Tr. pose proof (E_pos v t). pose proof (E_pos v u). pose proof (E_pos u t).
  assert (MM : L + 6 * tau * INR n + 12 * tau <= M) by lra.
  assert (T0 : 0 <= 6 * tau * INR n) by (apply Rmult_le_pos; lra).
  assert (He : Rabs (val (h v) - E v t) <= tau) by (apply h_err; [auto|right; lra]). apply abs_le in He.
  pose proof (good_pos _ _ Gv). pose proof (wt_pos _ (wt_h v Lv)). pose proof (good_pos _ _ Gu). pose proof (wt_pos _ (wt_h u Lu)).
  assert (Pv : Rabs (val (wplus (a_dist st v) (h v)) - (val (a_dist st v) + val (h v))) <= tau) by (apply plus_err with (n - 1)%nat; auto; [lia|lra]). apply abs_le in Pv.
  pose proof (plus_half (n - 1) (a_dist st u) (h u) ltac:(lia) Gu (wt_h u Lu)) as Hh.
  assert (Pu : Rabs (val (wplus (a_dist st u) (h u)) - (val (a_dist st u) + val (h u))) <= tau) by (apply plus_err with (n - 1)%nat; auto; [lia|lra]). apply abs_le in Pu.
  assert (Hu' : Rabs (val (h u) - E u t) <= tau) by (apply h_err; [auto|left; lra]). apply abs_le in Hu'.
  lra.
Qed.

(** What one out-edge does to distances and costs. *)
Lemma edge_dist u (st : ast) v w : AInvS st -> nonwhite st u -> In (v, w) (out u) ->
  (forall x, nonwhite st x -> val (a_dist (EDGE u st (v, w)) x) <= val (a_dist st x)) /\
  val (a_dist (EDGE u st (v, w)) v) <= val (wplus (a_dist st u) w).
Proof.
  intros I Nu Hin. destruct (good_top st u I Nu) as [Lu Gu]. destruct (out_wt _ _ _ Hin) as [Ww Lv].
  assert (Gc : forall x, nonwhite st x -> good n (wplus (a_dist st x) w)).
  { intros x Nx. destruct (good_top st x I Nx) as [_ Gx]. replace n with (S (n - 1)) by lia. apply good_plus; auto. lia. }
  assert (Gd : forall x, nonwhite st x -> good n (a_dist st x)).
  { intros x Nx. destruct (good_top st x I Nx) as [_ Gx]. apply good_le with (n - 1)%nat; [lia|auto]. }
  assert (Dist : a_dist (EDGE u st (v, w)) = a_dist (fst (relax W wlt wplus u v w st))).
  { unfold edge_step, relax_cost, relax. destruct (wlt _ _); [|destruct (wlt _ _)]; cbn [fst a_col]; destruct (a_col st v); reflexivity. }
  rewrite Dist. unfold relax. destruct (wlt (wplus (a_dist st u) w) (a_dist st v)) eqn:R1; cbn [fst a_dist].
  - split; [|rewrite set_eq; lra]. intros x Nx. destruct (Nat.eq_dec x v) as [->|Ne]; [|rewrite set_neq by auto; lra].
    rewrite set_eq. apply (good_lt n) in R1; auto. lra.
  - assert (Nv : nonwhite st v).
    { unfold nonwhite. destruct (nw (a_col st v)) eqn:Nv; [auto|]. rewrite (v_white _ _ _ I v Nv), (good_inf n) in R1; auto; discriminate R1. }
    assert (B1 : val (a_dist st v) <= val (wplus (a_dist st u) w)).
    { destruct (Rle_lt_dec (val (a_dist st v)) (val (wplus (a_dist st u) w))) as [X|Q]; [auto|]. exfalso. apply (good_lt n) in Q; auto. congruence. }
    destruct (wlt (wplus (a_dist st v) w) (a_dist st u)) eqn:R2; cbn [fst a_dist].
    + assert (B2 : val (wplus (a_dist st v) w) < val (a_dist st u)) by (apply (good_lt n); auto).
      split; [intros x Nx; destruct (Nat.eq_dec x u) as [->|Ne]; [rewrite set_eq; lra|rewrite set_neq by auto; lra]|].
      destruct (Nat.eq_dec v u) as [->|Ne]; [rewrite set_eq; lra|rewrite set_neq by auto; auto].
    + split; [intros; lra|auto].
Qed.
Lemma edge_cost u (st : ast) v w : AInvS st -> cinv st (Some u) -> In (v, w) (out u) ->
  forall x, In x (a_queue (EDGE u st (v, w))) -> a_cost (EDGE u st (v, w)) x = wplus (a_dist (EDGE u st (v, w)) x) (h x) \/
    (In x (a_queue st) /\ a_cost (EDGE u st (v, w)) x = a_cost st x /\ a_dist (EDGE u st (v, w)) x = a_dist st x).
Proof.
  intros I C Hin x Hx. destruct (edge_cinv u st v w C) as [C' _]. destruct (c_cur _ _ C' u eq_refl) as [_ Nu'].
  assert (Ne : x <> u) by (intros ->; contradiction). clear Nu' C'.
  destruct (c_cur _ _ C u eq_refl) as [Ku _].
  assert (Nu : nonwhite st u) by (unfold nonwhite; rewrite Ku; auto).
  destruct (good_top st u I Nu) as [Lu Gu]. destruct (out_wt _ _ _ Hin) as [Ww Lv].
  assert (Wh : a_col st v = White -> wlt (wplus (a_dist st u) w) (a_dist st v) = true).
  { intros K. rewrite (v_white _ _ _ I v) by (rewrite K; auto). apply good_inf with n; [auto|]. replace n with (S (n - 1)) by lia. apply good_plus; auto. lia. }
  revert Hx. unfold edge_step, relax_cost, relax.
  destruct (wlt (wplus (a_dist st u) w) (a_dist st v)) eqn:R1; [|destruct (wlt (wplus (a_dist st v) w) (a_dist st u)) eqn:R2]; cbn [fst a_dist a_cost a_queue];
    destruct (a_col st v) eqn:K; cbn [push a_dist a_cost a_queue]; intros Hx; try (specialize (Wh eq_refl); discriminate Wh);
    try (apply in_app_or in Hx; destruct Hx as [Hx|[Hx|[]]]; [|subst x]);
    try (match goal with |- context [set (a_cost _) v _ v] => left; rewrite (set_eq (a_cost st)); reflexivity end);
    try (destruct (Nat.eq_dec x v) as [->|Nv]; [left; rewrite (set_eq (a_cost st)); reflexivity|]);
    right; rewrite ?(set_neq (a_cost st)), ?(set_neq (a_dist st)) by auto; auto.
Qed.

Lemma examine_oinv u (st : ast) : AInvS st -> cinv st None -> oinv st -> In u (a_queue st) -> u <> t -> near u (a_dist st u) ->
  oinv (examine W wlt wplus out h u st).
Proof.
  intros I C O Hu Ht Nr. unfold examine. set (dp := a_dist st u) in *.
  assert (Nu : nonwhite st u) by (unfold nonwhite; rewrite (c_queue _ _ C u Hu); auto).
  destruct (good_top st u I Nu) as [Lu Gu]. fold dp in Gu.
  assert (C0 : cinv (pop W u st) (Some u)).
  { destruct C as [G B S T Q C]. constructor; cbn [pop a_col a_queue]; auto.
    - intros v Hv. destruct (Nat.eq_dec v u) as [->|Ne]; [auto|]. left. destruct (G v Hv) as [X|X]; [|discriminate X]. apply in_in_remove; auto.
    - intros v Hv. apply in_remove in Hv. apply Q; tauto.
    - intros v Hv. injection Hv as <-. split; [apply Q; auto|apply remove_In]. }
  assert (O0 : oinv (pop W u st)).
  { destruct O as [Oc Ob]. constructor; cbn [pop a_cost a_dist a_col a_queue]; [|auto]. intros v Hv. apply in_remove in Hv. apply Oc; tauto. }
  assert (Main : forall l (st0 : ast), (forall x, In x l -> In x (out u)) -> AInvS st0 -> cinv st0 (Some u) -> oinv st0 -> val (a_dist st0 u) <= val dp ->
    let st1 := fold_left (EDGE u) l st0 in AInvS st1 /\ cinv st1 (Some u) /\ oinv st1 /\ (forall x, nonwhite st0 x -> nonwhite st1 x /\ val (a_dist st1 x) <= val (a_dist st0 x)) /\
    (forall x w, In (x, w) l -> val (a_dist st1 x) <= val (wplus dp w))).
  { induction l as [|[v w] l IH]; intros st0 Hl I0 X0 Y0 D0; cbn [fold_left].
    - cbn zeta. split; [auto|]. split; [auto|]. split; [auto|]. split; [intros x Nx; split; [auto|lra]|intros x w []].
    - assert (Hin : In (v, w) (out u)) by (apply Hl; left; auto). destruct (c_cur _ _ X0 u eq_refl) as [Ku0 _].
      assert (N0 : nonwhite st0 u) by (unfold nonwhite; rewrite Ku0; auto).
      destruct (edge_ainv u st0 v w I0 N0 Hin) as [I1 _]. destruct (edge_cinv u st0 v w X0) as [X1 N1]. destruct (edge_dist u st0 v w I0 N0 Hin) as [Dn Dv].
      assert (Y1 : oinv (EDGE u st0 (v, w))).
      { constructor.
        { intros x Hx. destruct (edge_cost u st0 v w I0 X0 Hin x Hx) as [Q|(Q1 & Q2 & Q3)]; [|rewrite Q2, Q3; apply (o_cost _ Y0); auto].
          rewrite Q. split; [|auto]. assert (Nx : nonwhite (EDGE u st0 (v, w)) x) by (unfold nonwhite; rewrite (c_queue _ _ X1 x Hx); auto).
          destruct (good_top _ x I1 Nx) as [Lx Gx]. replace n with (S (n - 1)) by lia. apply good_plus; auto. lia. }
        intros b Kb.
        assert (Kb0 : a_col st0 b = Black).
        { destruct (edge_col u st0 v w) as (E1 & E2 & _). destruct (Nat.eq_dec b v) as [->|Ne]; [destruct E2 as [E2|[_ E2]]; congruence|rewrite E1 in Kb; auto]. }
        destruct (o_black _ Y0 b Kb0) as (dq & G & Cl & Nn). exists dq. split; [auto|]. split; [|auto]. intros x w' Hx. specialize (Cl x w' Hx).
        pose proof (Dn x (c_black _ _ X0 b x w' Kb0 Hx)). lra. }
      assert (D1 : val (a_dist (EDGE u st0 (v, w)) u) <= val dp) by (pose proof (Dn u N0); lra).
      destruct (IH _ (fun x H => Hl x (or_intror H)) I1 X1 Y1 D1) as (I2 & X2 & Y2 & Z2 & P2). cbn zeta in *.
      split; [auto|]. split; [auto|]. split; [auto|]. split.
      + intros x Nx. destruct (Z2 x (edge_nonwhite u st0 v w x Nx)) as [A B]. split; [auto|]. pose proof (Dn x Nx). lra.
      + intros x w' [Q|Q]; [injection Q as -> ->|eauto]. destruct (Z2 x N1) as [_ B].
        destruct (good_top st0 u I0 N0) as [_ G0]. destruct (out_wt _ _ _ Hin) as [Ww _].
        pose proof (good_mono (n - 1) (a_dist st0 u) dp w' ltac:(lia) G0 Gu Ww D0). lra. }
  destruct (Main (out u) (pop W u st) (fun x H => H) I C0 O0 (Rle_refl _)) as (I1 & X1 & Y1 & Z1 & P1). cbn zeta in *.
  set (st1 := fold_left (EDGE u) (out u) (pop W u st)) in *. clearbody st1.
  constructor; cbn [blacken a_cost a_dist a_col a_queue]; [apply Y1|].
  intros v Kv. destruct (Nat.eq_dec v u) as [->|Ne].
  - exists dp. split; [auto|]. split; [|auto]. intros x w Hx. exact (P1 x w Hx).
  - rewrite set_neq in Kv by auto. exact (o_black _ Y1 v Kv).
Qed.

Lemma init_oinv : oinv INIT.
Proof.
  constructor; cbn [astar_init a_cost a_dist a_col a_queue].
  - intros v [<-|[]]. rewrite !set_eq. pose proof (wt_h src src_lt) as Q. split; [apply good_le with 1%nat; [lia|auto]|symmetry; auto].
  - intros v K. destruct (Nat.eq_dec v src) as [->|Ne]; [rewrite set_eq in K|rewrite set_neq in K by auto]; discriminate K.
Qed.

Lemma loop_near fuel : forall st r, AInvS st -> cinv st None -> oinv st -> LOOP fuel t st = Some (Some r) -> near t (a_dist r t).
Proof.
  induction fuel as [|fuel IH]; intros st r I C O H; cbn [astar_loop] in H; destruct (a_queue st) as [|q0 qs] eqn:Eq; try discriminate H;
    rewrite <- Eq in *; assert (Ne : a_queue st <> []) by (rewrite Eq; discriminate);
    assert (Hin : In (top (a_cost st) (a_queue st)) (a_queue st)) by (apply top_in; auto);
    assert (Nu : nonwhite st (top (a_cost st) (a_queue st))) by (unfold nonwhite; rewrite (c_queue _ _ C _ Hin); auto);
    pose proof (pop_near st I C O Ne) as Nr;
    destruct (Nat.eqb_spec (top (a_cost st) (a_queue st)) t) as [K|K].
  - injection H as <-. rewrite K in Nr. exact Nr.
  - discriminate H.
  - injection H as <-. rewrite K in Nr. exact Nr.
  - eapply IH; [| | |exact H]; [apply examine_ainv; auto|apply examine_cinv; auto|apply examine_oinv; auto].
Qed.

(** The exact length of the chain of predecessors. *)
Fixpoint chain_len (l : list nat) : R := match l with y :: ((x :: _) as r) => E x y + chain_len r | _ => 0 end.
Lemma chain_near (st : ast) x l : AInvS st -> nonwhite st x -> fchain (a_pred st) src x l -> val (a_dist st x) <= M ->
  chain_len l <= val (a_dist st x) + 2 * tau * INR (length l - 1).
Proof.
  intros I Nx H. induction H as [|x l Hx H IH]; intros Hm.
  - cbn [chain_len length INR Nat.sub]. destruct (good_top st src I Nx) as [_ G]. pose proof (good_pos _ _ G). lra.
  - destruct (v_pred _ _ _ I x Nx Hx) as (w & Np & Hin & Hle). destruct (good_top st _ I Np) as [Lp Gp]. destruct (out_wt _ _ _ Hin) as [Ww Lx].
    pose proof (plus_half (n - 1) _ w ltac:(lia) Gp Ww) as Hh. pose proof (good_pos _ _ Gp) as P0. pose proof (wt_pos _ Ww) as P1.
    assert (Pe : Rabs (val (wplus (a_dist st (a_pred st x)) w) - (val (a_dist st (a_pred st x)) + val w)) <= tau) by (apply plus_err with (n - 1)%nat; auto; [lia|lra]).
    assert (We : Rabs (val w - E (a_pred st x) x) <= tau) by (apply w_err; [auto|left; lra]).
    pose proof (good_infl (n - 1) _ w ltac:(lia) Gp Ww) as Hi.
    specialize (IH Np ltac:(lra)). apply abs_le in Pe, We.
    assert (Len : chain_len (x :: l) = E (a_pred st x) x + chain_len l /\ (length (x :: l) - 1)%nat = S (length l - 1)).
    { inversion H; subst; cbn [chain_len length]; split; auto; try lia. }
    destruct Len as [-> ->]. rewrite S_INR. lra.
Qed.

Lemma astar_near fuel r : LOOP fuel t INIT = Some (Some r) -> forall j l0 l, (j < n)%nat -> rwalk t j l0 -> l0 <= L -> fchain (a_pred r) src t l ->
  chain_len l <= l0 + 8 * tau * INR n.
Proof.
  intros H j l0 l Hj Hw HL Hc. pose proof (loop_near fuel INIT r init_ainv init_cinv init_oinv H j l0 ltac:(lia) Hw) as Nr.
  destruct (loop_some fuel INIT r init_ainv init_cinv H) as (I & _ & N).
  rewrite (E_refl t t_lt) in Nr. specialize (Nr ltac:(lra)).
  assert (Jn : INR j + 1 <= INR n) by (rewrite <- S_INR; apply le_INR; lia).
  destruct (chain_bound r t l I N Hc) as [Bl _].
  assert (Ln : INR (length l - 1) <= INR n) by (apply le_INR; lia).
  pose proof (pos_INR j) as J0.
  assert (T1 : 6 * tau * (INR j + 1) <= 6 * tau * INR n) by (apply Rmult_le_compat_l; lra).
  assert (T2 : 2 * tau * INR (length l - 1) <= 2 * tau * INR n) by (apply Rmult_le_compat_l; lra).
  pose proof (chain_near r t l I N Hc ltac:(lra)). lra.
Qed.
End A.
