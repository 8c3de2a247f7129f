(** The OMPL interface: the statements of C77-C79 and C83. *)
From Coq Require Import List Bool Arith Lia Reals.
From Verif.Base Require Import Outcome Float64.
From Verif.Model Require Import MOMPL.
From Verif.Spec Require Import SOMPL.
From Verif.Proofs Require Import POMPL.
Import ListNotations.
Local Opaque fval fofZ.
Section X.
Variable wy : f64 -> f64.
Variable wq : list f64 -> list f64.
Variable k : kind.
Variables lo hi : list f64.
Variable o0 : ompl.
Hypothesis NEW : new_ompl k lo hi = Ok o0.

Lemma ready_ss cs o : run wy wq k o0 cs = Some o -> is_ready k cs -> exists ss, o_ss o = Some ss.
Proof. intros R D. apply (inv_run wy wq k lo hi o0 cs NEW) in R. destruct R as [R _]. apply R in D. destruct (o_ss o) as [ss|]; [exists ss; reflexivity|contradiction]. Qed.
Lemma not_ready_ss cs o : run wy wq k o0 cs = Some o -> ~ is_ready k cs -> o_ss o = None.
Proof. intros R D. apply (inv_run wy wq k lo hi o0 cs NEW) in R. destruct R as [R _]. destruct (o_ss o) as [ss|]; [exfalso; apply D, R; discriminate|reflexivity]. Qed.
Lemma ready_dec cs o : run wy wq k o0 cs = Some o -> is_ready k cs \/ ~ is_ready k cs.
Proof. intros R. apply (inv_run wy wq k lo hi o0 cs NEW) in R. destruct R as [R _]. destruct (o_ss o) as [ss|]; [left; apply R; discriminate|right; intros D; apply R in D; contradiction]. Qed.

Lemma plan_result cs o s g t r o' b : run wy wq k o0 cs = Some o -> plan wy wq k o s g t r = (o', Ok b) ->
  (b = true <-> is_ready k cs) /\ (o_solved o' = true <-> b = true /\ reported t r).
Proof.
  intros R P. destruct (ready_dec cs o R) as [D|D].
  - destruct (ready_ss cs o R D) as [ss Es]. destruct (long_dec k s g) as [L|L].
    2:{ destruct (plan_short wy wq k o s g t r ltac:(rewrite Es; discriminate) L) as (o1 & E & _). rewrite E in P. discriminate P. }
    assert (K : k = Planar \/ k <> Planar) by (destruct k; [left; reflexivity|right; discriminate..]). destruct K as [K|K].
    + subst k. destruct (plan_planar wy wq o ss s g t r Es L) as [(_ & _ & o1 & E & _)|[(_ & _ & o1 & E)|(_ & _ & o1 & E & _ & G & _)]]; rewrite E in P; try discriminate P.
      injection P as <- <-. split; [tauto|]. rewrite G. tauto.
    + destruct (plan_spatial wy wq k o ss s g t r K Es L) as (o1 & E & _ & G & _). rewrite E in P. injection P as <- <-. split; [tauto|]. rewrite G. tauto.
  - destruct (plan_none wy wq k o s g t r (not_ready_ss cs o R D)) as (o1 & E & N & _). rewrite E in P. injection P as <- <-.
    split; [split; [discriminate|intros H; contradiction]|]. rewrite N. split; [discriminate|intros [H _]; discriminate H].
Qed.
Lemma short_vectors cs o s g t r : run wy wq k o0 cs = Some o -> is_ready k cs ->
  ((length s < entries k)%nat \/ (length g < entries k)%nat <-> exists o', plan wy wq k o s g t r = (o', Throw OutOfRange)) /\
  (forall o', plan wy wq k o s g t r = (o', Throw OutOfRange) -> o_solved o' = false /\ o_path o' = o_path o /\ o_verts o' = o_verts o).
Proof.
  intros R D. destruct (ready_ss cs o R D) as [ss Es]. destruct (long_dec k s g) as [L|L].
  - assert (NO : forall o', plan wy wq k o s g t r <> (o', Throw OutOfRange)).
    { intros o' E. assert (K : k = Planar \/ k <> Planar) by (destruct k; [left; reflexivity|right; discriminate..]). destruct K as [K|K].
      - subst k. destruct (plan_planar wy wq o ss s g t r Es L) as [(_ & _ & o1 & E1 & _)|[(_ & _ & o1 & E1)|(_ & _ & o1 & E1 & _)]]; rewrite E1 in E; discriminate E.
      - destruct (plan_spatial wy wq k o ss s g t r K Es L) as (o1 & E1 & _). rewrite E1 in E. discriminate E. }
    split; [|intros o' E; destruct (NO o' E)]. split; [destruct L; lia|intros [o' E]; destruct (NO o' E)].
  - destruct (plan_short wy wq k o s g t r ltac:(rewrite Es; discriminate) L) as (o1 & E & A & _ & B & _ & _ & C & _). split.
    + split; [intros _; exists o1; exact E|]. intros _. unfold long_enough in L. lia.
    + intros o' E'. rewrite E in E'. injection E' as <-. auto.
Qed.
(** Some reply makes plan return true without a solution. *)
Lemma true_unsolved cs o s g t : run wy wq k o0 cs = Some o -> is_ready k cs -> long_enough k s g ->
  exists r o', plan wy wq k o s g t r = (o', Ok true) /\ o_solved o' = false.
Proof.
  intros R D L. destruct (ready_ss cs o R D) as [ss Es]. set (r := Reply (Some false) fone 0 None [] (repeat [] (o_valid o)) [] 0 0 0 fone).
  assert (NR : ~ reported t r) by (intros [A _]; discriminate A). exists r.
  assert (K : k = Planar \/ k <> Planar) by (destruct k; [left; reflexivity|right; discriminate..]). destruct K as [K|K].
  - subst k. destruct (plan_planar wy wq o ss s g t r Es L) as [(A & _)|[(_ & A & _)|(_ & _ & o1 & E & _ & G & _)]]; [contradiction|cbn [r r_verts] in A; rewrite repeat_length in A; lia|].
    exists o1. split; [exact E|]. destruct (o_solved o1); [exfalso; apply NR, G; reflexivity|reflexivity].
  - destruct (plan_spatial wy wq k o ss s g t r K Es L) as (o1 & E & _ & G & _). exists o1. split; [exact E|]. destruct (o_solved o1); [exfalso; apply NR, G; reflexivity|reflexivity].
Qed.
Lemma paths_accumulate cs o : run wy wq k o0 cs = Some o ->
  exists l, contributions k cs l /\ (forall l', contributions k cs l' -> l' = l) /\ o_path o = flat_map (path_of k) l /\ o_interp o = flat_map (interp_of k) l.
Proof.
  intros R. apply (inv_run wy wq k lo hi o0 cs NEW) in R. destruct R as (_ & (l & C & P & Q) & _). exists l. split; [exact C|]. split; [exact (contributions_fun wy wq k cs l C)|]. auto.
Qed.
Lemma path_length cs o s g t r o' b : run wy wq k o0 cs = Some o -> plan wy wq k o s g t r = (o', Ok b) ->
  o_len o' = (if o_solved o' then (match k with Planar => length (states_of r) | _ => r_found r end) else o_len o).
Proof.
  intros R P. destruct (ready_dec cs o R) as [D|D].
  - destruct (ready_ss cs o R D) as [ss Es]. destruct (long_dec k s g) as [L|L].
    2:{ destruct (plan_short wy wq k o s g t r ltac:(rewrite Es; discriminate) L) as (o1 & E & _). rewrite E in P. discriminate P. }
    assert (K : k = Planar \/ k <> Planar) by (destruct k; [left; reflexivity|right; discriminate..]). destruct K as [K|K].
    + subst k. destruct (plan_planar wy wq o ss s g t r Es L) as [(_ & _ & o1 & E & _)|[(_ & _ & o1 & E)|(_ & _ & o1 & E & _ & _ & _ & _ & _ & _ & _ & _ & _ & G & _)]]; rewrite E in P; try discriminate P.
      injection P as <- <-. exact G.
    + destruct (plan_spatial wy wq k o ss s g t r K Es L) as (o1 & E & _ & _ & _ & _ & _ & _ & _ & _ & _ & G). rewrite E in P. injection P as <- <-. rewrite G. destruct k; [contradiction|reflexivity..].
  - assert (N := not_ready_ss cs o R D). unfold plan in P. cbn [o_ss] in P. rewrite N in P. injection P as <- <-. reflexivity.
Qed.
Lemma two_calls s g t r r' o : good_bounds k lo hi -> long_enough k s g -> reported t r -> reported t r' -> r_simple r <> None -> r_simple r' <> None -> path_of k r <> [] ->
  run wy wq k o0 [Setup lo hi; Plan s g t r; Plan s g t r'] = Some o -> o_path o <> path_of k r'.
Proof.
  intros G L A1 A2 S1 S2 N R. destruct (paths_accumulate _ _ R) as (l & C & U & P & _).
  assert (C2 : contributions k [Setup lo hi; Plan s g t r; Plan s g t r'] [r; r']).
  { change [Setup lo hi; Plan s g t r; Plan s g t r'] with (([Setup lo hi] ++ [Plan s g t r]) ++ [Plan s g t r']). change [r; r'] with (([] ++ [r]) ++ [r']).
    apply co_solved; auto; [apply co_solved; auto|].
    - change [Setup lo hi] with ([] ++ [Setup lo hi]). constructor. constructor.
    - right. exists lo, hi. split; [left; reflexivity|exact G].
    - right. exists lo, hi. split; [left; reflexivity|exact G]. }
  rewrite <- (U _ C2) in P. cbn [flat_map] in P. rewrite app_nil_r in P. rewrite P. intros E.
  apply N. apply (f_equal (@length config)) in E. rewrite app_length in E. destruct (path_of k r); [reflexivity|cbn in E; lia].
Qed.
Lemma planar_readout cs o n s g t r : k = Planar -> run wy wq k o0 cs = Some o -> motions k cs n -> is_ready k cs -> long_enough k s g -> (reported t r -> r_simple r <> None) ->
  (length (r_verts r) < n -> exists o', plan wy wq k o s g t r = (o', UB)) /\
  (n <= length (r_verts r) -> exists o', plan wy wq k o s g t r = (o', Ok true) /\ o_verts o' = firstn n (r_verts r) /\ o_numv o' = length (r_verts r) /\ o_nume o' = r_nume r /\
     forall i j, In (i, j) (o_edges o') <-> i < n /\ data_edge r i j).
Proof.
  intros K R M D L RP. destruct (ready_ss cs o R D) as [ss Es]. assert (V : o_valid o = n).
  { apply (inv_run wy wq k lo hi o0 cs NEW) in R. destruct R as (_ & _ & M' & _). exact (motions_fun wy wq k cs n M _ M'). }
  clear NEW R M D. subst k. rewrite <- V.
  destruct (plan_planar wy wq o ss s g t r Es L) as [(A & B & _)|[(_ & A & o1 & E)|(_ & A & o1 & E & _ & _ & _ & _ & _ & G1 & G2 & G3 & G4 & _)]]; [destruct (RP A B)|..].
  - split; [intros _; exists o1; exact E|lia].
  - split; [lia|]. intros _. exists o1. auto.
Qed.
Lemma spatial_readout cs o s g t r : k <> Planar -> run wy wq k o0 cs = Some o -> is_ready k cs -> long_enough k s g ->
  exists o', plan wy wq k o s g t r = (o', Ok true) /\ o_verts o' = r_verts r /\ o_numv o' = length (r_verts r) /\ o_nume o' = r_nume r /\
     forall i j, In (i, j) (o_edges o') <-> i < length (r_verts r) /\ data_edge r i j.
Proof.
  intros K R D L. destruct (ready_ss cs o R D) as [ss Es].
  destruct (plan_spatial wy wq k o ss s g t r K Es L) as (o1 & E & _ & _ & _ & _ & _ & G1 & G2 & G3 & G4 & _). exists o1. auto.
Qed.
Lemma ends_pulled cs o s g t r o' b : run wy wq k o0 cs = Some o -> plan wy wq k o s g t r = (o', Ok b) -> b = true ->
  exists lows highs ss a e, bounds_of k lo hi cs lows highs /\ o_ss o' = Some ss /\ ss_ends ss = Some (a, e) /\
    (forall i, i < dims k -> exists l h x y ax ey, nth_error lows i = Some l /\ nth_error highs i = Some h /\ nth_error s i = Some x /\ nth_error g i = Some y /\
       nth_error a i = Some ax /\ nth_error e i = Some ey /\ pulled l h x ax /\ pulled l h y ey).
Proof.
  intros R P ->. pose proof (plan_result cs o s g t r o' true R P) as [[D _] _]. specialize (D eq_refl). destruct (ready_ss cs o R D) as [ss Es].
  destruct (long_dec k s g) as [L|L].
  2:{ destruct (plan_short wy wq k o s g t r ltac:(rewrite Es; discriminate) L) as (o1 & E & _). rewrite E in P. discriminate P. }
  assert (EN : ends_are wy wq k ss o' s g).
  { assert (K : k = Planar \/ k <> Planar) by (destruct k; [left; reflexivity|right; discriminate..]). destruct K as [K|K].
    - clear NEW R D. subst k. destruct (plan_planar wy wq o ss s g t r Es L) as [(_ & _ & o1 & E & _)|[(_ & _ & o1 & E)|(_ & _ & o1 & E & EN & _)]]; rewrite E in P; try discriminate P. injection P as <-. exact EN.
    - destruct (plan_spatial wy wq k o ss s g t r K Es L) as (o1 & E & EN & _). rewrite E in P. injection P as <-. exact EN. }
  destruct EN as (a & e & Ea & Ee & Eo). pose proof (inv_run wy wq k lo hi o0 cs NEW o R) as (_ & _ & _ & CH). destruct (CH ss Es) as [_ BO].
  destruct (bounds_good k lo hi cs _ _ (new_good k lo hi o0 NEW) BO D) as (L1 & L2 & GB).
  exists (ss_low ss), (ss_high ss), (SS (ss_low ss) (ss_high ss) (ss_checked ss) (Some (a, e))), a, e. split; [exact BO|]. split; [exact Eo|]. split; [reflexivity|].
  intros i Hi. destruct (GB i Hi) as (l & h & El & Eh & Hb). destruct L as [Ls Lg]. assert (EK : dims k <= entries k) by (destruct k; cbn; lia).
  destruct (nth_error s i) as [x|] eqn:Ex; [|apply nth_error_None in Ex; lia]. destruct (nth_error g i) as [y|] eqn:Ey; [|apply nth_error_None in Ey; lia].
  exists l, h, x, y, (clamp l h x), (clamp l h y). repeat (split; [first [assumption|reflexivity|exact (state_coords wy wq k ss s a L1 L2 Ea i l h x Hi El Eh Ex)|exact (state_coords wy wq k ss g e L1 L2 Ee i l h y Hi El Eh Ey)|apply clamp_pulled; exact Hb]|]).
  apply clamp_pulled. exact Hb.
Qed.
Lemma unchecked cs o : run wy wq k o0 cs = Some o -> articulated k -> ~ set_up k cs ->
  (exists ss, o_ss o = Some ss /\ ss_checked ss = false) /\ forall s g t r, long_enough k s g -> exists o', plan wy wq k o s g t r = (o', Ok true).
Proof.
  intros R A N. assert (D : is_ready k cs) by (left; exact A). destruct (ready_ss cs o R D) as [ss Es]. split.
  - exists ss. split; [exact Es|]. pose proof (inv_run wy wq k lo hi o0 cs NEW o R) as (_ & _ & _ & CH). destruct (CH ss Es) as [[C _] _]. destruct (ss_checked ss); [exfalso; apply N, C; reflexivity|reflexivity].
  - intros s g t r L. assert (K : k <> Planar) by (intros E; clear - A E; subst k; destruct A). destruct (plan_spatial wy wq k o ss s g t r K Es L) as (o1 & E & _). exists o1. exact E.
Qed.
Lemma checked cs o : run wy wq k o0 cs = Some o -> set_up k cs -> exists ss, o_ss o = Some ss /\ ss_checked ss = true.
Proof.
  intros R S. destruct (ready_ss cs o R (or_intror S)) as [ss Es]. exists ss. split; [exact Es|]. pose proof (inv_run wy wq k lo hi o0 cs NEW o R) as (_ & _ & _ & CH). destruct (CH ss Es) as [C _]. apply C. exact S.
Qed.
End X.
