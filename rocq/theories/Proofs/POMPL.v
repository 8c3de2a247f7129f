(** The OMPL interface. *)
From Coq Require Import List Bool Arith Lia Reals Lra.
From Verif.Base Require Import Outcome Float64.
From Verif.Model Require Import MOMPL.
From Verif.Spec Require Import SOMPL.
Import ListNotations.
Local Opaque fval fofZ.

Section P.
Variable wy : f64 -> f64.
Variable wq : list f64 -> list f64.
Local Notation planN := (plan wy wq).
Local Notation runN := (run wy wq).

(** ---- reading vectors ---- *)
Lemma omap_at_ok {A} (l : list A) n d : n + d <= length l -> exists r, omap (fun i => at_ l (i + d)) (seq 0 n) = Ok r /\ length r = n /\
  forall i, i < n -> nth_error r i = nth_error l (i + d).
Proof.
  assert (G : forall n b, n + b + d <= length l -> exists r, omap (fun i => at_ l (i + d)) (seq b n) = Ok r /\ length r = n /\ forall i, i < n -> nth_error r i = nth_error l (b + i + d)).
  { clear n. induction n as [|n IH]; intros b H; [exists []; repeat split; intros; lia|].
    destruct (IH (S b) ltac:(lia)) as (r & E & L & N). cbn [seq omap]. unfold at_ at 1. destruct (nth_error l (b + d)) as [a|] eqn:Ea; [|apply nth_error_None in Ea; lia].
    cbn [obind]. rewrite E. cbn [obind]. exists (a :: r). split; [reflexivity|]. split; [cbn; lia|]. intros [|i] Hi.
    - cbn [nth_error]. rewrite Nat.add_0_r. symmetry. exact Ea.
    - cbn [nth_error]. rewrite N by lia. f_equal. lia. }
  intros H. destruct (G n 0 ltac:(lia)) as (r & E & L & N). exists r. repeat split; auto.
Qed.
Lemma omap_at_short {A} (l : list A) n d : length l < n + d -> 0 < n -> omap (fun i => at_ l (i + d)) (seq 0 n) = Throw OutOfRange.
Proof.
  assert (G : forall n b, length l < n + b + d -> 0 < n -> omap (fun i => at_ l (i + d)) (seq b n) = Throw OutOfRange).
  { clear n. induction n as [|n IH]; intros b H P; [lia|]. cbn [seq omap]. unfold at_ at 1. destruct (nth_error l (b + d)) as [a|] eqn:Ea.
    - cbn [obind]. assert (b + d < length l) by (apply nth_error_Some; rewrite Ea; discriminate). rewrite IH by lia. reflexivity.
    - reflexivity. }
  intros H P. apply G; lia.
Qed.
Lemma omap_ext {A B} (h k : A -> outcome B) l : (forall a, h a = k a) -> omap h l = omap k l.
Proof. intros E. induction l as [|a l IH]; [reflexivity|]. cbn [omap]. rewrite E, IH. reflexivity. Qed.
Lemma at0_ok {A} (l : list A) n : n <= length l -> exists r, omap (fun i => at_ l i) (seq 0 n) = Ok r /\ length r = n /\ forall i, i < n -> nth_error r i = nth_error l i.
Proof.
  intros H. destruct (omap_at_ok l n 0 ltac:(lia)) as (r & E & L & N). exists r. split.
  - rewrite <- E. apply omap_ext. intros i. rewrite Nat.add_0_r. reflexivity.
  - split; [exact L|]. intros i Hi. rewrite N by exact Hi. f_equal. lia.
Qed.
Lemma at0_short {A} (l : list A) n : length l < n -> omap (fun i => at_ l i) (seq 0 n) = Throw OutOfRange.
Proof.
  intros H. rewrite <- (omap_at_short l n 0) by lia. apply omap_ext. intros i. rewrite Nat.add_0_r. reflexivity.
Qed.
Lemma state_from_ok k s v : entries k <= length v -> exists c, state_from wy wq k s v = Ok c.
Proof.
  intros H. destruct k as [| |n]; cbn [entries] in H; unfold state_from.
  - destruct (at0_ok v 3 H) as (r & -> & _). eexists. reflexivity.
  - destruct (at0_ok v 7 H) as (r & -> & _). eexists. reflexivity.
  - destruct (at0_ok v 7 ltac:(lia)) as (r & -> & _). cbn [obind]. destruct (omap_at_ok v n 7 ltac:(lia)) as (r' & -> & _). eexists. reflexivity.
Qed.
Lemma state_from_short k s v : length v < entries k -> state_from wy wq k s v = Throw OutOfRange.
Proof.
  intros H. destruct k as [| |n]; cbn [entries] in H; unfold state_from.
  - rewrite at0_short by exact H. reflexivity.
  - rewrite at0_short by exact H. reflexivity.
  - destruct (le_lt_dec 7 (length v)) as [L|L].
    + destruct (at0_ok v 7 L) as (r & -> & _). cbn [obind]. rewrite omap_at_short by lia. reflexivity.
    + rewrite at0_short by exact L. reflexivity.
Qed.
Lemma ends_ok k s st g : long_enough k st g -> exists a b, state_from wy wq k s st = Ok a /\ state_from wy wq k s g = Ok b /\
  (obind (state_from wy wq k s st) (fun a => obind (state_from wy wq k s g) (fun b => Ok (a, b)))) = Ok (a, b).
Proof. intros [A B]. destruct (state_from_ok k s st A) as [a Ea]. destruct (state_from_ok k s g B) as [b Eb]. exists a, b. rewrite Ea, Eb. auto. Qed.
Lemma ends_short k s st g : ~ long_enough k st g ->
  (obind (state_from wy wq k s st) (fun a => obind (state_from wy wq k s g) (fun b => Ok (a, b)))) = Throw OutOfRange.
Proof.
  intros N. destruct (le_lt_dec (entries k) (length st)) as [L|L].
  - destruct (state_from_ok k s st L) as [a ->]. cbn [obind]. destruct (le_lt_dec (entries k) (length g)) as [L2|L2]; [exfalso; apply N; split; assumption|].
    rewrite state_from_short by exact L2. reflexivity.
  - rewrite state_from_short by exact L. reflexivity.
Qed.
Lemma long_dec k s g : long_enough k s g \/ ~ long_enough k s g.
Proof. unfold long_enough. destruct (le_lt_dec (entries k) (length s)), (le_lt_dec (entries k) (length g)); [left; auto|right; lia..]. Qed.
Lemma reported_dec t r : reported t r \/ ~ reported t r.
Proof.
  unfold reported. destruct (r_status r) as [[]|], (fltb (r_time r) t); try (left; split; reflexivity); right; intros [A B]; (discriminate A || discriminate B).
Qed.

(** ---- setup ---- *)
Lemma idx_all_spec l n : (n <= length l -> idx_all l n = Ok (firstn n l)) /\ (length l < n -> idx_all l n = UB).
Proof.
  unfold idx_all. assert (G : forall n b, (n + b <= length l -> omap (fun i => idx l i) (seq b n) = Ok (firstn n (skipn b l))) /\ (length l < n + b -> 0 < n -> omap (fun i => idx l i) (seq b n) = UB)).
  { clear n. induction n as [|n IH]; intros b; split; intros H; try (intros H0; lia).
    - reflexivity.
    - cbn [seq omap]. unfold idx at 1. destruct (nth_error l b) as [a|] eqn:Ea; [|apply nth_error_None in Ea; lia]. cbn [obind]. destruct (IH (S b)) as [-> _]; [|lia]. cbn [obind].
      assert (E : skipn b l = a :: skipn (S b) l). { clear - Ea. revert b Ea. induction l as [|x l IHl]; intros [|b] Ea; cbn in *; try discriminate; [injection Ea as ->; reflexivity|exact (IHl b Ea)]. }
      rewrite E. reflexivity.
    - intros _. cbn [seq omap]. unfold idx at 1. destruct (nth_error l b) as [a|] eqn:Ea; [|reflexivity]. cbn [obind].
      assert (b < length l) by (apply nth_error_Some; rewrite Ea; discriminate). destruct (IH (S b)) as [_ ->]; [reflexivity|lia..]. }
  destruct (G n 0) as [A B]. split; intros H; [apply A; lia|apply B; lia].
Qed.
Lemma bounds_bad_spec lo hi : length lo = length hi -> bounds_bad lo hi = false <-> forall i, i < length lo -> exists l h, nth_error lo i = Some l /\ nth_error hi i = Some h /\ fleb h l = false.
Proof.
  revert hi. induction lo as [|l lo IH]; intros [|h hi] L; try discriminate L; cbn [bounds_bad].
  - split; [intros _ i H; cbn in H; lia|reflexivity].
  - rewrite orb_false_iff, (IH hi ltac:(cbn in L; lia)). split.
    + intros [A B] [|i] Hi; [exists l, h; auto|]. cbn [nth_error]. apply B. cbn in Hi. lia.
    + intros H. split; [destruct (H 0 ltac:(cbn; lia)) as (l' & h' & E1 & E2 & E3); cbn in E1, E2; injection E1 as ->; injection E2 as ->; exact E3|].
      intros i Hi. exact (H (S i) ltac:(cbn; lia)).
Qed.
Lemma set_space k lo hi : (good_bounds k lo hi /\ set_state_space k lo hi = Ok (SS (firstn (dims k) lo) (firstn (dims k) hi) false None)) \/
  (~ good_bounds k lo hi /\ (set_state_space k lo hi = Throw OtherException \/ set_state_space k lo hi = UB)).
Proof.
  unfold set_state_space. destruct (idx_all_spec lo (dims k)) as [A1 A2], (idx_all_spec hi (dims k)) as [C1 C2].
  destruct (le_lt_dec (dims k) (length lo)) as [L|L].
  2:{ rewrite A2 by exact L. cbn [obind]. right. split; [|right; reflexivity]. intros G. destruct (G (length lo) L) as (l & h & E & _). assert (length lo < length lo) by (apply nth_error_Some; rewrite E; discriminate). lia. }
  rewrite A1 by exact L. cbn [obind]. destruct (le_lt_dec (dims k) (length hi)) as [L2|L2].
  2:{ rewrite C2 by exact L2. cbn [obind]. right. split; [|right; reflexivity]. intros G. destruct (G (length hi) L2) as (l & h & _ & E & _). assert (length hi < length hi) by (apply nth_error_Some; rewrite E; discriminate). lia. }
  rewrite C1 by exact L2. cbn [obind].
  assert (LL : length (firstn (dims k) lo) = length (firstn (dims k) hi)) by (rewrite !firstn_length; lia).
  assert (NF : forall (l : list f64) n i, i < n -> nth_error (firstn n l) i = nth_error l i). { clear. induction l as [|a l IH]; intros [|n] [|i] H; cbn; try reflexivity; try lia. apply IH. lia. }
  pose proof (bounds_bad_spec _ _ LL) as BS. rewrite firstn_length, Nat.min_l in BS by exact L.
  assert (GB : bounds_bad (firstn (dims k) lo) (firstn (dims k) hi) = false <-> good_bounds k lo hi).
  { rewrite BS. unfold good_bounds. split; intros H i Hi; destruct (H i Hi) as (l & h & E1 & E2 & E3); exists l, h; rewrite !NF in * by exact Hi; auto. }
  destruct (bounds_bad _ _).
  - right. split; [intros G; apply GB in G; discriminate G|left; reflexivity].
  - left. split; [apply GB; reflexivity|reflexivity].
Qed.

(** ---- the read-out ---- *)
Lemma read_all {A} (l : list A) n : (n <= length l -> omap (fun i => match nth_error l i with Some v => Ok v | None => UB end) (seq 0 n) = Ok (firstn n l)) /\
  (length l < n -> omap (fun i => match nth_error l i with Some v => Ok v | None => UB end) (seq 0 n) = UB).
Proof.
  assert (G : forall n b, (n + b <= length l -> omap (fun i => match nth_error l i with Some v => Ok v | None => UB end) (seq b n) = Ok (firstn n (skipn b l))) /\
     (length l < n + b -> 0 < n -> omap (fun i => match nth_error l i with Some v => Ok v | None => UB end) (seq b n) = UB)).
  { clear n. induction n as [|n IH]; intros b; split; intros H; try (intros H0; lia).
    - reflexivity.
    - cbn [seq omap]. destruct (nth_error l b) as [a|] eqn:Ea; [|apply nth_error_None in Ea; lia]. cbn [obind]. destruct (IH (S b)) as [-> _]; [|lia]. cbn [obind].
      assert (E : skipn b l = a :: skipn (S b) l). { clear - Ea. revert b Ea. induction l as [|x l IHl]; intros [|b] Ea; cbn in *; try discriminate; [injection Ea as ->; reflexivity|exact (IHl b Ea)]. }
      rewrite E. reflexivity.
    - intros _. cbn [seq omap]. destruct (nth_error l b) as [a|] eqn:Ea; [|reflexivity]. cbn [obind].
      assert (b < length l) by (apply nth_error_Some; rewrite Ea; discriminate). destruct (IH (S b)) as [_ ->]; [reflexivity|lia..]. }
  destruct (G n 0) as [A0 B0]. split; intros H; [apply A0; lia|apply B0; lia].
Qed.
Lemma edges_spec (out : list (list nat)) n i j : In (i, j) (flat_map (fun i => map (pair i) (nth i out [])) (seq 0 n)) <-> i < n /\ exists l, nth_error out i = Some l /\ In j l.
Proof.
  rewrite in_flat_map. split.
  - intros (i' & I & J). apply in_map_iff in J. destruct J as (j' & E & J). injection E as -> ->. apply in_seq in I. split; [lia|].
    destruct (nth_error out i) as [l|] eqn:El; [exists l; split; [reflexivity|]; rewrite (nth_error_nth _ _ [] El) in J; exact J|].
    rewrite nth_overflow in J by (apply nth_error_None; exact El). destruct J.
  - intros (Hi & l & El & J). exists i. split; [apply in_seq; lia|]. apply in_map_iff. exists j. split; [reflexivity|]. rewrite (nth_error_nth _ _ [] El). exact J.
Qed.

(** ---- one call of plan, case by case ---- *)
Lemma plan_none k o s g t r : o_ss o = None -> exists o', planN k o s g t r = (o', Ok false) /\ o_solved o' = false /\ o_ss o' = None /\
  o_path o' = o_path o /\ o_interp o' = o_interp o /\ o_valid o' = o_valid o.
Proof. intros E. unfold plan. cbn [o_ss]. rewrite E. eexists. split; [reflexivity|]. cbn. auto 10. Qed.
Lemma plan_short k o s g t r : o_ss o <> None -> ~ long_enough k s g -> exists o', planN k o s g t r = (o', Throw OutOfRange) /\ o_solved o' = false /\ o_ss o' = o_ss o /\
  o_path o' = o_path o /\ o_interp o' = o_interp o /\ o_valid o' = o_valid o /\ o_verts o' = o_verts o /\ o_edges o' = o_edges o /\ o_len o' = o_len o.
Proof.
  intros E N. unfold plan. cbn [o_ss]. destruct (o_ss o) as [ss|] eqn:Es; [|contradiction]. rewrite ends_short by exact N. eexists. split; [reflexivity|]. cbn. auto 10.
Qed.
(** What a call that reaches OMPL leaves behind. *)
Definition ends_are k ss (o' : ompl) s g := exists a b, state_from wy wq k ss s = Ok a /\ state_from wy wq k ss g = Ok b /\
  o_ss o' = Some (SS (ss_low ss) (ss_high ss) (ss_checked ss) (Some (a, b))).
Lemma good_iff t r : (match r_status r with None => false | Some st => st && fltb (r_time r) t end = true) <-> reported t r.
Proof.
  unfold reported. destruct (r_status r) as [[]|]; cbn [andb].
  - split; [intros H; split; [reflexivity|exact H]|intros [_ H]; exact H].
  - split; [intros H; discriminate H|intros [H _]; discriminate H].
  - split; [intros H; discriminate H|intros [H _]; discriminate H].
Qed.
Lemma plan_spatial k o ss s g t r : k <> Planar -> o_ss o = Some ss -> long_enough k s g -> exists o', planN k o s g t r = (o', Ok true) /\ ends_are k ss o' s g /\
  (o_solved o' = true <-> reported t r) /\
  o_path o' = o_path o ++ (if o_solved o' then states_of r else []) /\
  o_interp o' = o_interp o ++ (if o_solved o' then match r_simple r with Some _ => r_interp r | None => [] end else []) /\
  o_valid o' = r_motions r /\ o_verts o' = r_verts r /\ o_numv o' = length (r_verts r) /\ o_nume o' = r_nume r /\
  (forall i j, In (i, j) (o_edges o') <-> i < length (r_verts r) /\ data_edge r i j) /\
  o_len o' = (if o_solved o' then r_found r else o_len o).
Proof.
  intros NP Es LE. unfold plan. cbn [o_ss]. rewrite Es. destruct (ends_ok k ss s g LE) as (a & b & Ea & Eb & ->). cbn [with_ss o_ss o_solved o_time o_checks o_valid o_space o_numv o_nume o_len o_verts o_edges o_path o_interp].
  pose proof (good_iff t r) as GI. set (good := match r_status r with None => false | Some st => st && fltb (r_time r) t end) in *.
  match goal with |- context [match k with Planar => get_solution2 ?x r | _ => _ end] => set (o2 := x) end.
  assert (K : match k with Planar => get_solution2 o2 r | _ => get_solution3 o2 r end = get_solution3 o2 r) by (destruct k; [contradiction|reflexivity..]). rewrite K.
  assert (S2 : o_solved o2 = good /\ o_ss o2 = Some (SS (ss_low ss) (ss_high ss) (ss_checked ss) (Some (a, b))) /\ o_path o2 = o_path o /\ o_interp o2 = o_interp o /\ o_len o2 = (if good then r_found r else o_len o)).
  { unfold o2, good. destruct (r_status r); cbn; auto. }
  clearbody o2. destruct S2 as (S1 & S2 & S3 & S4 & S5). unfold get_solution3. destruct (read_all (r_verts r) (length (r_verts r))) as [RA _]. rewrite RA, firstn_all by lia. clear RA.
  destruct (if o_solved o2 then _ else _) as [pa ia] eqn:EP. eexists. split; [reflexivity|]. cbn [o_ss o_solved o_time o_checks o_valid o_space o_numv o_nume o_len o_verts o_edges o_path o_interp].
  split; [exists a, b; auto|]. rewrite S1 in *. split; [exact GI|].
  assert (PI : pa = o_path o ++ (if good then states_of r else []) /\ ia = o_interp o ++ (if good then match r_simple r with Some _ => r_interp r | None => [] end else [])).
  { rewrite S3, S4 in EP. unfold states_of. destruct good; [destruct (r_simple r) as [p|]|]; injection EP as <- <-; rewrite ?app_nil_r; auto. }
  destruct PI as [-> ->]. repeat (split; [reflexivity|]). split; [|exact S5]. intros i j. apply edges_spec.
Qed.
Lemma plan_planar o ss s g t r : o_ss o = Some ss -> long_enough Planar s g ->
  (reported t r /\ r_simple r = None /\ exists o', planN Planar o s g t r = (o', Throw OtherException) /\ o_solved o' = true /\ o_path o' = o_path o /\ o_interp o' = o_interp o /\
     o_valid o' = o_valid o /\ ends_are Planar ss o' s g) \/
  ((reported t r -> r_simple r <> None) /\ length (r_verts r) < o_valid o /\ exists o', planN Planar o s g t r = (o', UB)) \/
  ((reported t r -> r_simple r <> None) /\ o_valid o <= length (r_verts r) /\ exists o', planN Planar o s g t r = (o', Ok true) /\ ends_are Planar ss o' s g /\
     (o_solved o' = true <-> reported t r) /\ o_path o' = o_path o ++ (if o_solved o' then r_interp r else []) /\ o_interp o' = o_interp o /\
     o_valid o' = r_motions r /\ o_verts o' = firstn (o_valid o) (r_verts r) /\ o_numv o' = length (r_verts r) /\ o_nume o' = r_nume r /\
     (forall i j, In (i, j) (o_edges o') <-> i < o_valid o /\ data_edge r i j) /\
     o_len o' = (if o_solved o' then length (states_of r) else o_len o) /\ o_time o' = r_time r).
Proof.
  intros Es LE. unfold plan. cbn [o_ss]. rewrite Es. destruct (ends_ok Planar ss s g LE) as (a & b & Ea & Eb & ->). cbn [with_ss o_ss o_solved o_time o_checks o_valid o_space o_numv o_nume o_len o_verts o_edges o_path o_interp].
  pose proof (good_iff t r) as GI. set (good := match r_status r with None => false | Some st => st && fltb (r_time r) t end) in *.
  match goal with |- context [get_solution2 ?x r] => set (o2 := x) end.
  assert (S2 : o_solved o2 = good /\ o_ss o2 = Some (SS (ss_low ss) (ss_high ss) (ss_checked ss) (Some (a, b))) /\ o_path o2 = o_path o /\ o_interp o2 = o_interp o /\ o_valid o2 = o_valid o /\ (good = false -> o_len o2 = o_len o)).
  { unfold o2, good. destruct (r_status r) as [st|]; cbn; repeat split; auto. intros ->. reflexivity. }
  clearbody o2. destruct S2 as (S1 & S2 & S3 & S4 & S5 & S6). unfold get_solution2. rewrite S1, S3, S5. destruct (read_all (r_verts r) (o_valid o)) as [RA RB].
  destruct good eqn:EG.
  - destruct (r_simple r) as [p|] eqn:ER; cbn [option_map].
    + right. destruct (le_lt_dec (o_valid o) (length (r_verts r))) as [L|L].
      * right. rewrite RA by exact L. split; [intros _; discriminate|]. split; [exact L|]. eexists. split; [reflexivity|]. cbn [o_ss o_solved o_time o_checks o_valid o_space o_numv o_nume o_len o_verts o_edges o_path o_interp].
        unfold states_of. rewrite ER. repeat (split; [first [reflexivity|exact GI|exact S4|exists a, b; auto|intros i j; apply edges_spec]|]). reflexivity.
      * left. rewrite RB by exact L. split; [intros _; discriminate|]. split; [exact L|]. eexists. reflexivity.
    + left. split; [apply GI; reflexivity|]. split; [reflexivity|]. eexists. split; [reflexivity|]. repeat (split; [assumption|]). exists a, b. auto.
  - right. assert (NR : ~ reported t r) by (intros H; apply GI in H; discriminate H). destruct (le_lt_dec (o_valid o) (length (r_verts r))) as [L|L].
    + right. rewrite RA by exact L. split; [intros H; contradiction|]. split; [exact L|]. eexists. split; [reflexivity|]. cbn [o_ss o_solved o_time o_checks o_valid o_space o_numv o_nume o_len o_verts o_edges o_path o_interp].
      rewrite app_nil_r. repeat (split; [first [reflexivity|exact GI|exact S4|exists a, b; auto|intros i j; apply edges_spec]|]). split; [exact (S6 eq_refl)|reflexivity].
    + left. rewrite RB by exact L. split; [intros H; contradiction|]. split; [exact L|]. eexists. reflexivity.
Qed.

(** ---- histories ---- *)
Lemma run_snoc k o cs c : runN k o (cs ++ [c]) = match runN k o cs with Some o1 => do_call wy wq k o1 c | None => None end.
Proof. revert o. induction cs as [|d cs IH]; intros o; cbn [app run]; [destruct (do_call wy wq k o c); reflexivity|]. destruct (do_call wy wq k o d); [apply IH|reflexivity]. Qed.
Lemma ready_snoc k cs c : is_ready k (cs ++ [c]) <-> is_ready k cs \/ exists lo hi, c = Setup lo hi /\ good_bounds k lo hi.
Proof.
  unfold is_ready. split.
  - intros [A|(lo & hi & I & G)]; [auto|]. apply in_app_iff in I. destruct I as [I|[I|[]]]; [left; right; exists lo, hi; auto|right; exists lo, hi; auto].
  - intros [[A|(lo & hi & I & G)]|(lo & hi & -> & G)]; [auto|right; exists lo, hi; split; [apply in_app_iff; auto|exact G]|right; exists lo, hi; split; [apply in_app_iff; right; left; reflexivity|exact G]].
Qed.
Lemma set_up_snoc_plan k cs s g t r : set_up k (cs ++ [Plan s g t r]) <-> set_up k cs.
Proof.
  unfold set_up. split; intros (lo & hi & I & G); exists lo, hi; (split; [|exact G]).
  - apply in_app_iff in I. destruct I as [I|[I|[]]]; [exact I|discriminate I].
  - apply in_app_iff. left. exact I.
Qed.
Lemma bounds_plan k lo0 hi0 cs s g t r l h : bounds_of k lo0 hi0 cs l h -> bounds_of k lo0 hi0 (cs ++ [Plan s g t r]) l h.
Proof.
  intros [cs' N|cs' rest lo hi G N].
  - constructor. rewrite set_up_snoc_plan. exact N.
  - rewrite <- app_assoc. cbn [app]. constructor; [exact G|]. rewrite set_up_snoc_plan. exact N.
Qed.
Lemma bounds_bad_setup k lo0 hi0 cs lo1 hi1 l h : ~ good_bounds k lo1 hi1 -> bounds_of k lo0 hi0 cs l h -> bounds_of k lo0 hi0 (cs ++ [Setup lo1 hi1]) l h.
Proof.
  intros NG [cs' N|cs' rest lo hi G N].
  - constructor. intros (lo & hi & I & G). apply in_app_iff in I. destruct I as [I|[I|[]]]; [apply N; exists lo, hi; auto|injection I as -> ->; contradiction].
  - rewrite <- app_assoc. cbn [app]. constructor; [exact G|]. intros (lo2 & hi2 & I & G2). apply in_app_iff in I. destruct I as [I|[I|[]]]; [apply N; exists lo2, hi2; auto|injection I as -> ->; contradiction].
Qed.

Definition inv (k : kind) (lo0 hi0 : list f64) (cs : list call) (o : ompl) : Prop :=
  (o_ss o <> None <-> is_ready k cs) /\
  (exists l, contributions k cs l /\ o_path o = flat_map (path_of k) l /\ o_interp o = flat_map (interp_of k) l) /\
  motions k cs (o_valid o) /\
  (forall ss, o_ss o = Some ss -> (ss_checked ss = true <-> set_up k cs) /\ bounds_of k lo0 hi0 cs (ss_low ss) (ss_high ss)).
Lemma inv_new k lo0 hi0 o0 : new_ompl k lo0 hi0 = Ok o0 -> inv k lo0 hi0 [] o0.
Proof.
  intros H. assert (NS : ~ set_up k []) by (intros (lo & hi & [] & _)).
  assert (X : (k = Planar \/ k = Spatial) /\ o0 = OMPL None false fzero 0 0 fzero 0 0 0 [] [] [] [] \/
    articulated k /\ exists s, set_state_space k lo0 hi0 = Ok s /\ o0 = OMPL (Some s) false fzero 0 0 fzero 0 0 0 [] [] [] []).
  { destruct k as [| |n]; cbn [new_ompl] in H; [left; injection H as <-; auto..|]. right. split; [exact I|]. destruct (set_state_space (Articulated n) lo0 hi0) as [s| |] eqn:E; cbn [obind] in H; try discriminate H.
    injection H as <-. exists s. auto. }
  destruct X as [[K ->]|[AR (s & E & ->)]]; (split; [|split; [exists []; split; [constructor|split; reflexivity]|split; [constructor|]]]); cbn [o_ss].
  - split; [intros N; contradiction|]. intros [A|(lo & hi & [] & _)]. destruct K as [-> | ->]; destruct A.
  - intros ss C. discriminate C.
  - split; [intros _; left; exact AR|intros _; discriminate].
  - intros ss C. injection C as <-. destruct (set_space k lo0 hi0) as [[_ E2]|[_ [E2|E2]]]; rewrite E2 in E; try discriminate E. injection E as <-. cbn [ss_checked ss_low ss_high].
    split; [split; [discriminate|intros S; contradiction]|]. constructor. exact NS.
Qed.
Lemma inv_step k lo0 hi0 cs c o o' : inv k lo0 hi0 cs o -> do_call wy wq k o c = Some o' -> inv k lo0 hi0 (cs ++ [c]) o'.
Proof.
  intros (R & (l & C & P & Q) & M & CH) H. destruct c as [lo hi|s g t r]; cbn [do_call] in H.
  - unfold setup in H. destruct (set_space k lo hi) as [[G E]|[NG [E|E]]]; rewrite E in H; [injection H as <-|injection H as <-|discriminate H].
    + split; [|split; [|split]].
      * cbn [with_ss o_ss]. split; [intros _; apply ready_snoc; right; exists lo, hi; auto|intros _; discriminate].
      * exists l. split; [constructor; exact C|split; assumption].
      * constructor. exact M.
      * cbn [with_ss o_ss]. intros ss Es. injection Es as <-. cbn [ss_checked ss_low ss_high]. split; [split; [intros _; exists lo, hi; split; [apply in_app_iff; right; left; reflexivity|exact G]|reflexivity]|].
        constructor; [exact G|]. intros (a & b & [] & _).
    + split; [|split; [|split]].
      * rewrite R, ready_snoc. split; [auto|]. intros [A|(lo' & hi' & E2 & G)]; [exact A|]. injection E2 as -> ->. contradiction.
      * exists l. split; [constructor; exact C|split; assumption].
      * constructor. exact M.
      * intros ss Es. destruct (CH ss Es) as [A B]. split; [|apply bounds_bad_setup; assumption]. rewrite A. unfold set_up. split; intros (a & b & I & G); exists a, b; (split; [|exact G]); [apply in_app_iff; auto|].
        apply in_app_iff in I. destruct I as [I|[I|[]]]; [exact I|injection I as -> ->; contradiction].
  - assert (RS : is_ready k (cs ++ [Plan s g t r]) <-> is_ready k cs) by (rewrite ready_snoc; split; [intros [A|(a & b & E & _)]; [exact A|discriminate E]|auto]).
    destruct (o_ss o) as [ss|] eqn:Es.
    2:{ destruct (plan_none k o s g t r Es) as (o1 & E & _ & N & P1 & P2 & P3). rewrite E in H. injection H as <-.
        assert (NR : ~ is_ready k cs) by (intros A; apply R in A; apply A; reflexivity).
        split; [|split; [|split]].
        - rewrite RS, N. split; [intros A; contradiction|intros A; contradiction].
        - exists l. split; [apply co_not; [exact C|tauto]|rewrite P1, P2; split; assumption].
        - rewrite P3. apply mo_not; [exact M|]. intros (A & _). contradiction.
        - intros ss' E2. rewrite N in E2. discriminate E2. }
    assert (RD : is_ready k cs) by (apply R; discriminate). destruct (CH ss eq_refl) as [CA CB]. clear CH.
    assert (FIN : forall o2 n l2, (exists sse, o_ss o2 = Some (SS (ss_low ss) (ss_high ss) (ss_checked ss) sse)) -> contributions k (cs ++ [Plan s g t r]) l2 ->
        o_path o2 = flat_map (path_of k) l2 -> o_interp o2 = flat_map (interp_of k) l2 -> o_valid o2 = n -> motions k (cs ++ [Plan s g t r]) n -> inv k lo0 hi0 (cs ++ [Plan s g t r]) o2).
    { intros o2 n l2 [sse F1] F2 F3 F4 F5 F6. split; [rewrite RS, F1; split; [auto|intros _; discriminate]|]. split; [exists l2; auto|]. split; [rewrite F5; exact F6|].
      intros ss2 E2. rewrite F1 in E2. injection E2 as <-. cbn [ss_checked ss_low ss_high]. rewrite set_up_snoc_plan. split; [exact CA|apply bounds_plan; exact CB]. }
    destruct (long_dec k s g) as [LE|NL].
    2:{ destruct (plan_short k o s g t r ltac:(rewrite Es; discriminate) NL) as (o1 & E & _ & N & P1 & P2 & P3 & _). rewrite E in H. injection H as <-.
        apply (FIN o1 (o_valid o) l); [exists (ss_ends ss); rewrite N, Es; destruct ss; reflexivity|apply co_not; [exact C|tauto]|congruence|congruence|exact P3|apply mo_not; [exact M|intros (_ & A & _); contradiction]]. }
    destruct k as [| |nj].
    + destruct (plan_planar o ss s g t r Es LE) as [(RP & RN & o1 & E & _ & P1 & P2 & P3 & (a & b & _ & _ & EN))|[(RP & L & o1 & E)|(RP & L & o1 & E & (a & b & _ & _ & EN) & GI & P1 & P2 & P3 & _)]];
        rewrite E in H; [injection H as <-|discriminate H|injection H as <-].
      * apply (FIN o1 (o_valid o) l); [eexists; exact EN|apply co_not; [exact C|tauto]|congruence|congruence|exact P3|apply mo_not; [exact M|intros (_ & _ & A); apply (A eq_refl RP); exact RN]].
      * assert (MO : motions Planar (cs ++ [Plan s g t r]) (r_motions r)) by (apply (mo_plan Planar cs (o_valid o)); [exact M|split; [exact RD|split; [exact LE|intros _; exact RP]]]).
        destruct (o_solved o1).
        -- assert (RPT : reported t r) by (apply GI; reflexivity). apply (FIN o1 (r_motions r) (l ++ [r])); [eexists; exact EN|apply co_solved; auto| | |exact P3|exact MO].
           ++ rewrite P1, P, flat_map_app. cbn [flat_map path_of]. rewrite app_nil_r. reflexivity.
           ++ rewrite P2, Q, flat_map_app. cbn [flat_map interp_of app]. rewrite app_nil_r. reflexivity.
        -- apply (FIN o1 (r_motions r) l); [eexists; exact EN|apply co_not; [exact C|]| | |exact P3|exact MO].
           ++ intros (_ & _ & RPT & _). apply GI in RPT. discriminate RPT.
           ++ rewrite P1, app_nil_r. exact P.
           ++ congruence.
    + destruct (plan_spatial Spatial o ss s g t r ltac:(discriminate) Es LE) as (o1 & E & (a & b & _ & _ & EN) & GI & P1 & P2 & P3 & _). rewrite E in H. injection H as <-.
      assert (MO : motions Spatial (cs ++ [Plan s g t r]) (r_motions r)) by (apply (mo_plan Spatial cs (o_valid o)); [exact M|split; [exact RD|split; [exact LE|intros A; discriminate A]]]).
      destruct (o_solved o1); [destruct (r_simple r) as [p|] eqn:ER|].
      * assert (RPT : reported t r) by (apply GI; reflexivity). apply (FIN o1 (r_motions r) (l ++ [r])); [eexists; exact EN|apply co_solved; auto; rewrite ER; discriminate| | |exact P3|exact MO].
        -- rewrite P1, P, flat_map_app. cbn [flat_map path_of]. rewrite app_nil_r. reflexivity.
        -- rewrite P2, Q, flat_map_app. cbn [flat_map interp_of]. rewrite app_nil_r. reflexivity.
      * unfold states_of in P1. rewrite ER in P1. rewrite app_nil_r in P1, P2. apply (FIN o1 (r_motions r) l); [eexists; exact EN|apply co_not; [exact C|tauto]|congruence|congruence|exact P3|exact MO].
      * rewrite app_nil_r in P1, P2. apply (FIN o1 (r_motions r) l); [eexists; exact EN|apply co_not; [exact C|intros (_ & _ & RPT & _); apply GI in RPT; discriminate RPT]|congruence|congruence|exact P3|exact MO].
    + destruct (plan_spatial (Articulated nj) o ss s g t r ltac:(discriminate) Es LE) as (o1 & E & (a & b & _ & _ & EN) & GI & P1 & P2 & P3 & _). rewrite E in H. injection H as <-.
      assert (MO : motions (Articulated nj) (cs ++ [Plan s g t r]) (r_motions r)) by (apply (mo_plan (Articulated nj) cs (o_valid o)); [exact M|split; [exact RD|split; [exact LE|intros A; discriminate A]]]).
      destruct (o_solved o1); [destruct (r_simple r) as [p|] eqn:ER|].
      * assert (RPT : reported t r) by (apply GI; reflexivity). apply (FIN o1 (r_motions r) (l ++ [r])); [eexists; exact EN|apply co_solved; auto; rewrite ER; discriminate| | |exact P3|exact MO].
        -- rewrite P1, P, flat_map_app. cbn [flat_map path_of]. rewrite app_nil_r. reflexivity.
        -- rewrite P2, Q, flat_map_app. cbn [flat_map interp_of]. rewrite app_nil_r. reflexivity.
      * unfold states_of in P1. rewrite ER in P1. rewrite app_nil_r in P1, P2. apply (FIN o1 (r_motions r) l); [eexists; exact EN|apply co_not; [exact C|tauto]|congruence|congruence|exact P3|exact MO].
      * rewrite app_nil_r in P1, P2. apply (FIN o1 (r_motions r) l); [eexists; exact EN|apply co_not; [exact C|intros (_ & _ & RPT & _); apply GI in RPT; discriminate RPT]|congruence|congruence|exact P3|exact MO].
Qed.
Lemma inv_run k lo0 hi0 o0 cs : new_ompl k lo0 hi0 = Ok o0 -> forall o, runN k o0 cs = Some o -> inv k lo0 hi0 cs o.
Proof.
  intros N. induction cs as [|c cs IH] using rev_ind; intros o H; [cbn in H; injection H as <-; exact (inv_new k lo0 hi0 o0 N)|].
  rewrite run_snoc in H. destruct (runN k o0 cs) as [o1|] eqn:E; [|discriminate H]. exact (inv_step k lo0 hi0 cs c o1 o (IH o1 eq_refl) H).
Qed.
(** The two histories are functions. *)
Lemma snoc_inj {A} (l m : list A) a b : l ++ [a] = m ++ [b] -> l = m /\ a = b.
Proof. apply app_inj_tail. Qed.
Lemma contributions_fun k cs l : contributions k cs l -> forall l', contributions k cs l' -> l' = l.
Proof.
  induction 1 as [|cs l lo hi H IH|cs l s g t r H IH RD LE RP RS|cs l s g t r H IH N]; intros l' H'; inversion H' as [E|cs' l0 lo' hi' C E|cs' l0 s' g' t' r' C A1 A2 A3 A4 E|cs' l0 s' g' t' r' C A E]; subst; auto.
  all: try (match goal with E : _ ++ [_] = [] |- _ => destruct (app_eq_nil _ _ E) as [_ X]; discriminate X end).
  all: try (match goal with E : [] = _ ++ [_] |- _ => symmetry in E; destruct (app_eq_nil _ _ E) as [_ X]; discriminate X end).
  all: match goal with E : _ ++ [_] = _ ++ [_] |- _ => apply snoc_inj in E; destruct E as [-> E]; try discriminate E; try (injection E as -> -> -> ->) end; auto.
  - rewrite (IH l0 C). reflexivity.
  - exfalso. tauto.
  - exfalso. tauto.
Qed.
Lemma motions_fun k cs l : motions k cs l -> forall l', motions k cs l' -> l' = l.
Proof.
  induction 1 as [|cs l lo hi H IH|cs l s g t r H IH RD|cs l s g t r H IH N]; intros l' H'; inversion H' as [E|cs' l0 lo' hi' C E|cs' l0 s' g' t' r' C A1 E|cs' l0 s' g' t' r' C A E]; subst; auto.
  all: try (match goal with E : _ ++ [_] = [] |- _ => destruct (app_eq_nil _ _ E) as [_ X]; discriminate X end).
  all: try (match goal with E : [] = _ ++ [_] |- _ => symmetry in E; destruct (app_eq_nil _ _ E) as [_ X]; discriminate X end).
  all: match goal with E : _ ++ [_] = _ ++ [_] |- _ => apply snoc_inj in E; destruct E as [-> E]; try discriminate E; try (injection E as -> -> -> ->) end; auto.
  - exfalso. tauto.
  - exfalso. tauto.
Qed.

(** ---- start and goal ---- *)
Lemma clamp_pulled l h x : fleb h l = false -> pulled l h x (clamp l h x).
Proof.
  intros B Nl Nh Nx. apply (fleb_val_false h l Nh Nl) in B. unfold clamp.
  destruct (fltb h x) eqn:E1.
  - apply (fltb_val h x Nh Nx) in E1. clear - B E1. generalize dependent (fval h). intros vh B E1. generalize dependent (fval l). generalize dependent (fval x). intros vx Z vl Y.
    split; [intros; exfalso; lra|]. split; [reflexivity|intros; exfalso; lra].
  - apply (fltb_val_false h x Nh Nx) in E1. destruct (fltb x l) eqn:E2.
    + apply (fltb_val x l Nx Nl) in E2. clear - B E1 E2. generalize dependent (fval h). intros vh B E1. generalize dependent (fval l). generalize dependent (fval x). intros vx Z vl Y W.
      split; [intros; exfalso; lra|]. split; [intros; exfalso; lra|reflexivity].
    + apply (fltb_val_false x l Nx Nl) in E2. clear - B E1 E2. generalize dependent (fval h). intros vh B E1. generalize dependent (fval l). generalize dependent (fval x). intros vx Z vl Y W.
      split; [reflexivity|]. split; intros; exfalso; lra.
Qed.
Lemma clamp_all_nth lo hi xs : length lo = length xs -> length hi = length xs -> length (clamp_all lo hi xs) = length xs /\
  forall i l h x, nth_error lo i = Some l -> nth_error hi i = Some h -> nth_error xs i = Some x -> nth_error (clamp_all lo hi xs) i = Some (clamp l h x).
Proof.
  revert lo hi. induction xs as [|x xs IH]; intros [|l lo] [|h hi] A C; try discriminate A; try discriminate C.
  - split; [reflexivity|]. intros [|i] l h x E; discriminate E.
  - destruct (IH lo hi ltac:(cbn in A; lia) ltac:(cbn in C; lia)) as [L N]. cbn [clamp_all]. split; [cbn; lia|].
    intros [|i] l' h' x' E1 E2 E3; cbn [nth_error] in *; [congruence|]. exact (N i l' h' x' E1 E2 E3).
Qed.
Lemma nth_firstn {A} (l : list A) n i : i < n -> nth_error (firstn n l) i = nth_error l i.
Proof. revert n i. induction l as [|a l IH]; intros [|n] [|i] H; cbn; try reflexivity; try lia. apply IH. lia. Qed.
Lemma state_coords k s v c : length (ss_low s) = dims k -> length (ss_high s) = dims k -> state_from wy wq k s v = Ok c ->
  forall i l h x, i < dims k -> nth_error (ss_low s) i = Some l -> nth_error (ss_high s) i = Some h -> nth_error v i = Some x -> nth_error c i = Some (clamp l h x).
Proof.
  intros L1 L2 E i l h x Hi El Eh Ex. destruct (le_lt_dec (entries k) (length v)) as [LE|LT]; [|rewrite (state_from_short k s v LT) in E; discriminate E].
  assert (G : forall r m rest, length r = m -> dims k <= m -> (forall i, i < m -> nth_error r i = nth_error v i) ->
     nth_error (clamp_all (ss_low s) (ss_high s) (firstn (dims k) r) ++ rest) i = Some (clamp l h x)).
  { intros r m rest Lr Dm N. assert (FL : length (firstn (dims k) r) = dims k) by (rewrite firstn_length; lia).
    destruct (clamp_all_nth (ss_low s) (ss_high s) (firstn (dims k) r) ltac:(lia) ltac:(lia)) as [CL CN].
    rewrite nth_error_app1 by lia. apply CN; [exact El|exact Eh|]. rewrite nth_firstn by exact Hi. rewrite N by lia. exact Ex. }
  destruct k as [| |n]; cbn [entries] in LE; unfold state_from in E.
  - destruct (at0_ok v 3 LE) as (r & Er & Lr & N). rewrite Er in E. cbn [obind] in E. injection E as <-. exact (G r 3 _ Lr ltac:(cbn; lia) N).
  - destruct (at0_ok v 7 LE) as (r & Er & Lr & N). rewrite Er in E. cbn [obind] in E. injection E as <-. exact (G r 7 _ Lr ltac:(cbn; lia) N).
  - destruct (at0_ok v 7 ltac:(lia)) as (r & Er & Lr & N). rewrite Er in E. cbn [obind] in E. destruct (omap_at_ok v n 7 ltac:(lia)) as (r' & Er' & _). rewrite Er' in E. cbn [obind] in E. injection E as <-. exact (G r 7 _ Lr ltac:(cbn; lia) N).
Qed.
Lemma bounds_good k lo0 hi0 cs l h : (articulated k -> good_bounds k lo0 hi0) -> bounds_of k lo0 hi0 cs l h -> is_ready k cs -> length l = dims k /\ length h = dims k /\ good_bounds k l h.
Proof.
  intros A0 H RD.
  assert (X : forall a b, good_bounds k a b -> length (firstn (dims k) a) = dims k /\ length (firstn (dims k) b) = dims k /\ good_bounds k (firstn (dims k) a) (firstn (dims k) b)).
  { intros a b G. assert (D : 0 < dims k) by (destruct k; cbn; lia). destruct (G (dims k - 1) ltac:(lia)) as (x & y & E1 & E2 & _).
    assert (dims k - 1 < length a) by (apply nth_error_Some; rewrite E1; discriminate). assert (dims k - 1 < length b) by (apply nth_error_Some; rewrite E2; discriminate).
    rewrite !firstn_length. split; [lia|]. split; [lia|]. intros i Hi. rewrite !nth_firstn by exact Hi. exact (G i Hi). }
  destruct H as [cs N|cs rest lo hi G N].
  - apply X. destruct RD as [A|S]; [exact (A0 A)|contradiction].
  - apply X. exact G.
Qed.
Lemma new_good k lo hi o : new_ompl k lo hi = Ok o -> articulated k -> good_bounds k lo hi.
Proof.
  intros H A. destruct k as [| |n]; [destruct A..|]. cbn [new_ompl] in H. destruct (set_space (Articulated n) lo hi) as [[G _]|[_ [E|E]]]; [exact G|rewrite E in H; discriminate H..].
Qed.
Lemma joints_clamped n s v c j x : state_from wy wq (Articulated n) s v = Ok c -> j < n -> nth_error v (7 + j) = Some x ->
  exists head, c = head ++ skipn (length head) c /\ length c = length head + n /\ nth_error c (length head + j) = Some (clamp (fneg cHALF_PI) cHALF_PI x).
Proof.
  intros E Hj Ex. destruct (le_lt_dec (entries (Articulated n)) (length v)) as [LE|LT]; [|rewrite (state_from_short (Articulated n) s v LT) in E; discriminate E].
  cbn [entries] in LE. unfold state_from in E. destruct (at0_ok v 7 ltac:(lia)) as (r & Er & Lr & N). rewrite Er in E. cbn [obind] in E.
  destruct (omap_at_ok v n 7 ltac:(lia)) as (r' & Er' & Lr' & N'). rewrite Er' in E. cbn [obind] in E. injection E as <-. rewrite app_assoc.
  match goal with |- exists head, ?hd ++ ?tl = _ /\ _ => exists hd; set (H1 := hd); set (T1 := tl) end. clearbody H1. split.
  - rewrite skipn_app, skipn_all, Nat.sub_diag. reflexivity.
  - split; [unfold T1; rewrite app_length, map_length; lia|]. rewrite nth_error_app2 by lia. replace (length H1 + j - length H1) with j by lia. unfold T1. rewrite nth_error_map, N' by exact Hj.
    replace (j + 7) with (7 + j) by lia. rewrite Ex. reflexivity.
Qed.
End P.
