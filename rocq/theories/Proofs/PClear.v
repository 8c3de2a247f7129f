(** Roadmap vertices are clear of the boundaries swept over. *)
From Coq Require Import List Bool Arith Reals Lra Lia ZArith Permutation.
From Flocq Require Import Core.Core.
From Verif.Base Require Import Outcome Float64 FloatFacts.
From Verif.Model Require Import MScalar MInterval MFreeSpace MLine2D MGraph MSearch MHRM2D.
From Verif.Spec Require Import SInterval SFreeSpace SGraph SPlanner2D SClear.
From Verif.Proofs Require Import PInterval PFreeSpace PEnhance PTables PFreeAll PGraph PHRM2D PPlan2D.
Import ListNotations.

(** ---- what a completed intersection step says about the crossings ---- *)
Definition fine (o : outcome (list f64)) : Prop := exists h, o = Ok h /\ length h <> 1%nat.
Lemma fine_column {T} (entry : list f64 -> outcome (f64 * f64)) (set : T -> nat -> nat -> f64 * f64 -> outcome T) i :
  (forall h p, entry h = Ok p -> length h <> 1%nat) ->
  forall hs k t t', ofold (fun t '(j, h) => obind h (fun hits => obind (entry hits) (fun lu => set t i j lu))) (combine (seq k (length hs)) hs) t = Ok t' -> Forall fine hs.
Proof.
  intros He hs. induction hs as [|h hs IH]; intros k t t' H; [constructor|]. cbn [length seq combine ofold] in H.
  ob H t1 H1. ob H1 hits Hh. ob H1 lu Hl. constructor; [exists hits; split; [exact Hh|exact (He _ _ Hl)]|]. exact (IH _ _ _ H).
Qed.
Lemma arena_entry_len low upp h p : arena_entry low upp h = Ok p -> length h <> 1%nat.
Proof. intros H L. rewrite entries_UB_arena in H by exact L. discriminate H. Qed.
Lemma obstacle_entry_len h p : obstacle_entry h = Ok p -> length h <> 1%nat.
Proof. intros H L. rewrite entries_UB_obstacle in H by exact L. discriminate H. Qed.
Lemma intersect_line_fine low upp i hA hO t t' : intersect_line low upp i hA hO t = Ok t' -> Forall fine hA /\ Forall fine hO.
Proof.
  unfold intersect_line. intros H. ob H t1 H1. split.
  - exact (fine_column (arena_entry low upp) set_arena i (arena_entry_len low upp) _ _ _ _ H1).
  - exact (fine_column obstacle_entry set_obstacle i obstacle_entry_len _ _ _ _ H).
Qed.
Lemma compute_intersection_fine low upp fA fO lines t t' : compute_intersection low upp fA fO lines t = Ok t' ->
  forall c, In c lines -> Forall fine (fA c) /\ Forall fine (fO c).
Proof.
  unfold compute_intersection. generalize 0. revert t. induction lines as [|c0 lines IH]; intros t k H c Hc; [destruct Hc|].
  cbn [length seq combine ofold] in H. ob H t1 H1. destruct Hc as [->|Hc]; [exact (intersect_line_fine _ _ _ _ _ _ _ H1)|]. exact (IH _ _ H c Hc).
Qed.
Lemma ci_ext low upp fA fO gA gO lines : forall t, (forall c, In c lines -> fA c = gA c /\ fO c = gO c) ->
  compute_intersection low upp fA fO lines t = compute_intersection low upp gA gO lines t.
Proof.
  unfold compute_intersection. generalize 0. induction lines as [|c0 lines IH]; intros k t H; [reflexivity|].
  cbn [length seq combine ofold]. destruct (H c0 (or_introl eq_refl)) as [-> ->].
  destruct (intersect_line low upp k (gA c0) (gO c0) t) as [t1| |] eqn:Q; cbn [obind]; try reflexivity. apply IH. intros c Hc. apply H. right. exact Hc.
Qed.
Definition hits_of_o (o : outcome (list f64)) : list f64 := match o with Ok h => h | _ => [] end.
Lemma fine_map {A} (f : A -> outcome (list f64)) l : Forall fine (map f l) -> map f l = map (@Ok _) (map (fun a => hits_of_o (f a)) l) /\
  Forall (fun h => length h <> 1%nat) (map (fun a => hits_of_o (f a)) l).
Proof.
  induction l as [|a l IH]; intros H; cbn [map] in *; [split; [reflexivity|constructor]|]. inversion H as [|? ? (h & E & L) H2]; subst.
  destruct (IH H2) as [I1 I2]. rewrite E. cbn [hits_of_o]. split; [f_equal; exact I1|constructor; assumption].
Qed.

(** ---- one sweep ---- *)
Section Sweep.
Variable srt : sort_fn.
Variable A : Type.
Variable f : f64 -> A -> outcome (list f64).
Variable low upp : f64.
Hypothesis Hsrt : conforming srt.
Local Open Scope R_scope.
Definition line_clear (ar ob : list A) (c x : f64) : Prop :=
  fisnan x = false /\
  free_on_line (map (arena_pair low upp) (map (fun a => hits_of_o (f c a)) ar)) (map obstacle_pair (map (fun a => hits_of_o (f c a)) ob)) (fval x).
Lemma sweep_clear n ar ob lines t t' seg :
  tables_shape n (length ar) (length ob) t -> (length lines <= n)%nat ->
  compute_intersection low upp (fun c => map (f c) ar) (fun c => map (f c) ob) lines t = Ok t' ->
  compute_free_segment srt t' lines = Ok seg ->
  (forall c, In c lines -> arena_moderate (map (arena_pair low upp) (map (fun a => hits_of_o (f c a)) ar))) ->
  tables_shape n (length ar) (length ob) t' /\
  forall i c xs x, nth_error lines i = Some c -> nth_error (fxM seg) i = Some xs -> In x xs -> line_clear ar ob c x.
Proof.
  intros Sh Ln CI FS MO. pose proof (compute_intersection_fine _ _ _ _ _ _ _ CI) as FI.
  set (hA := fun c => map (fun a => hits_of_o (f c a)) ar). set (hO := fun c => map (fun a => hits_of_o (f c a)) ob).
  rewrite (ci_ext low upp _ _ (fun c => map (@Ok _) (hA c)) (fun c => map (@Ok _) (hO c))) in CI.
  2:{ intros c Hc. destruct (FI c Hc) as [F1 F2]. split; apply fine_map; assumption. }
  assert (HH : forall c', In c' lines -> length (hA c') = length ar /\ length (hO c') = length ob /\
     Forall (fun h => length h <> 1%nat) (hA c') /\ Forall (fun h => length h <> 1%nat) (hO c')).
  { intros c Hc. destruct (FI c Hc) as [F1 F2]. unfold hA, hO. rewrite !map_length. split; [reflexivity|]. split; [reflexivity|]. split; apply fine_map; assumption. }
  destruct (compute_intersection_spec n _ _ low upp hA hO lines t Sh Ln HH) as (t1 & E1 & Sh' & HL).
  rewrite CI in E1. injection E1 as <-. split; [exact Sh'|].
  intros i c xs x Hc Hx Ix.
  assert (NE : lines <> []) by (intros ->; destruct i; discriminate Hc).
  set (AA := fun i => match nth_error lines i with Some c => map (arena_pair low upp) (hA c) | None => [] end).
  set (OO := fun i => match nth_error lines i with Some c => map obstacle_pair (hO c) | None => [] end).
  destruct (compute_free_segment_spec srt Hsrt t' lines AA OO NE) as (seg' & rs & E2 & _ & _ & Lr & L1 & L2 & L3 & SP).
  { intros j Hj. destruct (nth_error lines j) as [c'|] eqn:Q; [|apply nth_error_None in Q; lia]. unfold AA, OO. rewrite Q.
    split; [exact (HL j c' Q)|]. split; [exact (MO c' (nth_error_In _ _ Q))|apply obstacle_pair_ordered]. }
  rewrite FS in E2. injection E2 as <-.
  assert (Hi : (i < length lines)%nat) by (apply nth_error_Some; rewrite Hc; discriminate).
  destruct (nth_error (fxL seg) i) as [ls|] eqn:Ql; [|apply nth_error_None in Ql; lia].
  destruct (nth_error (fxU seg) i) as [us|] eqn:Qu; [|apply nth_error_None in Qu; lia].
  destruct (nth_error rs i) as [r0|] eqn:Qr; [|apply nth_error_None in Qr; lia].
  destruct (SP i ls xs us r0 Ql Hx Qu Qr) as ((La & Lb & SF) & _).
  apply In_nth_error in Ix. destruct Ix as [k Hk]. assert (Hkl : (k < length xs)%nat) by (apply nth_error_Some; rewrite Hk; discriminate).
  destruct (nth_error ls k) as [l|] eqn:Kl; [|apply nth_error_None in Kl; lia].
  destruct (nth_error us k) as [u|] eqn:Ku; [|apply nth_error_None in Ku; lia].
  destruct (SF k l x u Kl Hk Ku) as ((_ & Nx & _ & Bx) & FR).
  split; [exact Nx|]. specialize (FR (fval x) Bx). unfold AA, OO in FR. rewrite Hc in FR. exact FR.
Qed.
End Sweep.

(** ---- the planar planner ---- *)
Lemma line_vertices_at mk ty xms v : In v (concat (line_vertices mk ty xms)) ->
  exists i y xm x, nth_error ty i = Some y /\ nth_error xms i = Some xm /\ In x xm /\ v = mk y x.
Proof.
  unfold line_vertices. intros H. apply in_concat in H. destruct H as (l & Hl & Hv). apply in_map_iff in Hl.
  destruct Hl as ([y xm] & <- & Hc). cbn [fst snd] in Hv. apply in_map_iff in Hv. destruct Hv as (x & <- & Hx).
  apply In_nth_error in Hc. destruct Hc as [i Hc]. exists i, y, xm, x.
  assert (Z : forall (a : list f64) (b : list (list f64)) k p, nth_error (combine a b) k = Some p -> nth_error a k = Some (fst p) /\ nth_error b k = Some (snd p)).
  { induction a as [|a0 a IH]; intros [|b0 b] [|k] p Hk; cbn [combine nth_error] in *; try discriminate Hk; [injection Hk as <-; auto|]. exact (IH b k p Hk). }
  destruct (Z _ _ _ _ Hc) as [Z1 Z2]. auto.
Qed.
Section Planar.
Variable E : env.
Notation st := (state E).
Variable fsr : robot_t E.
Variable ny : nat.
Variable l0 l1 l2 l3 : f64.
Let B := e_mink E fsr.
Hypothesis Hsrt : conforming (e_sort E).
Hypothesis Hl0 : nth_error (e_limits E) 0 = Some l0.
Hypothesis Hl1 : nth_error (e_limits E) 1 = Some l1.
Hypothesis Hl2 : nth_error (e_limits E) 2 = Some l2.
Hypothesis Hl3 : nth_error (e_limits E) 3 = Some l3.
Let lines := sweep_heights ny l2 l3.
Let lc := line_clear poly64 (hline_polygon F64) l0 l1 (barena B) (bobstacle B).
Hypothesis Hmod : forall c, In c lines -> arena_moderate (map (arena_pair l0 l1) (map (fun a => hits_of_o (hline_polygon F64 c a)) (barena B))).
Definition vclear (v : pose) : Prop := exists x y h, v = [x; y; h] /\ In y lines /\ lc y x.
Definition cinv (s : st) : Prop :=
  tables_shape ny (length (barena B)) (length (bobstacle B)) (p_tables s) /\ p_fsrobot s = fsr /\ p_refine s = false /\ p_numLineY s = ny /\
  Forall vclear (gvert (p_graph s)).
Lemma slice_cinv i (s s' : st) : cinv s -> construct_slice E i s = Ok s' -> cinv (record_slice E s').
Proof.
  intros (T & Fr & Rf & Ny & V) H. pose proof (slice_vertices E _ _ _ H) as (seg & plane & GV & _ & _ & _ & _ & (k0 & k1 & k2 & k3 & t & K0 & K1 & K2 & K3 & Ci & Fs & Fty) & _).
  pose proof (construct_slice_inv E _ _ _ H) as (h & t' & seg' & g1 & plane' & _ & _ & _ & _ & _ & Bd & (m0 & m1 & m2 & m3 & M0 & M1 & M2 & M3 & _ & Ci' & _) & Ht & _ & _ & E3 & E4 & _ & _ & E7 & _).
  rewrite Rf in Bd. destruct Bd as (Q1 & _ & Q2). rewrite Q2, Q1, Fr in Ci, Ci'. fold B in Ci, Ci'.
  rewrite Hl0 in K0, M0. rewrite Hl1 in K1, M1. rewrite Hl2 in K2, M2. rewrite Hl3 in K3, M3.
  injection K0 as <-. injection K1 as <-. injection K2 as <-. injection K3 as <-. injection M0 as <-. injection M1 as <-. injection M2 as <-. injection M3 as <-.
  assert (TT : t' = t) by (rewrite Ci in Ci'; injection Ci' as ->; reflexivity). rewrite TT in Ht. rewrite Ny in Ci, Fs, Fty. fold lines in Ci, Fs, Fty.
  destruct (sweep_clear (e_sort E) poly64 (hline_polygon F64) l0 l1 Hsrt ny (barena B) (bobstacle B) lines (p_tables s) t seg T) as [T' CL]; try assumption.
  { unfold lines, sweep_heights. rewrite map_length, seq_length. lia. }
  unfold cinv, record_slice. cbn [p_tables p_fsrobot p_refine p_numLineY p_graph]. rewrite Ht, E3, E4, E7.
  split; [exact T'|]. split; [exact Fr|]. split; [exact Rf|]. split; [exact Ny|].
  rewrite GV. apply Forall_app. split; [exact V|]. apply Forall_forall. intros v Hv. apply line_vertices_at in Hv.
  destruct Hv as (j & y & xm & x & N1 & N2 & N3 & ->). rewrite Fty in N1. exists x, y, (e_angle E (p_robot s')).
  split; [reflexivity|]. split; [exact (nth_error_In _ _ N1)|]. exact (CL j y xm x N1 N2 N3).
Qed.
Lemma build_cinv connect (s s' : st) : (forall s s', connect s = Ok s' -> exists g, s' = with_graph E s g /\ gvert g = gvert (p_graph s)) ->
  cinv s -> build_roadmap E connect s = Ok s' -> cinv s'.
Proof.
  intros CG I H. unfold build_roadmap in H. ob H s1 H1. apply CG in H. destruct H as (g & -> & V).
  assert (I1 : cinv s1).
  { apply (ofold_inv _ cinv) in H1; [exact H1|exact I|]. intros i a b _ Ia Hab. ob Hab c Hc. injection Hab as <-. exact (slice_cinv i a c Ia Hc). }
  destruct I1 as (T & Fr & Rf & Ny & Vc). unfold cinv, with_graph. cbn [p_tables p_fsrobot p_refine p_numLineY p_graph]. rewrite V. auto.
Qed.
Lemma search_cinv (s s' : st) : cinv s -> do_search E s = Ok s' -> cinv s'.
Proof. intros I H. apply do_search_inv in H. destruct H as (? & ? & r & _ & _ & _ & ->). exact I. Qed.
Lemma planned_cinv s0 s : reachable E s0 -> cinv s0 -> planned E s0 s -> reachable E s /\ cinv s.
Proof.
  intros R0 I0 H. induction H as [|s rounds s' r _ (R & I) H|s rnd rounds s' r _ (R & I) H]; [auto| |].
  - split; [exact (reach_plan E s rounds s' r R H)|]. pose proof (reachable_inv2 E s R) as (I2 & Hh & m & L).
    apply (plan_once E (connect_multi E) (connect_multi_grew E) m) in H; auto. destruct H as (s1 & H1 & H2 & _).
    apply (search_cinv s1); [|exact H2]. refine (build_cinv _ s s1 _ I H1). intros a b Hab. apply connect_multi_grew in Hab. destruct Hab as (g & G1 & _ & G2). eauto.
  - split; [exact (reach_plan_kc E s rnd rounds s' r R H)|]. pose proof (reachable_inv2 E s R) as (I2 & Hh & m & L).
    apply (plan_once E (kc_connect E [] rnd) (kc_grew E rnd) m) in H; auto. destruct H as (s1 & H1 & H2 & _).
    apply (search_cinv s1); [|exact H2]. refine (build_cinv _ s s1 _ I H1). intros a b Hab. apply (kc_grew E rnd) in Hab. destruct Hab as (g & G1 & _ & G2). eauto.
Qed.
Lemma construct_cinv robot nx s0 : construct E robot fsr nx ny (length (barena B)) (length (bobstacle B)) = Ok s0 -> cinv s0.
Proof.
  unfold construct. intros H. ob H a0 Ha0. ob H a1 Ha1. injection H as <-. unfold cinv. cbn [p_tables p_fsrobot p_refine p_numLineY p_graph].
  split; [apply setup_shape|]. split; [reflexivity|]. split; [reflexivity|]. split; [reflexivity|]. constructor.
Qed.
End Planar.

Local Open Scope R_scope.
Lemma not_between h0 h1 hs x : fisnan h0 = false -> fisnan h1 = false -> ~ obstructed (map obstacle_pair hs) x ->
  (exists rest, In (h0 :: h1 :: rest) hs) -> ~ (Rmin (fval h0) (fval h1) < x < Rmax (fval h0) (fval h1)).
Proof.
  intros N0 N1 NO (rest & I) [X1 X2]. apply NO. exists (Rmin (x - Rmin (fval h0) (fval h1)) (Rmax (fval h0) (fval h1) - x)).
  split; [apply Rmin_glb_lt; lra|]. intros y Hy. exists (obstacle_pair (h0 :: h1 :: rest)). split; [apply in_map; exact I|].
  cbn [obstacle_pair]. unfold numeric. cbn [fst snd]. rewrite ffmin_nan, ffmax_nan, N0, N1. split; [split; reflexivity|].
  rewrite ffmin_val, ffmax_val by assumption.
  pose proof (Rmin_l (x - Rmin (fval h0) (fval h1)) (Rmax (fval h0) (fval h1) - x)) as Y1.
  pose proof (Rmin_r (x - Rmin (fval h0) (fval h1)) (Rmax (fval h0) (fval h1) - x)) as Y2. apply Rabs_def2 in Hy. lra.
Qed.
Lemma within_arena low upp h0 h1 hs x : fisnan low = false -> fisnan upp = false -> fisnan h0 = false -> fisnan h1 = false ->
  (forall p, In p (map (arena_pair low upp) hs) -> numeric p -> fval (fst p) <= x <= fval (snd p)) ->
  (exists rest, In (h0 :: h1 :: rest) hs) ->
  Rmin (fval low) (Rmin (fval h0) (fval h1)) <= x <= Rmax (fval upp) (Rmax (fval h0) (fval h1)).
Proof.
  intros Nl Nu N0 N1 H (rest & I). specialize (H (arena_pair low upp (h0 :: h1 :: rest)) (in_map _ _ _ I)). cbn [arena_pair] in H.
  unfold numeric in H. cbn [fst snd] in H.
  assert (M0 : fisnan (ffmin h0 h1) = false) by (rewrite ffmin_nan, N0, N1; reflexivity).
  assert (M1 : fisnan (ffmax h0 h1) = false) by (rewrite ffmax_nan, N0, N1; reflexivity).
  assert (M2 : fisnan (ffmin low (ffmin h0 h1)) = false) by (rewrite ffmin_nan, Nl, M0; reflexivity).
  assert (M3 : fisnan (ffmax upp (ffmax h0 h1)) = false) by (rewrite ffmax_nan, Nu, M1; reflexivity).
  specialize (H (conj M2 M3)). rewrite !ffmin_val, !ffmax_val in H by assumption. exact H.
Qed.
Lemma moderate_pair low upp hs : fisnan low = false -> fisnan upp = false -> Rabs (fval low) <= bpow radix2 1022 -> Rabs (fval upp) <= bpow radix2 1022 ->
  (forall l h, In l hs -> In h l -> fisnan h = false /\ Rabs (fval h) <= bpow radix2 1022) -> arena_moderate (map (arena_pair low upp) hs).
Proof.
  intros Nl Nu Bl Bu H p Hp _. apply in_map_iff in Hp. destruct Hp as (l & <- & I). destruct l as [|h0 [|h1 rest]]; cbn [arena_pair fst snd]; [auto|auto|].
  destruct (H _ h0 I (or_introl eq_refl)) as [N0 B0]. destruct (H _ h1 I (or_intror (or_introl eq_refl))) as [N1 B1].
  assert (M0 : fisnan (ffmin h0 h1) = false) by (rewrite ffmin_nan, N0, N1; reflexivity).
  assert (M1 : fisnan (ffmax h0 h1) = false) by (rewrite ffmax_nan, N0, N1; reflexivity).
  rewrite !ffmin_val, !ffmax_val by assumption. unfold Rmin, Rmax. repeat destruct (Rle_dec _ _); auto.
Qed.
Lemma planar_clear (E : env) robot fsr nx ny s0 s l0 l1 l2 l3 : conforming (e_sort E) -> e_limits E = [l0; l1; l2; l3] ->
  fisnan l0 = false -> fisnan l1 = false -> Rabs (fval l0) <= bpow radix2 1022 -> Rabs (fval l1) <= bpow radix2 1022 ->
  let B := e_mink E fsr in
  (forall y, In y (sweep_heights ny l2 l3) -> moderate_arena2 B y) ->
  construct E robot fsr nx ny (length (barena B)) (length (bobstacle B)) = Ok s0 -> planned E s0 s ->
  forall v, In v (gvert (p_graph s)) -> exists x y h, v = [x; y; h] /\ In y (sweep_heights ny l2 l3) /\ fisnan x = false /\ clear2 B x y /\ in_arena2 B l0 l1 x y.
Proof.
  intros Hs Lm N0 N1 B0 B1 B MO C P v Hv.
  assert (Q0 : nth_error (e_limits E) 0 = Some l0) by (rewrite Lm; reflexivity). assert (Q1 : nth_error (e_limits E) 1 = Some l1) by (rewrite Lm; reflexivity).
  assert (Q2 : nth_error (e_limits E) 2 = Some l2) by (rewrite Lm; reflexivity). assert (Q3 : nth_error (e_limits E) 3 = Some l3) by (rewrite Lm; reflexivity).
  assert (HM : forall c, In c (sweep_heights ny l2 l3) -> arena_moderate (map (arena_pair l0 l1) (map (fun a => hits_of_o (hline_polygon F64 c a)) (barena B)))).
  { intros c Hc. apply moderate_pair; try assumption. intros l h Il Ih. apply in_map_iff in Il. destruct Il as (p & <- & Ip).
    destruct (hline_polygon F64 c p) as [hits| |] eqn:Q; cbn [hits_of_o] in Ih; try destruct Ih; exact (MO c Hc p hits h Ip Q Ih). }
  destruct (planned_cinv E fsr ny l0 l1 l2 l3 Hs Q0 Q1 Q2 Q3 HM s0 s) as [_ (_ & _ & _ & _ & VC)].
  - exact (reach_new E _ _ _ _ _ _ _ C).
  - exact (construct_cinv E fsr ny l0 l1 l2 l3 robot nx s0 C).
  - exact P.
  - rewrite Forall_forall in VC. destruct (VC v Hv) as (x & y & h & -> & Hy & (Nx & (_ & AR & OB))). exists x, y, h.
    split; [reflexivity|]. split; [exact Hy|]. split; [exact Nx|]. split.
    + intros p h0 h1 Ip (rest & Hh & M0 & M1). apply (not_between h0 h1 _ _ M0 M1 OB). exists rest. apply in_map_iff. exists p. rewrite Hh. auto.
    + intros p h0 h1 Ip (rest & Hh & M0 & M1). apply (within_arena l0 l1 h0 h1 _ _ N0 N1 M0 M1 AR). exists rest. apply in_map_iff. exists p. rewrite Hh. auto.
Qed.

