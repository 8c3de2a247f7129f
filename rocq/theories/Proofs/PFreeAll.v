(** computeFreeSegment as a whole: tables -> rows -> enhanced rows. *)
From Coq Require Import List Bool Arith Reals Lra Lia ZArith Permutation.
From Flocq Require Import Core.Core.
From Verif.Base Require Import Outcome Float64 FloatFacts.
From Verif.Model Require Import MInterval MFreeSpace.
From Verif.Spec Require Import SInterval SFreeSpace.
From Verif.Proofs Require Import PInterval PFreeSpace PEnhance PTables.
Import ListNotations.
Local Open Scope R_scope.
Local Opaque fval fdblmax ffmin ffmax fadd fdiv ftwo.

Lemma Forall2_len {A B} (P : A -> B -> Prop) l1 l2 : Forall2 P l1 l2 -> length l1 = length l2.
Proof. induction 1; simpl; auto. Qed.

Lemma combine_fst_snd {A B} (l : list (A * B)) : combine (map fst l) (map snd l) = l.
Proof. induction l as [|[a b] l IH]; simpl; f_equal; auto. Qed.

Section S.
Variable srt : sort_fn.
Hypothesis srt_ok : conforming srt.

Definition row_of (r : list itv) : row :=
  Row (map istart r) (map iend r) (map (fun i => mid (istart i) (iend i)) r).

Lemma triples_of r : triples (map istart r) (map (fun i => mid (istart i) (iend i)) r) (map iend r)
  = map (fun i => (istart i, mid (istart i) (iend i), iend i)) r.
Proof. induction r; simpl; f_equal; auto. Qed.

Lemma row_of_ok r : Forall itv_wf r -> increasing r ->
  (forall i, In i r -> fisfin (fadd (istart i) (iend i)) = true) -> row_ok (row_of r).
Proof.
  intros W I F. unfold row_ok, row_of; cbn [rL rU rM]. rewrite !map_length. split; [auto|]. split; [auto|].
  rewrite triples_of. split.
  - rewrite Forall_map. rewrite Forall_forall in *. intros i Hi. destruct (W i Hi) as [[N1 N2] Hle].
    destruct (mid_between (istart i) (iend i) (F i Hi) Hle) as [Fm Hm].
    unfold triple_ok, mid. repeat split; auto; try (apply finite_not_nan; auto); lra.
  - clear W F. induction r as [|a r IH]; [exact Logic.I|]. destruct r as [|b r]; [exact Logic.I|].
    destruct I as [I1 I2]. split; [exact I1|exact (IH I2)].
Qed.

Lemma free_row_spec t i A O : line_holds t i A O -> arena_moderate A -> obstacle_ordered O ->
  exists r, free_row srt t i = Ok (row_of r) /\ row_ok (row_of r) /\
    Forall itv_wf r /\ increasing r /\
    (forall x, covers r x -> free_on_line A O x) /\
    (forall x, in_double_range x -> free_on_line A O x -> covers r x).
Proof.
  intros (H1 & H2 & H3 & H4) HA HO.
  destruct (sweep_line_spec srt srt_ok t i _ _ _ _ H1 H2 H3 H4) as (r & E & W & I & S & C);
    rewrite ?map_length; auto.
  { rewrite combine_fst_snd. exact HO. }
  rewrite !combine_fst_snd in *.
  exists r. unfold free_row. rewrite E. cbn [obind]. split; [reflexivity|]. split; [|auto].
  apply row_of_ok; auto. intros j Hj. rewrite Forall_forall in W. destruct (W j Hj) as [[N1 N2] Hle].
  assert (Hs : free_on_line A O (fval (istart j))) by (apply S; exists j; split; auto; unfold inI; lra).
  assert (He : free_on_line A O (fval (iend j))) by (apply S; exists j; split; auto; unfold inI; lra).
  destruct Hs as ((p & Hp & Np) & Hs & _). destruct He as (_ & He & _).
  specialize (Hs p Hp Np). specialize (He p Hp Np). destruct (HA p Hp Np) as [B1 B2].
  apply Rabs_le_inv in B1. apply Rabs_le_inv in B2.
  apply fadd_no_overflow; auto; apply Rabs_le; lra.
Qed.

Lemma omap_rows t (ty : list f64) (A O : nat -> list (f64 * f64)) :
  (forall i, (i < length ty)%nat -> line_holds t i (A i) (O i) /\ arena_moderate (A i) /\ obstacle_ordered (O i)) ->
  exists rs, omap (free_row srt t) (seq 0 (length ty)) = Ok (map row_of rs) /\ length rs = length ty /\
    Forall row_ok (map row_of rs) /\
    (forall i r, nth_error rs i = Some r -> 
      Forall itv_wf r /\ increasing r /\
      (forall x, covers r x -> free_on_line (A i) (O i) x) /\
      (forall x, in_double_range x -> free_on_line (A i) (O i) x -> covers r x)).
Proof.
  intros H.
  assert (G : forall n k, (forall i, (k <= i < k + n)%nat -> line_holds t i (A i) (O i) /\ arena_moderate (A i) /\ obstacle_ordered (O i)) ->
    exists rs, omap (free_row srt t) (seq k n) = Ok (map row_of rs) /\ length rs = n /\
    Forall row_ok (map row_of rs) /\
    (forall i r, nth_error rs i = Some r -> 
      Forall itv_wf r /\ increasing r /\
      (forall x, covers r x -> free_on_line (A (k + i)%nat) (O (k + i)%nat) x) /\
      (forall x, in_double_range x -> free_on_line (A (k + i)%nat) (O (k + i)%nat) x -> covers r x))).
  { induction n as [|n IH]; intros k Hk.
    - exists []. simpl. repeat split; auto; destruct i; discriminate.
    - destruct (Hk k ltac:(lia)) as (L & M & Or).
      destruct (free_row_spec t k _ _ L M Or) as (r & E & Rk & W & I & S & C).
      destruct (IH (Datatypes.S k)) as (rs & Es & Ln & Rs & Hs). { intros; apply Hk; lia. }
      exists (r :: rs). cbn [seq omap]. rewrite E. cbn [obind]. rewrite Es. cbn [obind map].
      split; [reflexivity|]. split; [simpl; lia|]. split; [constructor; auto|].
      intros [|i] r0; simpl.
      + intros [= <-]. rewrite Nat.add_0_r. auto.
      + intros Hi. replace (k + Datatypes.S i)%nat with (Datatypes.S k + i)%nat by lia. auto. }
  destruct (G (length ty) 0%nat) as (rs & E & L & R & Hs). { intros; apply H; lia. }
  exists rs. auto.
Qed.

Lemma line_covers r0 r x : line_ok r0 r -> covered_by (rL r) (rU r) x -> covered_by (rL r0) (rU r0) x.
Proof.
  intros (L1 & L2 & H & _) (k & l & u & Hl & Hu & Hx).
  destruct (nth_error (rM r) k) as [m|] eqn:Em.
  - destruct (H k l m u Hl Em Hu) as (_ & k0 & l0 & u0 & A & B & C & D). exists k0, l0, u0. repeat split; auto; lra.
  - apply nth_error_None in Em. assert (X : nth_error (rL r) k <> None) by congruence. apply nth_error_Some in X. lia.
Qed.

Lemma covers_row_of r x : covers r x <-> covered_by (rL (row_of r)) (rU (row_of r)) x.
Proof.
  unfold covers, covered_by, row_of; cbn [rL rU]. split.
  - intros (i & Hi & Hx). apply In_nth_error in Hi. destruct Hi as [k Hk].
    exists k, (istart i), (iend i). rewrite !(map_nth_error _ _ _ Hk). auto.
  - intros (k & l & u & Hl & Hu & Hx). rewrite nth_error_map in Hl, Hu.
    destruct (nth_error r k) as [i|] eqn:E; [|discriminate]. simpl in *.
    injection Hl as <-. injection Hu as <-. exists i. split; [eapply nth_error_In; eauto|exact Hx].
Qed.

Lemma Forall2_nth_r {A B} (P : A -> B -> Prop) l1 l2 : Forall2 P l1 l2 -> forall i b,
  nth_error l2 i = Some b -> exists a, nth_error l1 i = Some a /\ P a b.
Proof.
  induction 1 as [|a b l1 l2 H F IH]; intros [|i] c; simpl; try discriminate.
  - intros [= <-]. eauto.
  - apply IH.
Qed.

Lemma compute_free_segment_spec t (ty : list f64) (A O : nat -> list (f64 * f64)) : ty <> [] ->
  (forall i, (i < length ty)%nat -> line_holds t i (A i) (O i) /\ arena_moderate (A i) /\ obstacle_ordered (O i)) ->
  exists seg rs, compute_free_segment srt t ty = Ok seg /\ fty seg = ty /\
    omap (free_row srt t) (seq 0 (length ty)) = Ok rs /\ length rs = length ty /\
    length (fxL seg) = length ty /\ length (fxM seg) = length ty /\ length (fxU seg) = length ty /\
    forall i ls ms us r0, nth_error (fxL seg) i = Some ls -> nth_error (fxM seg) i = Some ms ->
      nth_error (fxU seg) i = Some us -> nth_error rs i = Some r0 ->
      segments_free (A i) (O i) ls ms us /\
      (forall x, in_double_range x -> free_on_line (A i) (O i) x -> covered_by (rL r0) (rU r0) x) /\
      (exists P, Permutation ms (rM r0 ++ P) /\ Forall (in_segment_of r0) P).
Proof.
  intros Hne H. destruct (omap_rows t ty A O H) as (rs & E & L & R & Hs).
  unfold compute_free_segment. rewrite E. cbn [obind].
  destruct (map row_of rs) as [|r1 rest] eqn:Er.
  { destruct rs; [|discriminate]. destruct ty; [congruence|discriminate]. }
  rewrite <- Er in *. clear r1 rest Er.
  assert (Hen : exists out, enhance srt (map row_of rs) = Ok out /\ Forall2 line_ok (map row_of rs) out).
  { destruct rs as [|r rs]; [destruct ty; [congruence|discriminate]|].
    cbn [map]. apply enhance_spec; auto. }
  destruct Hen as (out & Eo & Fo). rewrite Eo. cbn [obind].
  assert (Lo : length out = length ty).
  { rewrite <- (Forall2_len _ _ _ Fo), map_length. exact L. }
  eexists; exists (map row_of rs). split; [reflexivity|]. cbn [fty fxL fxM fxU]. rewrite !map_length.
  split; [auto|]. split; [auto|]. split; [auto|]. split; [auto|]. split; [auto|]. split; [auto|].
  intros i ls ms us r0 Hl Hm Hu Hr.
  rewrite nth_error_map in Hl, Hm, Hu.
  destruct (nth_error out i) as [r|] eqn:Ei; [|discriminate]. simpl in *.
  injection Hl as <-. injection Hm as <-. injection Hu as <-.
  destruct (Forall2_nth_r _ _ _ Fo i r Ei) as (r0' & Hr0' & Lok). rewrite Hr in Hr0'. injection Hr0' as <-.
  rewrite nth_error_map in Hr. destruct (nth_error rs i) as [ri|] eqn:Eri; [|discriminate].
  simpl in Hr. injection Hr as <-. destruct (Hs i ri Eri) as (W & I & S & C).
  split; [|split].
  - pose proof Lok as (L1 & L2 & H3 & _). split; [auto|]. split; [auto|].
    intros k l m u Hl Hm Hu. destruct (H3 k l m u Hl Hm Hu) as (T & k0 & l0 & u0 & N1 & N2 & B1 & B2).
    split; auto. intros x Hx. apply S. apply covers_row_of. exists k0, l0, u0. repeat split; auto; lra.
  - intros x Hx Hf. apply covers_row_of. auto.
  - destruct Lok as (_ & _ & _ & P). exact P.
Qed.
End S.

(** -- pairs produced by computeIntersectionInterval -- *)
Lemma obstacle_pair_ordered hO : obstacle_ordered (map obstacle_pair hO).
Proof.
  intros p Hp [N1 N2]. apply in_map_iff in Hp. destruct Hp as (h & <- & _).
  destruct h as [|h0 [|h1 t]]; cbn [obstacle_pair fst snd] in *; try discriminate.
  rewrite ffmin_nan in N1.
  destruct (fisnan h0) eqn:E0, (fisnan h1) eqn:E1; try discriminate.
  - Local Transparent ffmin ffmax. unfold ffmin, ffmax. rewrite E0. lra.
  - unfold ffmin, ffmax. rewrite E0, E1. lra.
  - rewrite ffmin_val, ffmax_val by auto. pose proof (Rmin_l (fval h0) (fval h1)).
    pose proof (Rmax_l (fval h0) (fval h1)). lra.
Qed.

Lemma arena_pair_contains low upp h : fisnan low = false -> fisnan upp = false ->
  fisnan (fst (arena_pair low upp h)) = false /\ fisnan (snd (arena_pair low upp h)) = false /\
  fval (fst (arena_pair low upp h)) <= fval low /\ fval upp <= fval (snd (arena_pair low upp h)).
Proof.
  intros Nl Nu. destruct h as [|h0 [|h1 t]]; cbn [arena_pair fst snd]; try (repeat split; auto; lra).
  assert (G : forall a b, fisnan a = false -> fisnan (ffmin a b) = false /\ fval (ffmin a b) <= fval a).
  { intros a b Na. rewrite ffmin_nan, Na. split; [reflexivity|]. unfold ffmin. rewrite Na.
    destruct (fisnan b) eqn:Nb; [lra|]. destruct (fltb b a) eqn:E; [|lra]. apply fltb_val in E; auto. lra. }
  assert (G' : forall a b, fisnan a = false -> fisnan (ffmax a b) = false /\ fval a <= fval (ffmax a b)).
  { intros a b Na. rewrite ffmax_nan, Na. split; [reflexivity|]. unfold ffmax. rewrite Na.
    destruct (fisnan b) eqn:Nb; [lra|]. destruct (fltb a b) eqn:E; [|lra]. apply fltb_val in E; auto. lra. }
  destruct (G low (ffmin h0 h1) Nl). destruct (G' upp (ffmax h0 h1) Nu). auto.
Qed.
