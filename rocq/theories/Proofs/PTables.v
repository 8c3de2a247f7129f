(** computeIntersectionInterval: what the tables hold afterwards. *)
From Coq Require Import List Bool Arith Reals Lra Lia ZArith.
From Verif.Base Require Import Outcome Float64 FloatFacts.
From Verif.Model Require Import MInterval MFreeSpace.
From Verif.Spec Require Import SInterval SFreeSpace.
From Verif.Proofs Require Import PInterval PFreeSpace PEnhance.
Import ListNotations.
Local Opaque fval fdblmax ffmin ffmax.

Lemma nth_error_ext {A} (l : list A) : forall l', (forall j, nth_error l j = nth_error l' j) -> l = l'.
Proof.
  induction l as [|x t IH]; intros [|y t'] H; auto; try (specialize (H 0); discriminate).
  f_equal; [specialize (H 0); simpl in H; congruence|]. apply IH. intros j. exact (H (S j)).
Qed.

Definition cell (tbl : list (list f64)) (i j : nat) : option f64 :=
  match nth_error tbl i with Some r => nth_error r j | None => None end.

Lemma nth_In_len n w tbl i r : shape n w tbl -> nth_error tbl i = Some r -> length r = w.
Proof. intros [_ F] H. rewrite Forall_forall in F. apply F. eapply nth_error_In; eauto. Qed.

Lemma Forall_upd {A} (P : A -> Prop) l i a l' : upd l i a = Some l' -> Forall P l -> P a -> Forall P l'.
Proof.
  revert i l'; induction l as [|x t IH]; intros [|i] l'; simpl; try discriminate.
  - intros [= <-] F Ha. inversion F; constructor; auto.
  - destruct (upd t i a) as [t'|] eqn:E; [|discriminate]. intros [= <-] F Ha. inversion F; subst.
    constructor; auto. eapply IH; eauto.
Qed.

Lemma set_at2_spec n w tbl i j v : shape n w tbl -> (i < n)%nat -> (j < w)%nat ->
  exists tbl', set_at2 tbl i j v = Ok tbl' /\ shape n w tbl' /\
    (forall i' j', cell tbl' i' j' = if (Nat.eqb i' i && Nat.eqb j' j)%bool then Some v else cell tbl i' j').
Proof.
  intros Sh Hi Hj. pose proof Sh as [Ln F]. unfold set_at2.
  destruct (nth_error tbl i) as [r|] eqn:Er; [|apply nth_error_None in Er; lia].
  rewrite (proj2 (at_Ok _ _ _) Er). cbn [obind].
  pose proof (nth_In_len _ _ _ _ _ Sh Er) as Lr.
  destruct (upd_Some r j v ltac:(lia)) as [r' Hr']. unfold set_at at 1. rewrite Hr'. cbn [obind].
  destruct (upd_Some tbl i r' ltac:(lia)) as [tbl' Ht']. unfold set_at. rewrite Ht'.
  exists tbl'. split; [reflexivity|]. split.
  - split; [rewrite (upd_length _ _ _ _ Ht'); auto|].
    eapply Forall_upd; eauto. simpl. rewrite (upd_length _ _ _ _ Hr'); auto.
  - intros i' j'. unfold cell. rewrite (upd_nth_error _ _ _ _ Ht').
    destruct (Nat.eqb_spec i' i) as [->|]; simpl; auto.
    rewrite (upd_nth_error _ _ _ _ Hr'). rewrite Er. reflexivity.
Qed.

Lemma set_at2_throw n w tbl i j v : shape n w tbl -> (n <= i)%nat ->
  set_at2 tbl i j v = Throw OutOfRange.
Proof. intros [L _] H. unfold set_at2. rewrite at_throw by lia. reflexivity. Qed.

Section Two.
(** The two loops have the same structure: a column-by-column update of a pair of
    tables. *)
Variables (n w : nat) (i : nat).
Variable entry : list f64 -> outcome (f64 * f64).
Variable pairof : list f64 -> f64 * f64.
Hypothesis entry_ok : forall h, length h <> 1%nat -> entry h = Ok (pairof h).
Variable get : tables -> list (list f64) * list (list f64).
Variable setp : tables -> nat -> nat -> f64 * f64 -> outcome tables.
Variable other : tables -> list (list f64) * list (list f64).
Hypothesis setp_ok : forall t j lu, shape n w (fst (get t)) -> shape n w (snd (get t)) ->
  (i < n)%nat -> (j < w)%nat ->
  exists t', setp t i j lu = Ok t' /\ other t' = other t /\
    shape n w (fst (get t')) /\ shape n w (snd (get t')) /\
    (forall i' j', cell (fst (get t')) i' j' = if (Nat.eqb i' i && Nat.eqb j' j)%bool then Some (fst lu) else cell (fst (get t)) i' j') /\
    (forall i' j', cell (snd (get t')) i' j' = if (Nat.eqb i' i && Nat.eqb j' j)%bool then Some (snd lu) else cell (snd (get t)) i' j').

Lemma column_loop (Hi : (i < n)%nat) hs : forall k t, shape n w (fst (get t)) -> shape n w (snd (get t)) ->
  (k + length hs <= w)%nat -> Forall (fun h => length h <> 1%nat) hs ->
  exists t', ofold (fun t '(j, h) => obind h (fun hits => obind (entry hits) (fun lu => setp t i j lu)))
      (combine (seq k (length hs)) (map (@Ok _) hs)) t = Ok t' /\ other t' = other t /\
    shape n w (fst (get t')) /\ shape n w (snd (get t')) /\
    (forall i' j', cell (fst (get t')) i' j' =
       match nth_error hs (j' - k) with
       | Some h => if (Nat.eqb i' i && Nat.leb k j')%bool then Some (fst (pairof h)) else cell (fst (get t)) i' j'
       | None => cell (fst (get t)) i' j' end) /\
    (forall i' j', cell (snd (get t')) i' j' =
       match nth_error hs (j' - k) with
       | Some h => if (Nat.eqb i' i && Nat.leb k j')%bool then Some (snd (pairof h)) else cell (snd (get t)) i' j'
       | None => cell (snd (get t)) i' j' end).
Proof.
  induction hs as [|h hs IH]; intros k t S1 S2 Hk F.
  - exists t. simpl. repeat split; auto; try apply S1; try apply S2; intros; destruct (j' - k)%nat; reflexivity.
  - inversion F as [|? ? Hh F']; subst. simpl in Hk.
    cbn [length seq map combine ofold obind]. rewrite (entry_ok h Hh). cbn [obind].
    destruct (setp_ok t k (pairof h) S1 S2 Hi ltac:(lia)) as (t1 & E1 & O1 & S1' & S2' & C1 & C2).
    rewrite E1. cbn [obind].
    destruct (IH (S k) t1 S1' S2' ltac:(lia) F') as (t2 & E2 & O2 & S1'' & S2'' & D1 & D2).
    exists t2. split; [exact E2|]. split; [congruence|]. split; [auto|]. split; [auto|].
    assert (X : forall (c2 c1 c0 : nat -> nat -> option f64) (sel : f64 * f64 -> f64),
       (forall i' j', c2 i' j' = match nth_error hs (j' - S k) with
          | Some h => if (Nat.eqb i' i && Nat.leb (S k) j')%bool then Some (sel (pairof h)) else c1 i' j'
          | None => c1 i' j' end) ->
       (forall i' j', c1 i' j' = if (Nat.eqb i' i && Nat.eqb j' k)%bool then Some (sel (pairof h)) else c0 i' j') ->
       forall i' j', c2 i' j' = match nth_error (h :: hs) (j' - k) with
          | Some h => if (Nat.eqb i' i && Nat.leb k j')%bool then Some (sel (pairof h)) else c0 i' j'
          | None => c0 i' j' end).
    { intros c2 c1 c0 sel Hc2 Hc1 i' j'. rewrite Hc2, Hc1.
      destruct (Nat.eqb_spec i' i) as [->|]; cbn [andb].
      2:{ destruct (nth_error hs (j' - S k)), (nth_error (h :: hs) (j' - k)); reflexivity. }
      destruct (Nat.eqb_spec j' k) as [->|Hne].
      - rewrite Nat.sub_diag. cbn [nth_error]. rewrite Nat.leb_refl.
        replace (Nat.leb (S k) k) with false by (symmetry; apply Nat.leb_gt; lia).
        destruct (nth_error hs (k - S k)); reflexivity.
      - destruct (Nat.leb_spec (S k) j').
        + replace (j' - k)%nat with (S (j' - S k)) by lia. cbn [nth_error].
          destruct (Nat.leb_spec k j'); [|lia]. destruct (nth_error hs (j' - S k)); reflexivity.
        + destruct (Nat.leb_spec k j'); [lia|].
          destruct (nth_error hs (j' - S k)), (nth_error (h :: hs) (j' - k)); reflexivity. }
    split.
    + apply (X _ (cell (fst (get t1))) _ fst); auto.
    + apply (X _ (cell (snd (get t1))) _ snd); auto.
Qed.
End Two.

Lemma arena_entry_ok low upp h : length h <> 1%nat -> arena_entry low upp h = Ok (arena_pair low upp h).
Proof. destruct h as [|h0 [|h1 t]]; simpl; auto. congruence. Qed.
Lemma obstacle_entry_ok h : length h <> 1%nat -> obstacle_entry h = Ok (obstacle_pair h).
Proof. destruct h as [|h0 [|h1 t]]; simpl; auto. congruence. Qed.

Lemma row_from_cells n w tbl i (vals : list f64) : shape n w tbl -> (i < n)%nat -> length vals = w ->
  (forall j, (j < w)%nat -> cell tbl i j = nth_error vals j) -> nth_error tbl i = Some vals.
Proof.
  intros Sh Hi L H. unfold cell in H.
  destruct (nth_error tbl i) as [r|] eqn:E.
  - pose proof (nth_In_len _ _ _ _ _ Sh E) as Lr. f_equal. apply nth_error_ext. intros j.
    destruct (Nat.lt_ge_cases j w) as [Hj|Hj]; [apply H; auto|].
    rewrite (proj2 (nth_error_None r j)), (proj2 (nth_error_None vals j)) by lia. reflexivity.
  - apply nth_error_None in E. destruct Sh. lia.
Qed.

Lemma other_rows n w tbl tbl' i : shape n w tbl -> shape n w tbl' ->
  (forall j, cell tbl' i j = cell tbl i j) -> nth_error tbl' i = nth_error tbl i.
Proof.
  intros [L F] [L' F'] H. unfold cell in H.
  destruct (nth_error tbl i) as [r|] eqn:E, (nth_error tbl' i) as [r'|] eqn:E'; auto.
  - f_equal. apply nth_error_ext. auto.
  - apply nth_error_None in E'. assert (X : nth_error tbl i <> None) by congruence. apply nth_error_Some in X. lia.
  - apply nth_error_None in E. assert (X : nth_error tbl' i <> None) by congruence. apply nth_error_Some in X. lia.
Qed.

Lemma intersect_line_spec n na no low upp i hA hO t :
  tables_shape n na no t -> (i < n)%nat -> length hA = na -> length hO = no ->
  Forall (fun h => length h <> 1%nat) hA -> Forall (fun h => length h <> 1%nat) hO ->
  exists t', intersect_line low upp i (map (@Ok _) hA) (map (@Ok _) hO) t = Ok t' /\
    tables_shape n na no t' /\
    line_holds t' i (map (arena_pair low upp) hA) (map obstacle_pair hO) /\
    (forall i', i' <> i -> nth_error (arenaLow t') i' = nth_error (arenaLow t) i' /\
       nth_error (arenaUpp t') i' = nth_error (arenaUpp t) i' /\
       nth_error (obstacleLow t') i' = nth_error (obstacleLow t) i' /\
       nth_error (obstacleUpp t') i' = nth_error (obstacleUpp t) i').
Proof.
  intros (S1 & S2 & S3 & S4) Hi LA LO FA FO. unfold intersect_line. rewrite !map_length.
  destruct (column_loop n na i (arena_entry low upp) (arena_pair low upp) (arena_entry_ok low upp)
     (fun t => (arenaLow t, arenaUpp t)) set_arena (fun t => (obstacleLow t, obstacleUpp t)))
     with (hs := hA) (k := 0%nat) (t := t) as (t1 & E1 & O1 & A1 & A2 & C1 & C2); cbn [fst snd]; auto; try lia.
  { cbn [fst snd]. intros t0 j lu H1 H2 _ Hj. unfold set_arena.
    destruct (set_at2_spec n na (arenaLow t0) i j (fst lu) H1 Hi Hj) as (l' & -> & Sl & Cl).
    destruct (set_at2_spec n na (arenaUpp t0) i j (snd lu) H2 Hi Hj) as (u' & -> & Su & Cu).
    cbn [obind]. eexists. split; [reflexivity|]. cbn. auto. }
  cbn [fst snd] in *. rewrite E1. cbn [obind].
  destruct t1 as [al au ol ou]. cbn [arenaLow arenaUpp obstacleLow obstacleUpp] in *. injection O1 as -> ->.
  destruct (column_loop n no i obstacle_entry obstacle_pair obstacle_entry_ok
     (fun t => (obstacleLow t, obstacleUpp t)) set_obstacle (fun t => (arenaLow t, arenaUpp t)))
     with (hs := hO) (k := 0%nat) (t := Tables al au (obstacleLow t) (obstacleUpp t))
     as (t2 & E2 & O2 & B1 & B2 & D1 & D2); cbn [fst snd arenaLow arenaUpp obstacleLow obstacleUpp]; auto; try lia.
  { cbn [fst snd]. intros t0 j lu H1 H2 _ Hj. unfold set_obstacle.
    destruct (set_at2_spec n no (obstacleLow t0) i j (fst lu) H1 Hi Hj) as (l' & -> & Sl & Cl).
    destruct (set_at2_spec n no (obstacleUpp t0) i j (snd lu) H2 Hi Hj) as (u' & -> & Su & Cu).
    cbn [obind]. eexists. split; [reflexivity|]. cbn. auto. }
  cbn [fst snd] in *. rewrite E2. exists t2. split; [reflexivity|].
  destruct t2 as [al2 au2 ol2 ou2]. cbn [arenaLow arenaUpp obstacleLow obstacleUpp] in *. injection O2 as -> ->.
  split; [split; [|split; [|split]]; cbn; auto|].
  assert (Row : forall w tbl' (c0 : nat -> nat -> option f64) (hs : list (list f64)) (sel : f64 * f64 -> f64) pairof,
     shape n w tbl' -> length hs = w ->
     (forall i' j', cell tbl' i' j' = match nth_error hs (j' - 0) with
        | Some h => if (Nat.eqb i' i && Nat.leb 0 j')%bool then Some (sel (pairof h)) else c0 i' j'
        | None => c0 i' j' end) -> nth_error tbl' i = Some (map sel (map pairof hs))).
  { intros w tbl' c0 hs sel pairof Sh L H. apply (row_from_cells n w); auto; [rewrite !map_length; auto|].
    intros j Hj. rewrite H, Nat.sub_0_r, Nat.eqb_refl. cbn [andb Nat.leb].
    destruct (nth_error hs j) as [h|] eqn:E; [|apply nth_error_None in E; lia].
    symmetry. rewrite map_map. rewrite (map_nth_error _ _ _ E). reflexivity. }
  assert (Oth : forall w tbl tbl' (hs : list (list f64)) (sel : f64 * f64 -> f64) pairof, shape n w tbl -> shape n w tbl' ->
     (forall i' j', cell tbl' i' j' = match nth_error hs (j' - 0) with
        | Some h => if (Nat.eqb i' i && Nat.leb 0 j')%bool then Some (sel (pairof h)) else cell tbl i' j'
        | None => cell tbl i' j' end) -> forall i', i' <> i -> nth_error tbl' i' = nth_error tbl i').
  { intros w tbl tbl' hs sel pairof Sh Sh' H i' Hne. apply (other_rows n w); auto.
    intros j. rewrite H. destruct (Nat.eqb_spec i' i); [contradiction|]. cbn [andb].
    destruct (nth_error hs (j - 0)); reflexivity. }
  split.
  - unfold line_holds; cbn [arenaLow arenaUpp obstacleLow obstacleUpp].
    split; [eapply Row; eauto|]. split; [eapply Row; eauto|]. split; eapply Row; eauto.
  - intros i' Hne. cbn [arenaLow arenaUpp obstacleLow obstacleUpp].
    split; [eapply (Oth na (arenaLow t)); eauto|]. split; [eapply (Oth na (arenaUpp t)); eauto|].
    split; [eapply (Oth no (obstacleLow t)); eauto|eapply (Oth no (obstacleUpp t)); eauto].
Qed.

(** All lines, from any previous table contents of the right shape. *)
Lemma compute_intersection_spec n na no low upp (hA hO : f64 -> list (list f64)) :
  forall lines t, tables_shape n na no t -> (length lines <= n)%nat ->
  (forall c, In c lines -> length (hA c) = na /\ length (hO c) = no /\
     Forall (fun h => length h <> 1%nat) (hA c) /\ Forall (fun h => length h <> 1%nat) (hO c)) ->
  exists t', compute_intersection low upp (fun c => map (@Ok _) (hA c)) (fun c => map (@Ok _) (hO c)) lines t = Ok t' /\
    tables_shape n na no t' /\
    (forall i c, nth_error lines i = Some c ->
       line_holds t' i (map (arena_pair low upp) (hA c)) (map obstacle_pair (hO c))).
Proof.
  unfold compute_intersection. intros lines.
  assert (G : forall ls k t, tables_shape n na no t -> (k + length ls <= n)%nat ->
     (forall c, In c ls -> length (hA c) = na /\ length (hO c) = no /\
       Forall (fun h => length h <> 1%nat) (hA c) /\ Forall (fun h => length h <> 1%nat) (hO c)) ->
     exists t', ofold (fun t '(i, c) => intersect_line low upp i (map (@Ok _) (hA c)) (map (@Ok _) (hO c)) t)
        (combine (seq k (length ls)) ls) t = Ok t' /\ tables_shape n na no t' /\
       (forall i c, nth_error ls i = Some c ->
          line_holds t' (k + i) (map (arena_pair low upp) (hA c)) (map obstacle_pair (hO c))) /\
       (forall i', (i' < k)%nat -> nth_error (arenaLow t') i' = nth_error (arenaLow t) i' /\
         nth_error (arenaUpp t') i' = nth_error (arenaUpp t) i' /\
         nth_error (obstacleLow t') i' = nth_error (obstacleLow t) i' /\
         nth_error (obstacleUpp t') i' = nth_error (obstacleUpp t) i')).
  { induction ls as [|c ls IH]; intros k t Sh Hk H.
    - exists t. simpl. split; [auto|]. split; [auto|]. split; [intros [|]; discriminate|auto].
    - simpl in Hk. destruct (H c (or_introl eq_refl)) as (LA & LO & FA & FO).
      destruct (intersect_line_spec n na no low upp k (hA c) (hO c) t Sh ltac:(lia) LA LO FA FO)
        as (t1 & E1 & Sh1 & H1 & K1).
      destruct (IH (S k) t1 Sh1 ltac:(lia)) as (t2 & E2 & Sh2 & H2 & K2). { intros; apply H; right; auto. }
      exists t2. cbn [length seq combine ofold]. rewrite E1. cbn [obind]. split; [exact E2|]. split; [auto|].
      split.
      + intros [|i] c'; simpl.
        * intros [= <-]. rewrite Nat.add_0_r. destruct (K2 k ltac:(lia)) as (X1 & X2 & X3 & X4).
          destruct H1 as (Y1 & Y2 & Y3 & Y4). unfold line_holds. rewrite X1, X2, X3, X4. auto.
        * intros Hc. replace (k + S i)%nat with (S k + i)%nat by lia. auto.
      + intros i' Hi'. destruct (K2 i' ltac:(lia)) as (X1 & X2 & X3 & X4).
        destruct (K1 i' ltac:(lia)) as (Y1 & Y2 & Y3 & Y4). rewrite X1, X2, X3, X4. auto. }
  intros t Sh Hl H. destruct (G lines 0%nat t Sh ltac:(lia) H) as (t' & E & Sh' & Hh & _).
  exists t'. auto.
Qed.

(** The initial tables. *)
Lemma setup_shape n low upp na no : tables_shape n na no (setup n low upp na no tables0).
Proof.
  unfold setup, tables0, resize; cbn [arenaLow arenaUpp obstacleLow obstacleUpp length].
  rewrite !firstn_nil, Nat.sub_0_r. cbn [app].
  repeat split; cbn; rewrite ?repeat_length; auto; apply Forall_forall; intros x Hx;
    apply repeat_spec in Hx; subst; apply repeat_length.
Qed.

(** -- well-definedness iff no boundary is hit exactly once -- *)
Lemma entries_UB_arena low upp h : length h = 1%nat -> arena_entry low upp h = UB.
Proof. destruct h as [|h0 [|h1 t]]; simpl; try discriminate; auto. Qed.
Lemma entries_UB_obstacle h : length h = 1%nat -> obstacle_entry h = UB.
Proof. destruct h as [|h0 [|h1 t]]; simpl; try discriminate; auto. Qed.

Lemma first_bad (P : list f64 -> Prop) (dec : forall h, {P h} + {~ P h}) hs :
  Forall P hs \/ exists a b c, hs = a ++ b :: c /\ Forall P a /\ ~ P b.
Proof.
  induction hs as [|h hs [F|(a & b & c & -> & F & N)]]; [auto| |]; destruct (dec h) as [D|D]; auto.
  - right. exists [], h, hs. auto.
  - right. exists (h :: a), b, c. auto.
  - right. exists [], h, (a ++ b :: c). auto.
Qed.

Lemma combine_app {A B} (l1 l2 : list A) (m1 m2 : list B) : length l1 = length m1 ->
  combine (l1 ++ l2) (m1 ++ m2) = combine l1 m1 ++ combine l2 m2.
Proof. revert m1; induction l1 as [|x l1 IH]; intros [|y m1]; simpl; try discriminate; auto. intros; f_equal; auto. Qed.

Definition not1 (h : list f64) : Prop := length h <> 1%nat.
Lemma not1_dec h : {not1 h} + {~ not1 h}.
Proof. unfold not1. destruct (Nat.eq_dec (length h) 1); [right; lia|left; lia]. Qed.

Lemma intersect_line_UB n na no low upp i hA hO t :
  tables_shape n na no t -> (i < n)%nat -> length hA = na -> length hO = no ->
  ~ (Forall not1 hA /\ Forall not1 hO) ->
  intersect_line low upp i (map (@Ok _) hA) (map (@Ok _) hO) t = UB.
Proof.
  intros (S1 & S2 & S3 & S4) Hi LA LO Hbad. unfold intersect_line. rewrite !map_length.
  assert (SA : forall t0 j lu, shape n na (arenaLow t0) -> shape n na (arenaUpp t0) ->
      (i < n)%nat -> (j < na)%nat ->
      exists t', set_arena t0 i j lu = Ok t' /\ (obstacleLow t', obstacleUpp t') = (obstacleLow t0, obstacleUpp t0) /\
      shape n na (arenaLow t') /\ shape n na (arenaUpp t') /\
      (forall i' j', cell (arenaLow t') i' j' = if (Nat.eqb i' i && Nat.eqb j' j)%bool then Some (fst lu) else cell (arenaLow t0) i' j') /\
      (forall i' j', cell (arenaUpp t') i' j' = if (Nat.eqb i' i && Nat.eqb j' j)%bool then Some (snd lu) else cell (arenaUpp t0) i' j')).
  { intros t0 j lu H1 H2 _ Hj. unfold set_arena.
    destruct (set_at2_spec n na (arenaLow t0) i j (fst lu) H1 Hi Hj) as (l' & -> & Sl & Cl).
    destruct (set_at2_spec n na (arenaUpp t0) i j (snd lu) H2 Hi Hj) as (u' & -> & Su & Cu).
    cbn [obind]. eexists. split; [reflexivity|]. cbn. auto. }
  assert (SO : forall t0 j lu, shape n no (obstacleLow t0) -> shape n no (obstacleUpp t0) ->
      (i < n)%nat -> (j < no)%nat ->
      exists t', set_obstacle t0 i j lu = Ok t' /\ (arenaLow t', arenaUpp t') = (arenaLow t0, arenaUpp t0) /\
      shape n no (obstacleLow t') /\ shape n no (obstacleUpp t') /\
      (forall i' j', cell (obstacleLow t') i' j' = if (Nat.eqb i' i && Nat.eqb j' j)%bool then Some (fst lu) else cell (obstacleLow t0) i' j') /\
      (forall i' j', cell (obstacleUpp t') i' j' = if (Nat.eqb i' i && Nat.eqb j' j)%bool then Some (snd lu) else cell (obstacleUpp t0) i' j')).
  { intros t0 j lu H1 H2 _ Hj. unfold set_obstacle.
    destruct (set_at2_spec n no (obstacleLow t0) i j (fst lu) H1 Hi Hj) as (l' & -> & Sl & Cl).
    destruct (set_at2_spec n no (obstacleUpp t0) i j (snd lu) H2 Hi Hj) as (u' & -> & Su & Cu).
    cbn [obind]. eexists. split; [reflexivity|]. cbn. auto. }
  destruct (first_bad not1 not1_dec hA) as [FA|(a & b & c & -> & F & N)].
  - destruct (column_loop n na i (arena_entry low upp) (arena_pair low upp) (arena_entry_ok low upp)
     (fun t => (arenaLow t, arenaUpp t)) set_arena (fun t => (obstacleLow t, obstacleUpp t)) SA)
     with (hs := hA) (k := 0%nat) (t := t) as (t1 & E1 & O1 & _); cbn [fst snd]; auto; try lia.
    cbn [fst snd] in *. rewrite E1. cbn [obind]. injection O1 as O1 O2.
    destruct (first_bad not1 not1_dec hO) as [FO|(a & b & c & -> & F & N)]; [tauto|].
    rewrite app_length in LO. simpl in LO. rewrite map_app, app_length, seq_app.
    rewrite combine_app by (rewrite seq_length, map_length; auto).
    rewrite ofold_app.
    destruct (column_loop n no i obstacle_entry obstacle_pair obstacle_entry_ok
     (fun t => (obstacleLow t, obstacleUpp t)) set_obstacle (fun t => (arenaLow t, arenaUpp t)) SO)
     with (hs := a) (k := 0%nat) (t := t1) as (t2 & E2 & _); cbn [fst snd]; auto; try lia; try (rewrite ?O1, ?O2; auto).
    rewrite E2. cbn [obind length seq map combine ofold]. rewrite (entries_UB_obstacle b); [reflexivity|].
    unfold not1 in N. lia.
  - rewrite app_length in LA. simpl in LA. rewrite map_app, app_length, seq_app.
    rewrite combine_app by (rewrite seq_length, map_length; auto).
    rewrite ofold_app.
    destruct (column_loop n na i (arena_entry low upp) (arena_pair low upp) (arena_entry_ok low upp)
     (fun t => (arenaLow t, arenaUpp t)) set_arena (fun t => (obstacleLow t, obstacleUpp t)) SA)
     with (hs := a) (k := 0%nat) (t := t) as (t2 & E2 & _); cbn [fst snd]; auto; try lia.
    rewrite E2. cbn [obind length seq map combine ofold]. rewrite (entries_UB_arena low upp b); [reflexivity|].
    unfold not1 in N. lia.
Qed.
