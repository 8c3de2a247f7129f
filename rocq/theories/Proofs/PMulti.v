(** Robots of several bodies: placing them and their Minkowski samples. *)
From Coq Require Import List Reals ZArith Arith Bool Lia Lra Psatz.
From Verif.Base Require Import Outcome.
From Verif.Model Require Import MGeom MMultiBody.
From Verif.Spec Require Import SGeom SRigid.
From Verif.Proofs Require Import PGeom PGeom2 PGeom3 PRot.
Import ListNotations.
Local Open Scope outcome_scope.
Local Open Scope R_scope.

Lemma f2_length {A B} (P : A -> B -> Prop) l m : Forall2 P l m -> length l = length m.
Proof. induction 1; cbn; congruence. Qed.
(** ---- the plane ---- *)
(** What a robot of a history looks like: every link keeps its shape and recorded transform. *)
Definition link_ok2 (l0 : sellipse) (lt : sellipse * tf2) : Prop :=
  same_shape2 (fst lt) l0 /\ snd lt = (rot2 (se_angle l0), given_pos2 l0) /\ (2 <= length (se_pos l0))%nat.
Definition built2 (base : sellipse) (ls : list sellipse) (m : mb2) : Prop :=
  same_shape2 (mb2_base m) base /\ Forall2 link_ok2 ls (mb2_links m).
Lemma same_pose2 s t g : same_shape2 s t -> same_shape2 (pose2 s g) t.
Proof. intros H. exact H. Qed.
Lemma built_tf2 base ls m g : built2 base ls m -> built2 base ls (robot_tf2 m g).
Proof.
  intros [B L]. split; [exact B|]. cbn. induction L as [|l0 lt ls' lts H _ IH]; [constructor|].
  cbn. constructor; [|exact IH]. destruct H as (H1 & H2 & H3). split; [exact H1|]. split; assumption.
Qed.
Lemma idx_nth {A} (l : list A) i a d : idx l i = Ok a -> nth i l d = a /\ (i < length l)%nat.
Proof.
  intros H. apply idx_Ok in H. split; [apply nth_error_nth with (1 := H)|]. apply nth_error_Some. rewrite H. discriminate.
Qed.
Lemma built_add2 base ls m l m' : built2 base ls m -> add_body2 m l = Ok m' -> built2 base (ls ++ [l]) m'.
Proof.
  intros [B L] H. unfold add_body2 in H.
  destruct (idx (se_pos l) 0) as [x| |] eqn:X; cbn [obind] in H; try discriminate H.
  destruct (idx (se_pos l) 1) as [y| |] eqn:Y; cbn [obind] in H; try discriminate H.
  injection H as <-. split; [exact B|]. cbn. apply Forall2_app; [exact L|]. constructor; [|constructor].
  destruct (idx_nth _ _ _ 0 X) as [E1 _]. destruct (idx_nth _ _ _ 0 Y) as [E2 L2].
  split; [repeat split|]. split; [|lia]. cbn. unfold given_pos2. rewrite E1, E2. reflexivity.
Qed.
Lemma built_calls2 base cs ls m m' : built2 base ls m -> calls2 m cs = Ok m' -> built2 base (ls ++ added2 cs) m'.
Proof.
  revert ls m. induction cs as [|c cs IH]; intros ls m B H; cbn in *.
  - injection H as <-. rewrite app_nil_r. exact B.
  - destruct (do_call2 m c) as [m1| |] eqn:E; cbn [obind] in H; try discriminate H.
    destruct c as [l|g]; cbn in E |- *.
    + specialize (IH (ls ++ [l]) m1 (built_add2 base ls m l m1 B E) H). rewrite <- app_assoc in IH. exact IH.
    + injection E as <-. exact (IH ls (robot_tf2 m g) (built_tf2 base ls m g B) H).
Qed.
Lemma built_new2 base : built2 base [] (new_mb2 base).
Proof. split; [repeat split|constructor]. Qed.
Lemma pose2_stands s g : rigid2 g -> stands2 (pose2 s g) (fst g) (snd g).
Proof. intros R. split; [reflexivity|]. apply heading_heads. exact R. Qed.
Lemma built_stands2 base ls m g : built2 base ls m -> rigid2 g ->
  stands2 (mb2_base (robot_tf2 m g)) (fst g) (snd g) /\
  Forall2 (fun l0 lt => same_shape2 (fst lt) l0 /\ stands2 (fst lt) (mul2 (fst g) (turning (se_angle l0))) (move2 g (given_pos2 l0)))
    ls (mb2_links (robot_tf2 m g)).
Proof.
  intros [B L] R. split; [exact (pose2_stands (mb2_base m) g R)|]. cbn.
  induction L as [|l0 lt ls' lts H _ IH]; [constructor|]. cbn. constructor; [|exact IH].
  destruct H as (H1 & H2 & _). split; [exact H1|]. cbn [fst]. rewrite H2.
  change (move2 g (given_pos2 l0)) with (snd (comp2 g (rot2 (se_angle l0), given_pos2 l0))).
  apply (pose2_stands (fst lt) (comp2 g (rot2 (se_angle l0), given_pos2 l0))). unfold rigid2. cbn [fst comp2].
  apply rotation2_mul; [exact R|apply rot2_rotation].
Qed.

(** ---- space ---- *)
Definition link_ok3 (l0 : squad) (lt : squad * tf3) : Prop :=
  same_shape3 (fst lt) l0 /\ snd lt = (rotm (sq_quat l0), given_pos3 l0).
Definition built3 (base : squad) (ls : list squad) (m : mb3) : Prop :=
  same_shape3 (mb3_base m) base /\ Forall2 link_ok3 ls (mb3_links m).
Lemma pose3_shape s g s' : pose3 s g = Some s' -> same_shape3 s' s.
Proof. unfold pose3. destruct (quat_of (fst g)); cbn [obnd]; intros H; [injection H as <-; repeat split|discriminate H]. Qed.
Lemma same_trans3 a b c : same_shape3 a b -> same_shape3 b c -> same_shape3 a c.
Proof. intros (A1 & A2 & A3) (B1 & B2 & B3). repeat split; congruence. Qed.
Lemma pose_links_ok g kdl i ls lts lts' : Forall2 link_ok3 ls lts -> pose_links g kdl i lts = Some lts' -> Forall2 link_ok3 ls lts'.
Proof.
  intros L. revert i lts'. induction L as [|l0 lt ls' lts H _ IH]; intros i lts' E; cbn in E.
  - injection E as <-. constructor.
  - destruct (pose3 (fst lt) _) as [s|] eqn:P; cbn [obnd] in E; [|discriminate E].
    destruct (pose_links g kdl (i + 1) lts) as [r|] eqn:Q; cbn [obnd] in E; [|discriminate E].
    injection E as <-. constructor; [|exact (IH _ _ Q)]. destruct H as [H1 H2]. split; [|exact H2].
    exact (same_trans3 _ _ _ (pose3_shape _ _ _ P) H1).
Qed.
Lemma built_tf3 base ls m g kdl m' : built3 base ls m -> robot_tf3_kdl m g kdl = Some m' -> built3 base ls m'.
Proof.
  intros [B L] H. unfold robot_tf3_kdl in H.
  destruct (pose3 (mb3_base m) g) as [b|] eqn:P; cbn [obnd] in H; [|discriminate H].
  destruct (pose_links g kdl 0 (mb3_links m)) as [r|] eqn:Q; cbn [obnd] in H; [|discriminate H].
  injection H as <-. split; [exact (same_trans3 _ _ _ (pose3_shape _ _ _ P) B)|exact (pose_links_ok _ _ _ _ _ _ L Q)].
Qed.
Lemma built_add3 base ls m l m' : built3 base ls m -> add_body3 m l = Ok m' -> built3 base (ls ++ [l]) m'.
Proof.
  intros [B L] H. unfold add_body3 in H.
  destruct (idx (sq_pos l) 0) as [x| |] eqn:X; cbn [obind] in H; try discriminate H.
  destruct (idx (sq_pos l) 1) as [y| |] eqn:Y; cbn [obind] in H; try discriminate H.
  destruct (idx (sq_pos l) 2) as [z| |] eqn:Z; cbn [obind] in H; try discriminate H.
  injection H as <-. split; [exact B|]. cbn. apply Forall2_app; [exact L|]. constructor; [|constructor].
  destruct (idx_nth _ _ _ 0 X) as [E1 _]. destruct (idx_nth _ _ _ 0 Y) as [E2 _]. destruct (idx_nth _ _ _ 0 Z) as [E3 _].
  split; [repeat split|]. cbn. unfold given_pos3. rewrite E1, E2, E3. reflexivity.
Qed.
Lemma built_calls3 base cs ls m m' : built3 base ls m -> calls3 m cs = Ok (Some m') -> built3 base (ls ++ added3 cs) m'.
Proof.
  revert ls m. induction cs as [|c cs IH]; intros ls m B H; cbn in H.
  - injection H as <-. cbn. rewrite app_nil_r. exact B.
  - destruct (do_call3 m c) as [[m1|]| |] eqn:E; cbn [obind] in H; try discriminate H.
    destruct c as [l|g|g kdl]; cbn in E |- *.
    + destruct (add_body3 m l) as [m2| |] eqn:A; cbn [obind] in E; try discriminate E. injection E as ->.
      specialize (IH (ls ++ [l]) m1 (built_add3 base ls m l m1 B A) H). rewrite <- app_assoc in IH. exact IH.
    + injection E as E. exact (IH ls m1 (built_tf3 base ls m g _ m1 B E) H).
    + injection E as E. exact (IH ls m1 (built_tf3 base ls m g _ m1 B E) H).
Qed.
Lemma built_new3 base : built3 base [] (new_mb3 base).
Proof. split; [repeat split|constructor]. Qed.
Lemma pose3_stands s g : rigid3 g -> exists s', pose3 s g = Some s' /\ same_shape3 s' s /\ stands3 s' (fst g) (snd g).
Proof.
  intros R. destruct (quat_of_rot (fst g) R) as [q [E [U T]]]. unfold pose3. rewrite E. cbn [obnd]. eexists. split; [reflexivity|].
  split; [repeat split|]. split; [reflexivity|]. cbn. apply rotm_turns; assumption.
Qed.
Lemma rigid_comp3 g h : rigid3 g -> rigid3 h -> rigid3 (comp3 g h).
Proof. intros G H. apply rotation3_mul; assumption. Qed.
Lemma move_comp3 g h p : move3 (comp3 g h) p = move3 g (move3 h p).
Proof. unfold move3, comp3. cbn [fst snd]. rewrite app_mul3, app_add. unfold add3. cbn. f_equal; ring. Qed.
(** Where the links stand: [kd i] is the transform of the kinematic chain. *)
Lemma pose_links_stands g (kdl : nat -> option tf3) ls lts : rigid3 g -> (forall i h, kdl i = Some h -> rigid3 h) ->
  Forall2 link_ok3 ls lts -> Forall (fun l => unit_quat (sq_quat l)) ls ->
  forall i, exists lts', pose_links g kdl i lts = Some lts' /\
    forall k l0, nth_error ls k = Some l0 -> exists lt, nth_error lts' k = Some lt /\ same_shape3 (fst lt) l0 /\
      let gi := match kdl (i + k)%nat with Some h => comp3 g h | None => g end in
      stands3 (fst lt) (mul3 (fst gi) (rotm (sq_quat l0))) (move3 gi (given_pos3 l0)).
Proof.
  intros R K L. induction L as [|l0 lt ls' lts H _ IH]; intros U i.
  - exists []. split; [reflexivity|]. intros [|k] l0 E; discriminate E.
  - inversion U as [|u v U1 U2]; subst. destruct H as [H1 H2]. cbn [pose_links].
    set (gi := match kdl i with Some h => comp3 g h | None => g end).
    assert (G : rigid3 gi). { unfold gi. destruct (kdl i) eqn:E; [apply rigid_comp3; [exact R|exact (K _ _ E)]|exact R]. }
    assert (G2 : rigid3 (comp3 gi (snd lt))). { rewrite H2. apply rigid_comp3; [exact G|]. apply rotm_rotation. exact U1. }
    destruct (pose3_stands (fst lt) _ G2) as [s [P [S1 S2]]]. rewrite P. cbn [obnd].
    destruct (IH U2 (i + 1)%nat) as [r [Q W]]. rewrite Q. cbn [obnd]. eexists. split; [reflexivity|].
    intros [|k] l1 E; cbn in E.
    + injection E as <-. eexists. split; [reflexivity|]. cbn [fst]. split; [exact (same_trans3 _ _ _ S1 H1)|].
      rewrite Nat.add_0_r. fold gi. rewrite H2 in S2. exact S2.
    + destruct (W k l1 E) as [lt1 [W1 [W2 W3]]]. exists lt1. split; [exact W1|]. split; [exact W2|].
      replace (i + S k)%nat with (i + 1 + k)%nat by lia. exact W3.
Qed.
Lemma built_stands3 base ls m g kdl : built3 base ls m -> rigid3 g -> (forall i h, kdl i = Some h -> rigid3 h) ->
  Forall (fun l => unit_quat (sq_quat l)) ls ->
  exists m', robot_tf3_kdl m g kdl = Some m' /\ built3 base ls m' /\ stands3 (mb3_base m') (fst g) (snd g) /\
    forall k l0, nth_error ls k = Some l0 -> exists lt, nth_error (mb3_links m') k = Some lt /\ same_shape3 (fst lt) l0 /\
      let gi := match kdl k with Some h => comp3 g h | None => g end in
      stands3 (fst lt) (mul3 (fst gi) (rotm (sq_quat l0))) (move3 gi (given_pos3 l0)).
Proof.
  intros B R K U. pose proof B as [B1 L]. destruct (pose3_stands (mb3_base m) g R) as [b [P [S1 S2]]].
  destruct (pose_links_stands g kdl ls (mb3_links m) R K L U 0%nat) as [r [Q W]].
  assert (E : robot_tf3_kdl m g kdl = Some (MB3 b r)). { unfold robot_tf3_kdl. rewrite P. cbn [obnd]. rewrite Q. reflexivity. }
  exists (MB3 b r). split; [exact E|]. split; [exact (built_tf3 base ls m g kdl _ B E)|]. split; [exact S2|exact W].
Qed.

(** ---- Minkowski samples of a planar robot ---- *)
Lemma body_pose2 s g A B : se_axes s = [A; B] -> se_eps s = 1 ->
  body_of2 (pose2 s g) = ellipse_at A B (heading (fst g)) (snd g).
Proof.
  intros E1 E2. unfold body_of2, pose2, ellipse_at, se_set_pos, se_set_angle. cbn [se_axes se_eps se_pos se_angle nth].
  rewrite E1, E2. destruct (snd g). reflexivity.
Qed.
Lemma move_back2 M h c : snd (comp2 (M, sub2 c (app2 M (snd h))) h) = c.
Proof. unfold comp2. cbn [fst snd]. generalize (app2 M (snd h)). intros v. destruct c. unfold add2, sub2. cbn. f_equal; ring. Qed.
Lemma circle_contact_h a e c t A B ta tb th : 0 < a -> 0 < e < 2 -> 0 < A -> 0 < B -> cos ta = cos tb -> sin ta = sin tb ->
  contact2 (Body2 a a e c t) (ellipse_at A B tb (msample2 a a e c t A B ta 1 th)) (sample2 a a e c t th) /\
  ~ overlap2 (Body2 a a e c t) (ellipse_at A B tb (msample2 a a e c t A B ta 1 th)).
Proof.
  intros HA E A0 B0 C S. destruct (circle_contact a e c t A B tb th HA E A0 B0) as [C1 [C2 _]].
  assert (M : msample2 a a e c t A B ta 1 th = msample2 a a e c t A B tb 1 th).
  { unfold msample2, off2, dn, un, vn. rewrite C, S. reflexivity. }
  rewrite M. split; assumption.
Qed.
Lemma forall2_nth {A B} (P : A -> B -> Prop) l m : Forall2 P l m -> forall k b, nth_error m k = Some b -> exists a, nth_error l k = Some a /\ P a b.
Proof.
  induction 1 as [|a b l m H _ IH]; intros [|k] x E; cbn in E; try discriminate E.
  - injection E as <-. exists a. split; [reflexivity|exact H].
  - exact (IH k x E).
Qed.
(** The samples for one body whose heading agrees with M. *)
Lemma mink2_body a e px py t num s k : (2 <= num)%nat -> 0 < e < 2 -> 0 < a -> robot_ellipse s ->
  exists A B, se_axes s = [A; B] /\ 0 < A /\ 0 < B /\
  forall ang, mink2 (SE [a; a] e [px; py] t num) (se_set_angle s ang) k =
    Ok (map (fun i => Some (msample2 a a e (V2 px py) t A B ang (IZR k) (theta num i))) (seq 0 num)).
Proof.
  intros N E HA [_ (A & B & x & y & AX & A0 & B0 & _)]. exists A, B. split; [exact AX|]. split; [exact A0|]. split; [exact B0|].
  intros ang. unfold se_set_angle. rewrite AX. apply mink2_eq; assumption.
Qed.
Lemma se_eta s : SE (se_axes s) (se_eps s) (se_pos s) (se_angle s) (se_num s) = s.
Proof. destruct s. reflexivity. Qed.
Lemma robot_shape2 s l : robot_ellipse l -> same_shape2 s l -> (exists p q, se_pos s = [p; q]) -> robot_ellipse s.
Proof.
  intros [E (A & B & x & y & AX & A0 & B0 & _)] (S1 & S2 & S3) (p & q & P). split; [congruence|]. exists A, B, p, q.
  split; [congruence|]. repeat split; assumption.
Qed.
Lemma mink_sum2_contact base ls m M t0 a e px py t num :
  built2 base ls m -> rotation2 M -> robot_ellipse base -> Forall robot_ellipse ls ->
  0 < a -> 0 < e < 2 -> (2 <= num)%nat ->
  let O := SE [a; a] e [px; py] t num in
  exists bs, mink_sum2 (robot_tf2 m (M, t0)) O 1 = Ok bs /\ length bs = S (length ls) /\
  forall k pts, nth_error bs k = Some pts -> length pts = num /\
    forall o, In o pts -> exists p, o = Some p /\
      exists s, nth_error (bodies2 (robot_tf2 m (M, p))) k = Some s /\
        (exists y, contact2 (body_of2 O) (body_of2 s) y) /\ ~ overlap2 (body_of2 O) (body_of2 s).
Proof.
  intros BT RM RB RL HA E N O. pose proof BT as [B L].
  set (m1 := robot_tf2 m (M, t0)).
  assert (HB : heads (heading M) M) by (apply heading_heads; exact RM).
  assert (RBm : rot2 (se_angle (mb2_base m1)) = M) by (apply rot2_heads; [exact RM|exact HB]).
  destruct RB as [RBe (A & Bx & bx & by_ & AX & A0 & B0 & BP)]. destruct B as (B1 & B2 & B3).
  unfold mink_sum2.
  assert (M0 : mink2 O (mb2_base m1) 1 = Ok (map (fun i => Some (msample2 a a e (V2 px py) t A Bx (heading M) 1 (theta num i))) (seq 0 num))).
  { unfold m1, robot_tf2, pose2. cbn [mb2_base fst snd]. unfold se_set_angle, se_set_pos. cbn [se_axes se_eps se_pos se_angle se_num]. rewrite B1, AX. exact (mink2_eq a a e px py t num A Bx _ _ _ _ 1%Z N E HA HA A0 B0). }
  rewrite M0. cbn [obind].
  rewrite RBm.
  set (F := fun lt : sellipse * tf2 => let '(l, tf) := lt in
     do p <- mink2 O (se_set_angle l (heading (mul2 M (fst tf)))) 1; Ok (map (option_map (fun v => sub2 v (app2 M (snd tf)))) p)).
  assert (LK : exists lss, omap F (mb2_links m1) = Ok lss /\ length lss = length ls /\
     forall k pts, nth_error lss k = Some pts -> exists l0 A1 A2, nth_error ls k = Some l0 /\ se_axes l0 = [A1; A2] /\ 0 < A1 /\ 0 < A2 /\ se_eps l0 = 1 /\
       pts = map (fun i => Some (sub2 (msample2 a a e (V2 px py) t A1 A2 (heading (mul2 M (turning (se_angle l0)))) 1 (theta num i)) (app2 M (given_pos2 l0)))) (seq 0 num)).
  { unfold m1. cbn [robot_tf2 mb2_links]. clear - L RL HA E N. induction L as [|l0 lt ls' lts H _ IH].
    - exists []. split; [reflexivity|]. split; [reflexivity|]. intros [|k] pts Hk; discriminate Hk.
    - inversion RL as [|u v R1 R2]; subst. destruct (IH R2) as [lss [E1 [E2 E3]]]. destruct H as ((S1 & S2 & S3) & H2 & _).
      pose proof R1 as [Re (A1 & A2 & x & y & AX1 & P1 & P2 & _)].
      cbn [map omap]. rewrite E1.
      assert (FE : F (pose2 (fst lt) (comp2 (M, t0) (snd lt)), snd lt) = Ok (map (fun i => Some (sub2 (msample2 a a e (V2 px py) t A1 A2 (heading (mul2 M (turning (se_angle l0)))) 1 (theta num i)) (app2 M (given_pos2 l0)))) (seq 0 num))).
      { unfold F. rewrite H2. cbn [fst snd]. unfold se_set_angle, pose2, se_set_pos, se_set_angle. cbn [se_axes se_eps se_pos se_angle se_num]. rewrite S1, AX1.
        unfold O. rewrite (mink2_eq a a e px py t num A1 A2 _ _ _ _ 1%Z N E HA HA P1 P2). cbn [obind]. f_equal. rewrite map_map. reflexivity. }
      rewrite FE. cbn [obind]. eexists. split; [reflexivity|]. split; [cbn; now rewrite E2|].
      intros [|k] pts Hk; cbn in Hk.
      + injection Hk as <-. exists l0, A1, A2. repeat split; assumption || reflexivity.
      + exact (E3 k pts Hk). }
  destruct LK as [lss [E1 [E2 E3]]]. rewrite E1. cbn [obind]. eexists. split; [reflexivity|]. split; [cbn; now rewrite E2|].
  intros [|k] pts Hk; cbn in Hk.
  - injection Hk as <-. split; [now rewrite map_length, seq_length|]. intros o Ho. apply in_map_iff in Ho. destruct Ho as [i [<- _]].
    eexists. split; [reflexivity|]. eexists. split; [reflexivity|].
    set (p := msample2 a a e (V2 px py) t A Bx (heading M) 1 (theta num i)).
    assert (EB : body_of2 (pose2 (mb2_base m) (M, p)) = ellipse_at A Bx (heading M) p).
    { apply (body_pose2 _ (M, p)); congruence. }
    cbn [robot_tf2 mb2_base bodies2]. rewrite EB.
    destruct (circle_contact_h a e (V2 px py) t A Bx (heading M) (heading M) (theta num i) HA E A0 B0 eq_refl eq_refl) as [C1 C2].
    split; [eexists; exact C1|exact C2].
  - destruct (E3 k pts Hk) as (l0 & A1 & A2 & K1 & K2 & P1 & P2 & Ke & ->). split; [now rewrite map_length, seq_length|].
    intros o Ho. apply in_map_iff in Ho. destruct Ho as [i [<- _]]. eexists. split; [reflexivity|].
    set (c := msample2 a a e (V2 px py) t A1 A2 (heading (mul2 M (turning (se_angle l0)))) 1 (theta num i)).
    set (p := sub2 c (app2 M (given_pos2 l0))).
    destruct (nth_error (mb2_links m) k) as [lt|] eqn:NL.
    2:{ exfalso. apply nth_error_None in NL. assert (k < length ls)%nat by (apply nth_error_Some; rewrite K1; discriminate).
        pose proof (f2_length _ _ _ L). lia. }
    destruct (forall2_nth _ _ _ L k lt NL) as [l1 [K1' ((S1 & S2 & S3) & H2 & _)]]. rewrite K1 in K1'. injection K1' as <-.
    exists (pose2 (fst lt) (comp2 (M, p) (snd lt))). split.
    { cbn [bodies2 robot_tf2 mb2_base mb2_links nth_error]. rewrite map_map, nth_error_map, NL. reflexivity. }
    assert (EC : snd (comp2 (M, p) (snd lt)) = c).
    { rewrite H2. apply (move_back2 M (turning (se_angle l0), given_pos2 l0)). }
    assert (EB : body_of2 (pose2 (fst lt) (comp2 (M, p) (snd lt))) = ellipse_at A1 A2 (heading (mul2 M (turning (se_angle l0)))) c).
    { rewrite (body_pose2 (fst lt) _ A1 A2); [|congruence|congruence]. rewrite EC. rewrite H2. reflexivity. }
    rewrite EB. destruct (circle_contact_h a e (V2 px py) t A1 A2 (heading (mul2 M (turning (se_angle l0)))) (heading (mul2 M (turning (se_angle l0)))) (theta num i) HA E P1 P2 eq_refl eq_refl) as [C1 C2].
    split; [eexists; exact C1|exact C2].
Qed.

(** ---- Minkowski samples of a robot in space ---- *)
Lemma tf3_explicit base ls m g : built3 base ls m -> rigid3 g -> Forall (fun l => unit_quat (sq_quat l)) ls ->
  exists b ls', robot_tf3 m g = Some (MB3 b ls') /\ pose3 (mb3_base m) g = Some b /\
    Forall2 (fun lt lt' => snd lt' = snd lt /\ pose3 (fst lt) (comp3 g (snd lt)) = Some (fst lt')) (mb3_links m) ls'.
Proof.
  intros [B1 L] R U. destruct (pose3_stands (mb3_base m) g R) as [b [P _]].
  assert (W : forall i, exists ls', pose_links g (fun _ => None) i (mb3_links m) = Some ls' /\
    Forall2 (fun lt lt' => snd lt' = snd lt /\ pose3 (fst lt) (comp3 g (snd lt)) = Some (fst lt')) (mb3_links m) ls').
  { clear - L R U. induction L as [|l0 lt ls' lts H _ IH]; intros i.
    - exists []. split; [reflexivity|constructor].
    - inversion U as [|u v U1 U2]; subst. destruct H as [H1 H2]. cbn [pose_links].
      assert (G2 : rigid3 (comp3 g (snd lt))). { rewrite H2. apply rigid_comp3; [exact R|]. apply rotm_rotation. exact U1. }
      destruct (pose3_stands (fst lt) _ G2) as [s' [P _]]. rewrite P. cbn [obnd].
      destruct (IH U2 (i + 1)%nat) as [r [Q W]]. rewrite Q. cbn [obnd]. eexists. split; [reflexivity|].
      constructor; [split; [reflexivity|exact P]|exact W]. }
  destruct (W 0%nat) as [ls' [W1 W2]]. exists b, ls'. split; [|split; assumption].
  unfold robot_tf3, robot_tf3_kdl. rewrite P. cbn [obnd]. rewrite W1. reflexivity.
Qed.
Lemma body_pose3 s g s' A B C : pose3 s g = Some s' -> sq_axes s = [A; B; C] -> sq_eps s = [1; 1] ->
  exists q, quat_of (fst g) = Some q /\ sq_quat s' = q /\ sq_pos s' = [x3 (snd g); y3 (snd g); z3 (snd g)] /\
    sq_axes s' = [A; B; C] /\ sq_eps s' = [1; 1] /\ body_of3 s' = ellipsoid_at A B C q (snd g).
Proof.
  unfold pose3. intros H E1 E2. destruct (quat_of (fst g)) as [q|]; cbn [obnd] in H; [|discriminate H]. injection H as <-.
  exists q. unfold sq_set_quat, sq_set_pos, body_of3, ellipsoid_at. cbn [sq_axes sq_eps sq_pos sq_quat nth]. rewrite E1, E2.
  repeat split. destruct (snd g). reflexivity.
Qed.
Lemma nth_forall2 {A B} (P : A -> B -> Prop) l m : Forall2 P l m -> forall k a, nth_error l k = Some a -> exists b, nth_error m k = Some b /\ P a b.
Proof.
  induction 1 as [|a b l m H _ IH]; intros [|k] x E; cbn in E; try discriminate E.
  - injection E as <-. exists b. split; [reflexivity|exact H].
  - exact (IH k x E).
Qed.
Lemma omap_forall2 {A B} (f : A -> outcome B) (P : A -> B -> Prop) l : (forall a, In a l -> exists b, f a = Ok b /\ P a b) ->
  exists bs, omap f l = Ok bs /\ Forall2 P l bs.
Proof.
  induction l as [|a l IH]; intros H.
  - exists []. split; [reflexivity|constructor].
  - destruct (H a (or_introl eq_refl)) as [b [E1 E2]]. destruct (IH (fun x I => H x (or_intror I))) as [bs [E3 E4]].
    exists (b :: bs). cbn [omap]. rewrite E1. cbn [obind]. rewrite E3. cbn [obind]. split; [reflexivity|constructor; assumption].
Qed.
Lemma mink_sum3_contact base ls m M t0 a b c e1 e2 px py pz qo num :
  built3 base ls m -> rotation3 M -> robot_ellipsoid base -> Forall robot_ellipsoid ls ->
  convex3 (Body3 a b c e1 e2 (V3r px py pz) qo) ->
  let O := SQ [a; b; c] [e1; e2] [px; py; pz] qo num in
  exists m1 bs, robot_tf3 m (M, t0) = Some m1 /\ mink_sum3 m1 O 1 = Ok bs /\ length bs = S (length ls) /\
  forall k pts, nth_error bs k = Some pts -> length pts = (num * num)%nat /\
    forall o, In o pts -> exists p, o = Some p /\
      exists m2 s, robot_tf3 m (M, match k with O => p | S _ => add3 p t0 end) = Some m2 /\
        nth_error (bodies3 m2) k = Some s /\
        (exists y, contact3 (body_of3 O) (body_of3 s) y) /\ ~ overlap3 (body_of3 O) (body_of3 s).
Proof.
  intros BT RM RB RL CV O. pose proof BT as [B L].
  assert (UL : Forall (fun l => unit_quat (sq_quat l)) ls) by (eapply Forall_impl; [|exact RL]; intros l (_ & H & _); exact H).
  destruct (tf3_explicit base ls m (M, t0) BT RM UL) as (b1 & ls1 & T1 & P1 & F1).
  exists (MB3 b1 ls1).
  destruct RB as [RBe [_ (A & Bx & Cx & bx & by_ & bz & AX & A0 & B0 & C0 & _)]]. destruct B as (B1 & B2 & B3).
  assert (AXm : sq_axes (mb3_base m) = [A; Bx; Cx]) by congruence. assert (EPm : sq_eps (mb3_base m) = [1; 1]) by congruence.
  destruct (body_pose3 _ _ _ A Bx Cx P1 AXm EPm) as (q & Q1 & Q2 & Q3 & Q4 & Q5 & _).
  assert (Uq : unit_quat q). { destruct (quat_of_rot M RM) as [q' [E [U _]]]. cbn [fst] in Q1. rewrite E in Q1. injection Q1 as <-. exact U. }
  assert (BO : body_of3 O = Body3 a b c e1 e2 (V3r px py pz) qo) by reflexivity.
  assert (M0 : mink3 O b1 1 = Ok (map (fun eo => Some (msample3 a b c e1 e2 qo (V3r px py pz) A Bx Cx q 1 eo)) (params3 num))).
  { destruct b1 as [ax1 ep1 pos1 qu1 nu1]. cbn [sq_axes sq_eps sq_quat] in Q2, Q4, Q5. subst ax1 ep1 qu1.
    exact (mink3_eq a b c e1 e2 px py pz qo num A Bx Cx pos1 q nu1 1%Z CV A0 B0 C0 Uq). }
  set (F := fun lt : squad * tf3 => let l := fst lt in
      do p <- mink3 O l 1; do x <- idx (sq_pos l) 0; do y <- idx (sq_pos l) 1; do z <- idx (sq_pos l) 2;
      Ok (map (option_map (fun v => sub3 v (V3r x y z))) p)).
  (* every posed link: its ellipsoid and its samples *)
  set (PL := fun (lt : squad * tf3) (pts : list (option v3)) => exists A1 A2 A3 h q1, 0 < A1 /\ 0 < A2 /\ 0 < A3 /\ unit_quat q1 /\
     snd lt = h /\ quat_of (mul3 M (fst h)) = Some q1 /\
     pts = map (fun eo => Some (sub3 (msample3 a b c e1 e2 qo (V3r px py pz) A1 A2 A3 q1 1 eo) (snd (comp3 (M, t0) h)))) (params3 num) /\
     forall s g s', sq_axes s = sq_axes (fst lt) -> sq_eps s = sq_eps (fst lt) -> fst g = mul3 M (fst h) -> pose3 s g = Some s' ->
       body_of3 s' = ellipsoid_at A1 A2 A3 q1 (snd g)).
  assert (LK : exists lss, omap F ls1 = Ok lss /\ Forall2 PL ls1 lss).
  { apply omap_forall2. intros lt1 I1. apply In_nth_error in I1. destruct I1 as [k N1].
    destruct (forall2_nth _ _ _ F1 k lt1 N1) as [lt [N0 [S0 P0]]]. destruct (forall2_nth _ _ _ L k lt N0) as [l0 [K0 [(S1 & S2 & S3) H2]]].
    pose proof (proj1 (Forall_forall _ _) RL l0 (nth_error_In _ _ K0)) as [Re [Ru (A1 & A2 & A3 & x & y & z & AX1 & PA1 & PA2 & PA3 & _)]].
    destruct (body_pose3 _ _ _ A1 A2 A3 P0 ltac:(congruence) ltac:(congruence)) as (q1 & W1 & W2 & W3 & W4 & W5 & _).
    assert (RR : rotation3 (mul3 M (fst (snd lt)))). { apply rotation3_mul; [exact RM|]. rewrite H2. apply rotm_rotation. exact Ru. }
    assert (Uq1 : unit_quat q1). { destruct (quat_of_rot _ RR) as [q' [E [U _]]]. cbn [fst comp3] in W1. rewrite E in W1. injection W1 as <-. exact U. }
    eexists. split.
    - unfold F. destruct lt1 as [[ax1 ep1 pos1 qu1 nu1] tf1]. cbn [fst sq_axes sq_eps sq_quat sq_pos] in W2, W3, W4, W5 |- *. subst ax1 ep1 qu1 pos1.
      unfold O. rewrite (mink3_eq a b c e1 e2 px py pz qo num A1 A2 A3 _ q1 nu1 1%Z CV PA1 PA2 PA3 Uq1). cbn [obind]. cbn [idx nth_error obind]. reflexivity.
    - exists A1, A2, A3, (snd lt), q1. split; [exact PA1|]. split; [exact PA2|]. split; [exact PA3|]. split; [exact Uq1|]. split; [exact S0|].
      split; [exact W1|]. split.
      + rewrite map_map. apply map_ext. intros eo. cbn [option_map]. f_equal.
      + intros s1 g s' E1 E2 E3 PP. rewrite W4 in E1. rewrite W5 in E2.
        destruct (body_pose3 s1 g s' A1 A2 A3 PP E1 E2) as (q2 & V1 & _ & _ & _ & _ & V6). rewrite E3 in V1. cbn [fst comp3] in W1. rewrite W1 in V1. injection V1 as <-. exact V6. }
  destruct LK as [lss [E1 E2]].
  eexists. split; [exact T1|]. split.
  { unfold mink_sum3. cbn [mb3_base mb3_links]. rewrite M0. cbn [obind]. change (omap _ ls1) with (omap F ls1). rewrite E1. reflexivity. }
  split. { cbn [length]. rewrite <- (f2_length _ _ _ E2), <- (f2_length _ _ _ F1), <- (f2_length _ _ _ L). reflexivity. }
  intros [|k] pts Hk; cbn [nth_error] in Hk.
  - injection Hk as <-. split; [now rewrite map_length, params3_len|]. intros o Ho. apply in_map_iff in Ho. destruct Ho as [eo [<- _]].
    eexists. split; [reflexivity|].
    set (p := msample3 a b c e1 e2 qo (V3r px py pz) A Bx Cx q 1 eo).
    destruct (tf3_explicit base ls m (M, p) BT RM UL) as (b2 & ls2 & T2 & P2 & _). exists (MB3 b2 ls2), b2.
    split; [exact T2|]. split; [reflexivity|].
    destruct (body_pose3 _ _ _ A Bx Cx P2 AXm EPm) as (q' & V1 & _ & _ & _ & _ & V6). cbn [fst snd] in V1, V6, Q1. rewrite Q1 in V1. injection V1 as <-.
    rewrite V6, BO. destruct (quadric_contact a b c e1 e2 (V3r px py pz) qo A Bx Cx q eo CV A0 B0 C0 Uq) as [C1 [C2 _]].
    split; [eexists; exact C1|exact C2].
  - destruct (forall2_nth _ _ _ E2 k pts Hk) as [lt1 [N1 (A1 & A2 & A3 & h & q1 & PA1 & PA2 & PA3 & Uq1 & S0 & W1 & -> & W)]].
    split; [now rewrite map_length, params3_len|]. intros o Ho. apply in_map_iff in Ho. destruct Ho as [eo [<- _]].
    eexists. split; [reflexivity|].
    set (cc := msample3 a b c e1 e2 qo (V3r px py pz) A1 A2 A3 q1 1 eo).
    set (p := add3 (sub3 cc (snd (comp3 (M, t0) h))) t0).
    destruct (forall2_nth _ _ _ F1 k lt1 N1) as [lt [N0 [S0' P0]]].
    destruct (tf3_explicit base ls m (M, p) BT RM UL) as (b2 & ls2 & T2 & _ & F2).
    destruct (nth_forall2 _ _ _ F2 k lt N0) as [lt2 [N2 [S2 P2]]].
    exists (MB3 b2 ls2), (fst lt2). split; [exact T2|]. split; [cbn [bodies3 mb3_base mb3_links nth_error]; rewrite nth_error_map, N2; reflexivity|].
    assert (EH : snd lt = h) by congruence. rewrite EH in *.
    destruct (pose3_shape _ _ _ P0) as (X1 & X2 & _).
    rewrite (W (fst lt) (comp3 (M, p) h) (fst lt2) (eq_sym X1) (eq_sym X2) eq_refl P2).
    assert (EC : snd (comp3 (M, p) h) = cc).
    { unfold p, comp3. cbn [fst snd]. generalize (app3 M (snd h)). intros v. clearbody cc. destruct cc. unfold add3, sub3. cbn. f_equal; ring. }
    rewrite EC, BO. destruct (quadric_contact a b c e1 e2 (V3r px py pz) qo A1 A2 A3 q1 eo CV PA1 PA2 PA3 Uq1) as [C1 [C2 _]].
    split; [eexists; exact C1|exact C2].
Qed.
