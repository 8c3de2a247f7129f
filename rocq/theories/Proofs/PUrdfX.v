(** Robots placed by a URDF description. *)
From Coq Require Import List Reals ZArith Arith Bool Ascii String Lia Lra.
From Verif.Base Require Import Outcome.
From Verif.Model Require Import MGeom MMultiBody MTightFit MStore MCollision MUrdf.
From Verif.Spec Require Import SGeom SRigid SCollision SStore SUrdf.
From Verif.Proofs Require Import PGeom PGeom3 PRot PMulti PTight3 PCollision PStore PUrdf.
Import ListNotations.
Local Open Scope R_scope.

(** Names of bodies. *)
Lemma dig_bound c d : digit_value c = Some d -> (0 <= d < 10)%Z /\ c = digit d.
Proof.
  unfold digit_value, digit. destruct (Nat.leb 48 (nat_of_ascii c) && Nat.leb (nat_of_ascii c) 57) eqn:E; [|discriminate].
  intros H. injection H as <-. apply andb_prop in E. destruct E as [E1 E2]. apply Nat.leb_le in E1, E2. split; [lia|].
  replace (48 + Z.to_nat (Z.of_nat (nat_of_ascii c) - 48))%nat with (nat_of_ascii c) by lia. symmetry. apply ascii_nat_embedding.
Qed.
Lemma digits_last l : forall acc c, digits_value acc (l ++ [c]) = match digits_value acc l with Some v => match digit_value c with Some d => Some (10 * v + d)%Z | None => None end | None => None end.
Proof.
  induction l as [|x l IH]; intros acc c; cbn [app digits_value].
  - destruct (digit_value c); reflexivity.
  - destruct (digit_value x); [apply IH|reflexivity].
Qed.
Lemma digits_ge l : forall acc v, (0 <= acc)%Z -> digits_value acc l = Some v -> (acc <= v)%Z.
Proof.
  induction l as [|c l IH]; intros acc v A H; cbn [digits_value] in H; [injection H as <-; lia|]. destruct (digit_value c) as [d|] eqn:D; [|discriminate H].
  pose proof (proj1 (dig_bound c d D)). pose proof (IH (10 * acc + d)%Z v ltac:(lia) H). lia.
Qed.
Lemma digits_pos l v : l <> [] -> hd_error l <> Some "0"%char -> digits_value 0 l = Some v -> (0 < v)%Z.
Proof.
  intros N Z0 H. destruct l as [|c l]; [elim N; reflexivity|]. cbn [digits_value] in H. destruct (digit_value c) as [d|] eqn:D; [|discriminate H].
  destruct (dig_bound c d D) as [B E]. destruct (Z.eq_dec d 0) as [->|Nd]; [elim Z0; cbn; f_equal; exact E|].
  pose proof (digits_ge l (10 * 0 + d)%Z v ltac:(lia) H). lia.
Qed.
Lemma digits_unique l : forall l' v, hd_error l <> Some "0"%char -> hd_error l' <> Some "0"%char -> digits_value 0 l = Some v -> digits_value 0 l' = Some v -> l = l'.
Proof.
  induction l as [|c l IH] using rev_ind; intros l' v H H' D D'.
  - cbn in D. injection D as <-. destruct l' as [|x l']; [reflexivity|]. pose proof (digits_pos (x :: l') 0 ltac:(discriminate) H' D'). lia.
  - destruct l' as [|c' l' _] using rev_ind.
    + cbn in D'. injection D' as <-. pose proof (digits_pos (l ++ [c]) 0 ltac:(destruct l; discriminate) H D). lia.
    + rewrite digits_last in D, D'. destruct (digits_value 0 l) as [a|] eqn:A; [|discriminate D]. destruct (digits_value 0 l') as [a'|] eqn:A'; [|discriminate D'].
      destruct (digit_value c) as [d|] eqn:Ec; [|discriminate D]. destruct (digit_value c') as [d'|] eqn:Ec'; [|discriminate D'].
      assert (DD : (10 * a + d = 10 * a' + d')%Z) by (exact (f_equal (fun o => match o with Some z => z | None => 0%Z end) (eq_trans D (eq_sym D')))). clear D D'. destruct (dig_bound c d Ec) as [B E]. destruct (dig_bound c' d' Ec') as [B' E'].
      assert (a = a') by lia. assert (d = d') by lia. subst a' d'. f_equal; [|rewrite E, E'; reflexivity].
      assert (HD : forall m x, hd_error (m ++ [x]) <> Some "0"%char -> hd_error m <> Some "0"%char) by (intros m x K; destruct m; [discriminate|exact K]).
      exact (IH l' a (HD _ _ H) (HD _ _ H') eq_refl A').
Qed.
Lemma dec_head fuel : forall n acc, (0 < n)%Z -> fuel <> O -> (n < 2 ^ Z.of_nat fuel)%Z -> hd_error (dec_digits fuel n acc) <> Some "0"%char.
Proof.
  induction fuel as [|k IH]; intros n acc P F B; [elim F; reflexivity|]. cbn [dec_digits]. destruct (n <? 10)%Z eqn:E.
  - apply Z.ltb_lt in E. cbn [hd_error]. rewrite Z.mod_small by lia. intros K0. assert (K : digit n = "0"%char) by exact (f_equal (fun o => match o with Some c => c | None => "0"%char end) K0). clear K0.
    assert (D : digit_value (digit n) = Some n) by (apply digit_value_digit; lia). rewrite K in D. assert (D2 : Some 0%Z = Some n) by exact D. clear D. injection D2 as D2. lia.
  - apply Z.ltb_ge in E. rewrite Nat2Z.inj_succ, Z.pow_succ_r in B by lia. destruct k as [|k]; [cbn in B; lia|].
    apply IH; [apply Z.div_str_pos; lia|discriminate|apply Z.div_lt_upper_bound; lia].
Qed.
Lemma names_iff n k : names_body n k <-> n = body_name k.
Proof.
  set (v := (Z.of_nat k + 1)%Z). assert (E : Z.of_nat (k + 1) = v) by lia.
  assert (W : whole (dec v) = Some v) by (rewrite whole_dv; [f_equal; apply dec_val; lia|apply dec_dig; lia|apply dec_nonempty]).
  assert (HD : hd_error (dec v) <> Some "0"%char).
  { unfold dec. apply dec_head; [lia|discriminate|]. rewrite Nat2Z.inj_succ, Z2Nat.id by apply Z.log2_nonneg. apply Z.log2_spec. lia. }
  unfold names_body, body_name. fold v. rewrite E. split.
  - intros (t & -> & T & H). f_equal. destruct t as [|c t]; [discriminate T|]. destruct (dec v) as [|c' t'] eqn:DV; [discriminate W|].
    exact (digits_unique _ _ v H HD T W).
  - intros ->. exists (dec v). split; [reflexivity|]. split; [exact W|exact HD].
Qed.
Lemma bodies_iff ls count : has_bodies ls count -> forall k, (k < count)%nat -> In (body_name k) (link_names ls).
Proof. intros H k K. destruct (H k K) as (n & N & I). apply names_iff in N. subst. exact I. Qed.
Lemma all_some_map {A} (l : list A) : all_some (map Some l) = Some l.
Proof. induction l as [|a l IH]; [reflexivity|]. unfold all_some in *. cbn [map fold_right obnd]. rewrite IH. reflexivity. Qed.
Lemma leads_same k ls n p p' : NoDup (link_names ls) -> leads k ls n p -> leads k ls n p' -> p = p'.
Proof.
  intros ND L. revert p' ND. induction L as [k n j cs rest|k m j cs rest n p L IH|k m j cs rest n p L IH]; intros p' ND L'; cbn [link_names] in ND;
    inversion ND as [|x y Nm ND']; subst; pose proof (nodup_split _ _ ND') as [NC NR].
  - inversion L' as [| ? ? ? ? ? ? p2 L2|? ? ? ? ? ? p2 L2]; subst; [reflexivity| |]; elim Nm; apply in_or_app; [left|right]; exact (leads_name _ _ _ _ L2).
  - inversion L' as [| ? ? ? ? ? ? p2 L2|? ? ? ? ? ? p2 L2]; subst.
    + elim Nm. apply in_or_app. left. exact (leads_name _ _ _ _ L).
    + f_equal. exact (IH p2 NC L2).
    + exfalso. apply leads_name in L. apply leads_name in L2. clear - ND' L L2. induction (link_names cs) as [|c l IH]; [destruct L|].
      cbn in ND'. inversion ND' as [|? ? Q1 Q2]; subst. destruct L as [->|L]; [apply Q1; apply in_or_app; right; exact L2|exact (IH L Q2)].
  - inversion L' as [| ? ? ? ? ? ? p2 L2|? ? ? ? ? ? p2 L2]; subst.
    + elim Nm. apply in_or_app. right. exact (leads_name _ _ _ _ L).
    + exfalso. apply leads_name in L. apply leads_name in L2. clear - ND' L L2. induction (link_names cs) as [|c l IH]; [destruct L2|].
      cbn in ND'. inversion ND' as [|? ? Q1 Q2]; subst. destruct L2 as [->|L2]; [apply Q1; apply in_or_app; right; exact L|exact (IH Q2 L2)].
    + exact (IH _ NR ltac:(eassumption)).
Qed.
(** The transforms of the named bodies. *)
Lemma transforms_ok root ls q n : proper_robot root ls -> List.length q = variables ls -> (0 < variables ls)%nat ->
  (forall k, (k < n)%nat -> In (body_name k) (link_names ls)) ->
  exists ts, link_transforms (tree_of root ls) q n = Ok (Some ts) /\ List.length ts = n /\
    forall k T, nth_error ts k = Some T -> rigid3 T /\ forall p, leads 0 ls (body_name k) p -> forall v, move3 T v = chain_point q p v.
Proof.
  intros PR QL QP KN. unfold link_transforms.
  assert (G : forall m a, (a + m <= n)%nat -> exists ts, omap (fun i => get_transform (tree_of root ls) q (body_name i)) (seq a m) = Ok (map Some ts) /\ List.length ts = m /\
    forall k T, nth_error ts k = Some T -> rigid3 T /\ forall p, leads 0 ls (body_name (a + k)) p -> forall v, move3 T v = chain_point q p v).
  { induction m as [|m IH]; intros a L; [exists []; split; [reflexivity|]; split; [reflexivity|]; intros k T E; destruct k; discriminate E|].
    destruct (IH (S a) ltac:(lia)) as (ts & E & LE & H). destruct (leads_exists ls (body_name a) 0%nat (KN a ltac:(lia))) as [p P].
    destruct (transform_chain root ls q (body_name a) p PR P QL QP) as (T & ET & RT & MT).
    exists (T :: ts). cbn [seq omap map]. rewrite ET. cbn [obind]. rewrite E. split; [reflexivity|]. split; [cbn [List.length]; lia|].
    intros k T' N. destruct k as [|k].
    - cbn [nth_error] in N. injection N as <-. split; [exact RT|]. intros p' P' v. rewrite Nat.add_0_r in P'.
      destruct PR as [_ ND]. inversion ND as [|x y Nr ND']; subst. rewrite (leads_same _ _ _ _ _ ND' P' P). exact (MT v).
    - cbn [nth_error] in N. replace (a + S k)%nat with (S a + k)%nat by lia. exact (H k T' N). }
  destruct (G n 0%nat ltac:(lia)) as (ts & E & LE & H). exists ts. rewrite E. cbn [obind]. rewrite all_some_map. split; [reflexivity|]. split; [exact LE|exact H].
Qed.
Lemma placed_urdf root ls q base bodies m g : proper_robot root ls -> List.length q = variables ls -> (0 < variables ls)%nat ->
  (forall k, (k < List.length bodies)%nat -> In (body_name k) (link_names ls)) -> built3 base bodies m -> rigid3 g -> Forall (fun l => unit_quat (sq_quat l)) bodies ->
  exists ts m', link_transforms (tree_of root ls) q (List.length bodies) = Ok (Some ts) /\ List.length ts = List.length bodies /\
    (forall k h, nth_error ts k = Some h -> rigid3 h) /\
    (forall k T, nth_error ts k = Some T -> forall p, leads 0 ls (body_name k) p -> forall v, move3 T v = chain_point q p v) /\
    robot_tf3_urdf (Some (root, ls)) m g q = Ok (Some m') /\ robot_tf3_kdl m g (nth_error ts) = Some m' /\ built3 base bodies m' /\
    stands3 (mb3_base m') (fst g) (snd g) /\
    forall k l0, nth_error bodies k = Some l0 -> exists lt, nth_error (mb3_links m') k = Some lt /\ same_shape3 (fst lt) l0 /\
      let gi := match nth_error ts k with Some h => comp3 g h | None => g end in
      stands3 (fst lt) (mul3 (fst gi) (rotm (sq_quat l0))) (move3 gi (given_pos3 l0)).
Proof.
  intros PR QL QP KN B RG U. destruct (transforms_ok root ls q _ PR QL QP KN) as (ts & E & LE & H).
  assert (RK : forall k h, nth_error ts k = Some h -> rigid3 h) by (intros k h N; exact (proj1 (H k h N))).
  destruct (built_stands3 base bodies m g (nth_error ts) B RG RK U) as (m' & EM & B' & SB & SL).
  exists ts, m'. split; [exact E|]. split; [exact LE|]. split; [exact RK|]. split; [intros k T N; exact (proj2 (H k T N))|].
  split; [|split; [exact EM|split; [exact B'|split; [exact SB|exact SL]]]].
  unfold robot_tf3_urdf, parse_urdf. rewrite <- (f2_length _ _ _ (proj2 B)), E. cbn [obind obnd]. rewrite EM. reflexivity.
Qed.
(** All transforms identical: the body names or the number of joint values are wrong. *)
Lemma transforms_identity t q n : List.length q <> kt_joints t \/ (forall k, (k < n)%nat -> lookup (body_name k) (kt_map t) = None) ->
  link_transforms t q n = Ok (Some (repeat frame_id n)).
Proof.
  intros H. unfold link_transforms.
  assert (G : forall m a, (a + m <= n)%nat -> omap (fun i => get_transform t q (body_name i)) (seq a m) = Ok (map Some (repeat frame_id m))).
  { induction m as [|m IH]; intros a L; [reflexivity|]. cbn [seq omap repeat map]. rewrite (transform_error t q (body_name a)).
    - cbn [obind]. rewrite IH by lia. reflexivity.
    - destruct H as [H|H]; [left; exact H|right; apply H; lia]. }
  rewrite (G n 0%nat ltac:(lia)). cbn [obind]. rewrite all_some_map. reflexivity.
Qed.
Lemma comp_id g : comp3 g frame_id = g.
Proof.
  unfold comp3, frame_id. cbn [fst snd]. change (diag3 1 1 1) with id3. rewrite mul3_1, app_z, add3_0. destruct g; reflexivity.
Qed.
Lemma pose_identity g ls : forall i n, (i + List.length ls <= n)%nat -> pose_links g (nth_error (repeat frame_id n)) i ls = pose_links g (fun _ => None) i ls.
Proof.
  induction ls as [|lt ls IH]; intros i n L; [reflexivity|]. cbn [pose_links List.length] in *.
  assert (N : nth_error (repeat frame_id n) i = Some frame_id).
  { rewrite (nth_error_nth' _ frame_id) by (rewrite repeat_length; lia). f_equal. apply nth_repeat. }
  rewrite N, comp_id, (IH (i + 1)%nat n) by lia. reflexivity.
Qed.
Lemma rigid_urdf file m g q : List.length q <> kt_joints (parse_urdf file) \/ (forall k, (k < List.length (mb3_links m))%nat -> lookup (body_name k) (kt_map (parse_urdf file)) = None) ->
  robot_tf3_urdf file m g q = Ok (robot_tf3 m g).
Proof.
  intros H. unfold robot_tf3_urdf. rewrite transforms_identity by exact H. cbn [obind obnd]. unfold robot_tf3, robot_tf3_kdl.
  rewrite pose_identity by lia. reflexivity.
Qed.
Lemma body_not_root k : body_name k <> list_ascii_of_string "root".
Proof. unfold body_name. cbn. discriminate. Qed.
Lemma unique_chain root ls n : proper_robot root ls -> In n (link_names ls) -> exists p, leads 0 ls n p /\ forall p', leads 0 ls n p' -> p' = p.
Proof.
  intros [_ ND] I. inversion ND as [|x y Nr ND']; subst. destruct (leads_exists ls n 0%nat I) as [p P]. exists p. split; [exact P|].
  intros p' P'. exact (leads_same _ _ _ _ _ ND' P' P).
Qed.
Lemma move_id v : move3 frame_id v = v.
Proof. unfold move3, frame_id. cbn [fst snd]. change (diag3 1 1 1) with id3. rewrite app_id. apply v3_eq; unfold add3; cbn [x3 y3 z3]; ring. Qed.
Lemma root_still root ls q : proper_robot root ls -> List.length q = variables ls -> (0 < variables ls)%nat ->
  exists T, get_transform (parse_urdf (Some (root, ls))) q root = Ok (Some T) /\ forall v, move3 T v = v.
Proof. intros P L N. exists frame_id. split; [exact (transform_root root ls q P L N)|exact move_id]. Qed.
Lemma moves_fixed j x y v : has_variable j = 0%nat -> joint_moves j x v = joint_moves j y v.
Proof. unfold has_variable, joint_moves. destruct (uj_type j); intros H; try discriminate H; reflexivity. Qed.
Lemma chain_same q q' p v : (forall j k, In (j, k) p -> has_variable j = 1%nat -> nth k q 0 = nth k q' 0) -> chain_point q p v = chain_point q' p v.
Proof.
  intros H. induction p as [|[j k] p IH]; [reflexivity|]. cbn [chain_point]. rewrite IH by (intros j' k' I; apply H; right; exact I). f_equal. f_equal.
  destruct (has_variable j) as [|x] eqn:V; [apply moves_fixed; exact V|]. assert (V1 : has_variable j = 1%nat) by (unfold has_variable in *; destruct (uj_type j); try discriminate V; reflexivity).
  rewrite (H j k (or_introl eq_refl) V1). reflexivity.
Qed.
Lemma other_joints root ls q q' n p : proper_robot root ls -> leads 0 ls n p -> List.length q = variables ls -> List.length q' = variables ls -> (0 < variables ls)%nat ->
  (forall j k, In (j, k) p -> has_variable j = 1%nat -> nth k q 0 = nth k q' 0) ->
  get_transform (parse_urdf (Some (root, ls))) q n = get_transform (parse_urdf (Some (root, ls))) q' n.
Proof.
  intros P L Q Q' V H. cbn [parse_urdf]. destruct (transform_chain root ls q n p P L Q V) as (T & -> & R & M). destruct (transform_chain root ls q' n p P L Q' V) as (T' & -> & R' & M').
  rewrite (rigid_same T T' R R'); [reflexivity|]. intros v. rewrite M, M'. apply chain_same. exact H.
Qed.
(** -- numbering -- *)
Lemma leads_nonempty k ls n p : leads k ls n p -> p <> [].
Proof. induction 1; [discriminate|discriminate|assumption]. Qed.
Lemma leads_range k ls n p j i : leads k ls n (p ++ [(j, i)]) -> has_variable j = 1%nat -> (k <= i < k + variables ls)%nat.
Proof.
  intros L V. remember (p ++ [(j, i)]) as w eqn:W. revert p W.
  induction L as [k n j0 cs rest|k m j0 cs rest n w L IH|k m j0 cs rest n w L IH]; intros p W; cbn [variables].
  - destruct p as [|a p]; [|destruct p; discriminate W]. cbn in W. injection W as -> ->. lia.
  - destruct p as [|a p]; [cbn in W; injection W as _ _ W; elim (leads_nonempty _ _ _ _ L); exact W|]. cbn in W. injection W as _ W. specialize (IH p W). lia.
  - specialize (IH p W). lia.
Qed.
Lemma variable_number k ls i : (k <= i < k + variables ls)%nat -> exists n p j, leads k ls n (p ++ [(j, i)]) /\ has_variable j = 1%nat.
Proof.
  revert k. induction ls as [|m j cs IC rest IR]; intros k H; cbn [variables] in H; [lia|].
  destruct (lt_dec i (k + has_variable j)) as [A|A].
  - exists m, [], j. assert (has_variable j = 1%nat) by (unfold has_variable in *; destruct (uj_type j); lia). replace i with k by lia. split; [constructor|assumption].
  - destruct (lt_dec i (k + has_variable j + variables cs)) as [B|B].
    + destruct (IC (k + has_variable j)%nat ltac:(lia)) as (n & p & j' & L & V). exists n, ((j, k) :: p), j'. split; [constructor; exact L|exact V].
    + destruct (IR (k + has_variable j + variables cs)%nat ltac:(lia)) as (n & p & j' & L & V). exists n, p, j'. split; [constructor; exact L|exact V].
Qed.
Lemma leads_inv k m j cs rest n w : leads k (Link m j cs rest) n w ->
  (n = m /\ w = [(j, k)]) \/ (exists p, w = (j, k) :: p /\ leads (k + has_variable j) cs n p) \/ leads (k + has_variable j + variables cs) rest n w.
Proof.
  intros L. remember (Link m j cs rest) as l eqn:E. destruct L as [k n j0 cs0 rest0|k m0 j0 cs0 rest0 n p L|k m0 j0 cs0 rest0 n p L]; injection E as -> -> -> ->.
  - left. split; reflexivity.
  - right. left. exists p. split; [reflexivity|exact L].
  - right. right. exact L.
Qed.
Lemma leads_last k m j0 cs rest n p j i : leads k (Link m j0 cs rest) n (p ++ [(j, i)]) -> has_variable j = 1%nat ->
  (n = m /\ i = k /\ (i < k + has_variable j0)%nat) \/
  (exists p', leads (k + has_variable j0) cs n (p' ++ [(j, i)]) /\ (k + has_variable j0 <= i < k + has_variable j0 + variables cs)%nat) \/
  (leads (k + has_variable j0 + variables cs) rest n (p ++ [(j, i)]) /\ (k + has_variable j0 + variables cs <= i)%nat).
Proof.
  intros L V. apply leads_inv in L. destruct L as [[E W]|[(w & W & L)|L]].
  - left. destruct p as [|a p]; [|destruct p; discriminate W]. cbn in W. injection W as -> ->. split; [exact E|]. split; [reflexivity|lia].
  - right. left. destruct p as [|a p]; cbn in W.
    + injection W as _ _ W. subst w. elim (leads_nonempty _ _ _ _ L). reflexivity.
    + injection W as _ W. subst w. exists p. split; [exact L|exact (leads_range _ _ _ _ _ _ L V)].
  - right. right. split; [exact L|]. pose proof (leads_range _ _ _ _ _ _ L V). lia.
Qed.
Lemma number_unique ls : forall k n p j n' p' j' i, leads k ls n (p ++ [(j, i)]) -> has_variable j = 1%nat -> leads k ls n' (p' ++ [(j', i)]) -> has_variable j' = 1%nat -> n' = n.
Proof.
  induction ls as [|m j0 cs IC rest IR]; intros k n p j n' p' j' i L V L' V'; [inversion L|].
  destruct (leads_last _ _ _ _ _ _ _ _ _ L V) as [(E & I1 & I2)|[(w & L1 & I1)|(L1 & I1)]];
    destruct (leads_last _ _ _ _ _ _ _ _ _ L' V') as [(E' & J1 & J2)|[(w' & L1' & J1)|(L1' & J1)]]; try lia.
  - congruence.
  - exact (IC _ _ _ _ _ _ _ _ L1 V L1' V').
  - exact (IR _ _ _ _ _ _ _ _ L1 V L1' V').
Qed.
Lemma joint_numbers root ls : proper_robot root ls -> forall i, (i < variables ls)%nat ->
  exists n p j, leads 0 ls n (p ++ [(j, i)]) /\ has_variable j = 1%nat /\
    forall n' p' j', leads 0 ls n' (p' ++ [(j', i)]) -> has_variable j' = 1%nat -> n' = n.
Proof.
  intros _ i I. destruct (variable_number 0%nat ls i ltac:(lia)) as (n & p & j & L & V). exists n, p, j. split; [exact L|]. split; [exact V|].
  intros n' p' j' L' V'. exact (number_unique ls _ _ _ _ _ _ _ _ L V L' V').
Qed.
(** -- placement -- *)
Lemma robot_placement base cs m root ls g q : calls3 (new_mb3 base) cs = Ok (Some m) -> Forall (fun l => unit_quat (sq_quat l)) (added3 cs) ->
  proper_robot root ls -> List.length q = variables ls -> (0 < variables ls)%nat ->
  has_bodies ls (List.length (added3 cs)) -> rigid3 g ->
  exists m', robot_tf3_urdf (Some (root, ls)) m g q = Ok (Some m') /\ List.length (mb3_links m') = List.length (added3 cs) /\
    same_shape3 (mb3_base m') base /\ (forall v, in3 (body_of3 (mb3_base m')) (move3 g v) <-> base_points base v) /\
    forall k l0 n p, nth_error (added3 cs) k = Some l0 -> names_body n k -> leads 0 ls n p ->
      exists l, nth_error (map fst (mb3_links m')) k = Some l /\ same_shape3 l l0 /\
        forall v, in3 (body_of3 l) (move3 g (chain_point q p v)) <-> in3 (body_of3 l0) v.
Proof.
  intros H U PR QL QP KN0 RG. pose proof (bodies_iff ls _ KN0) as KN. pose proof (built_calls3 base cs [] (new_mb3 base) m (built_new3 base) H) as B. cbn [app] in B.
  destruct (placed_urdf root ls q base _ m g PR QL QP KN B RG U) as (ts & m' & _ & LT & RT & MT & E & _ & B' & SB & SL).
  exists m'. split; [exact E|]. split; [symmetry; exact (f2_length _ _ _ (proj2 B'))|]. split; [exact (proj1 B')|].
  split; [intros v; exact (move_base3 _ base g v RG (proj1 B') SB)|].
  intros k l0 n p N NB L. apply names_iff in NB. subst n. destruct (SL k l0 N) as (lt & N' & SS & ST). exists (fst lt). split; [rewrite nth_error_map, N'; reflexivity|]. split; [exact SS|].
  assert (KL : (k < List.length ts)%nat) by (rewrite LT; apply nth_error_Some; rewrite N; discriminate).
  destruct (nth_error ts k) as [h|] eqn:EK; [|apply nth_error_None in EK; lia]. cbn zeta in ST.
  intros v. rewrite <- (MT k h EK p L v), <- move_comp3. apply move_in3; [apply rigid_comp3; [exact RG|exact (RT k h EK)]| |exact SS|exact ST].
  rewrite Forall_forall in U. apply U. eapply nth_error_In. exact N.
Qed.
Lemma articulated_exact collide cgal n base cs m obs root ls p u q : exact_fcl collide -> calls3 (new_mb3 base) cs = Ok (Some m) ->
  Forall robot_ellipsoid (base :: added3 cs) -> Forall robot_ellipsoid obs -> unit_quat u ->
  proper_robot root ls -> List.length q = variables ls -> (0 < variables ls)%nat ->
  has_bodies ls (List.length (added3 cs)) ->
  exists objs b, setups3 cgal m obs (S n) = Ok objs /\ articulated_valid collide objs obs m (Some (root, ls)) p u q = Ok b /\
    (b = true <-> forall o x, In o obs -> articulated_points base (added3 cs) ls q (rotm u, p) x -> ~ in3 (body_of3 o) x).
Proof.
  intros X H F G U PR QL QP KN0. pose proof (bodies_iff ls _ KN0) as KN. pose proof (built_calls3 base cs [] (new_mb3 base) m (built_new3 base) H) as B. cbn [app] in B.
  assert (UL : Forall (fun l => unit_quat (sq_quat l)) (added3 cs)).
  { inversion F as [|b0 l' FB FL]; subst. apply Forall_forall. intros l I. rewrite Forall_forall in FL. exact (proj1 (proj2 (FL l I))). }
  destruct (placed_urdf root ls q base _ m (rotm u, p) PR QL QP KN B (rotm_rotation u U) UL) as (ts & m' & _ & LT & RT & MT & E & EK & _).
  destruct (spatial_valid_exact collide cgal n base cs m obs p u (nth_error ts) X H F G U RT) as (objs & b & ES & EV & HB).
  exists objs, b. split; [exact ES|]. split.
  - unfold articulated_valid. rewrite E. cbn [obind]. unfold state_valid3 in EV. rewrite EK in EV. exact EV.
  - rewrite HB. assert (EQ : forall x, robot_points3 base (added3 cs) (rotm u, p) (nth_error ts) x <-> articulated_points base (added3 cs) ls q (rotm u, p) x).
    { intros x. unfold robot_points3, articulated_points. split; (intros [W|W]; [left; destruct W as (v & W1 & W2); exists v; split; assumption|right]).
      - destruct W as (k & l0 & l & N & I & ->). assert (KL : (k < List.length (added3 cs))%nat) by (apply nth_error_Some; rewrite N; discriminate).
        destruct (leads_exists ls _ 0%nat (KN k KL)) as [pp L]. exists k, l0, (body_name k), pp, l. split; [exact N|]. split; [apply names_iff; reflexivity|]. split; [exact L|]. split; [exact I|].
        destruct (nth_error ts k) as [h|] eqn:ET; [rewrite (MT k h ET pp L l); reflexivity|apply nth_error_None in ET; lia].
      - destruct W as (k & l0 & nm & pp & v & N & NB & L & I & ->). apply names_iff in NB. subst nm. assert (KL : (k < List.length (added3 cs))%nat) by (apply nth_error_Some; rewrite N; discriminate).
        exists k, l0, v. split; [exact N|]. split; [exact I|].
        destruct (nth_error ts k) as [h|] eqn:ET; [rewrite (MT k h ET pp L v); reflexivity|apply nth_error_None in ET; lia]. }
    unfold robot_clear3. split; intros K o x I J; [apply (K o x I); apply EQ; exact J|apply (K o x I); apply EQ; exact J].
Qed.
(** -- what is not reported -- *)
Lemma not_reported :
  (forall m g q, robot_tf3_urdf None m g q = Ok (robot_tf3 m g)) /\
  (forall root ls m g q, proper_robot root ls -> List.length q <> variables ls -> robot_tf3_urdf (Some (root, ls)) m g q = Ok (robot_tf3 m g)) /\
  (forall root ls q n, proper_robot root ls -> n <> root -> ~ In n (link_names ls) ->
     exists T, get_transform (parse_urdf (Some (root, ls))) q n = Ok (Some T) /\ forall v, move3 T v = v).
Proof.
  split; [|split].
  - intros m g q. apply rigid_urdf. right. intros k _. apply lookup_none. cbn. intros [E|[]]. exact (body_not_root k (eq_sym E)).
  - intros root ls m g q [_ ND] N. apply rigid_urdf. left. destruct (tree_spec root ls ND) as (_ & KJ & _). cbn [parse_urdf]. rewrite KJ. exact N.
  - intros root ls q n [_ ND] N1 N2. exists frame_id. split; [|exact move_id]. apply transform_error. right. apply lookup_none. cbn [parse_urdf].
    destruct (tree_spec root ls ND) as (KM & _). rewrite KM. intros [E|E]; [exact (N1 (eq_sym E))|exact (N2 E)].
Qed.
Lemma no_joints root ls n : proper_robot root ls -> variables ls = 0%nat -> n = root \/ In n (link_names ls) ->
  get_transform (parse_urdf (Some (root, ls))) [] n = UB.
Proof.
  intros [_ ND] V H. destruct (tree_spec root ls ND) as (KM & KJ & _). cbn [parse_urdf]. set (t := tree_of root ls) in *.
  assert (I : In n (map fst (kt_map t))) by (rewrite KM; destruct H as [->|H]; [left; reflexivity|right; exact H]).
  destruct (lookup_some n _ I) as [e E]. unfold get_transform, jnt_to_cart. rewrite KJ, V. cbn [List.length Nat.eqb]. rewrite E.
  destruct (kt_map t) as [|a r] eqn:M; [destruct I|]. cbn [List.length recursive_fk]. rewrite M, E. unfold idx. destruct (ke_q e); reflexivity.
Qed.
