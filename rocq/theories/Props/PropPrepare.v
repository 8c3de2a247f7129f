(** C104: preparing a planning scene (parsePlanningConfig) and loading it. *)
From Coq Require Import List Ascii String Bool ZArith Arith Lia Reals Lra.
From Verif.Base Require Import Outcome Float64 FloatFacts.
From Verif.Model Require Import MGeom MMultiBody MCsv MStore MSettings MPrepare.
From Verif.Spec Require Import SGeom SRigid SUtil SStore SSettings SPrepare.
From Verif.Proofs Require Import PStore PSettings PSettingsX PPrepare PPrepareQ.
Import ListNotations.

(** Whatever the files hold, and wherever it stops: the scene files of the steps before the one that
    stopped hold the converted rows; that of the step itself is as it was or holds the rows before the
    offending one and at most the beginning of another line; those of later steps, and all other
    files, are as they were.  Without an exception all four steps were done. *)
Theorem C104_every_stopping_point stof turnq res cfg opens fs objectType envType robotType dim fs' r : dim = "2D"%string \/ dim = "3D"%string ->
  (forall n, In n (resource_files res objectType envType robotType dim) -> ~ In n (config_files cfg dim)) ->
  prepare stof turnq res cfg opens fs objectType envType robotType dim = (fs', r) ->
  exists k, (k = 4 /\ r = Ok Datatypes.tt \/ k < 4 /\ exists e, r = Throw e) /\
    (forall n, ~ In n (config_files cfg dim) -> fs' n = fs n) /\
    forall i inp out, nth_error (resource_files res objectType envType robotType dim) i = Some inp -> nth_error (config_files cfg dim) i = Some out ->
      (i < k -> exists rows R, parse_csv stof (fs inp) = Ok rows /\ Forall2 (step_to turnq robotType dim i) rows R /\
                  if opens out then holds (fs' out) R else fs' out = fs out) /\
      (i = k -> fs' out = fs out \/ exists rows R, parse_csv stof (fs inp) = Ok rows /\ Forall2 (step_to turnq robotType dim i) (firstn (List.length R) rows) R /\
                  List.length R < List.length rows /\ cut_after (fs' out) R) /\
      (k < i -> fs' out = fs out).
Proof. exact (prepare_stages stof turnq res cfg opens fs objectType envType robotType dim fs' r). Qed.
Print Assumptions C104_every_stopping_point.

(** If every row can be converted (no empty line, starts and goals long enough), the call returns and every
    file that could be opened reads back as the converted rows, each number within 5.1 millionths. *)
Theorem C104_converts stof turnq res cfg opens fs objectType envType robotType dim rows R : dim = "2D"%string \/ dim = "3D"%string ->
  (forall n, In n (resource_files res objectType envType robotType dim) -> ~ In n (config_files cfg dim)) ->
  (forall i inp, nth_error (resource_files res objectType envType robotType dim) i = Some inp ->
     parse_csv stof (fs inp) = Ok (rows i) /\ Forall2 (step_to turnq robotType dim i) (rows i) (R i)) ->
  exists fs', prepare stof turnq res cfg opens fs objectType envType robotType dim = (fs', Ok Datatypes.tt) /\
    (forall n, ~ In n (config_files cfg dim) -> fs' n = fs n) /\
    forall i out, nth_error (config_files cfg dim) i = Some out ->
      (opens out = false -> fs' out = fs out) /\
      (opens out = true -> holds (fs' out) (R i) /\
         (stof [] = Invalid -> come_back stof (R i) -> exists back, parse_csv stof (fs' out) = Ok back /\ Forall2 (Forall2 near) (R i) back)).
Proof.
  intros D AL H. destruct (prepare_ok stof turnq res cfg opens fs objectType envType robotType dim rows R D AL H) as (fs' & C & O & W).
  exists fs'. split; [exact C|]. split; [exact O|]. intros i out Ho. specialize (W i out Ho). destruct (opens out).
  - split; [intros E; discriminate E|]. intros _. split; [exact W|]. intros S0 B. exact (back_rows stof (R i) _ S0 B W).
  - split; [intros _; exact W|intros E; discriminate E].
Qed.
Print Assumptions C104_converts.

(** ---- the scene a planner then loads ---- *)
(** Planar: preparing and loading gives arena, obstacles, robot and end points of the resource files in
    their order, with every number within 5.1 millionths. *)
Theorem C104_planar_scene stof turnq res cfg opens fs objectType envType robotType rows R num : stof [] = Invalid ->
  (forall n, In n (resource_files res objectType envType robotType "2D") -> ~ In n (config_files cfg "2D")) -> (forall n, In n (config_files cfg "2D") -> opens n = true) ->
  (forall i inp, nth_error (resource_files res objectType envType robotType "2D") i = Some inp ->
     parse_csv stof (fs inp) = Ok (rows i) /\ Forall2 (step_to turnq robotType "2D" i) (rows i) (R i) /\ come_back stof (R i)) ->
  (forall i, i < 3 -> Forall (fun c => 6 <= List.length c) (rows i)) -> rows 2 <> [] ->
  exists fs' arena obstacles ends B base links, prepare stof turnq res cfg opens fs objectType envType robotType "2D" = (fs', Ok Datatypes.tt) /\
    load_environment2 stof num fs' (cfg ++ "/") = Ok (arena, obstacles, ends) /\
    Forall2 (shape_near2 num) (rows 0) arena /\ Forall2 (shape_near2 num) (rows 1) obstacles /\ Forall2 (end_near turnq robotType "2D") (rows 3) ends /\
    parse_csv stof (fs' (cfg ++ "/robot_config_2D.csv")%string) = Ok B /\ robot_parts2 num B = Ok (base, links) /\ robot_rows (shape_near2 num) (rows 2) base links.
Proof.
  intros S0 AL OP H L N.
  destruct (C104_converts stof turnq res cfg opens fs objectType envType robotType "2D" rows R (or_introl eq_refl) AL (fun i inp Hi => conj (proj1 (H i inp Hi)) (proj1 (proj2 (H i inp Hi))))) as (fs' & C & _ & W).
  assert (X : forall i inp out, nth_error (resource_files res objectType envType robotType "2D") i = Some inp -> nth_error (config_files cfg "2D") i = Some out ->
    Forall2 (step_to turnq robotType "2D" i) (rows i) (R i) /\ exists B, parse_csv stof (fs' out) = Ok B /\ Forall2 (Forall2 near) (R i) B).
  { intros i inp out Hi Ho. destruct (H i inp Hi) as (_ & F & CB). split; [exact F|]. exact (proj2 (proj2 (W i out Ho) (OP out (nth_error_In _ _ Ho))) S0 CB). }
  destruct (X 0 _ _ eq_refl eq_refl) as (F0 & B0 & P0 & N0). destruct (X 1 _ _ eq_refl eq_refl) as (F1 & B1 & P1 & N1).
  destruct (X 2 _ _ eq_refl eq_refl) as (F2 & B2 & P2 & N2). destruct (X 3 _ _ eq_refl eq_refl) as (F3 & B3 & P3 & N3). clear X W H.
  destruct (load_near2 turnq num _ _ _ F0 N0 (L 0 ltac:(lia))) as (ar & E0 & A0). destruct (load_near2 turnq num _ _ _ F1 N1 (L 1 ltac:(lia))) as (ob & E1 & A1).
  destruct (load_near2 turnq num _ _ _ F2 N2 (L 2 ltac:(lia))) as (rb & E2 & A2). destruct (robot_cons _ _ _ N A2) as (base & links & -> & RR).
  exists fs', ar, ob, B3, B2, base, links. split; [exact C|]. split; [|split; [exact A0|split; [exact A1|split; [exact (ends_near _ _ _ _ _ _ F3 N3)|split; [exact P2|split; [|exact RR]]]]]].
  - unfold load_environment2, load2_file. rewrite !append_assoc. cbn [append] in *. rewrite P0. cbn [obind]. rewrite E0. cbn [obind]. rewrite P1. cbn [obind]. rewrite E1. cbn [obind]. rewrite P3. reflexivity.
  - unfold robot_parts2. rewrite E2. reflexivity.
Qed.
Print Assumptions C104_planar_scene.
(** Spatial: the same, the bodies' axes and angles turned into quaternions. *)
Theorem C104_spatial_scene stof turnq res cfg opens fs objectType envType robotType rows R num : stof [] = Invalid ->
  (forall n, In n (resource_files res objectType envType robotType "3D") -> ~ In n (config_files cfg "3D")) -> (forall n, In n (config_files cfg "3D") -> opens n = true) ->
  (forall i inp, nth_error (resource_files res objectType envType robotType "3D") i = Some inp ->
     parse_csv stof (fs inp) = Ok (rows i) /\ Forall2 (step_to turnq robotType "3D" i) (rows i) (R i) /\ come_back stof (R i)) ->
  (forall i, i < 3 -> Forall (fun c => 12 <= List.length c) (rows i)) -> rows 2 <> [] ->
  exists fs' arena obstacles ends B base links, prepare stof turnq res cfg opens fs objectType envType robotType "3D" = (fs', Ok Datatypes.tt) /\
    load_environment3 stof num fs' (cfg ++ "/") = Ok (arena, obstacles, ends) /\
    Forall2 (shape_near3 turnq num) (rows 0) arena /\ Forall2 (shape_near3 turnq num) (rows 1) obstacles /\ Forall2 (end_near turnq robotType "3D") (rows 3) ends /\
    parse_csv stof (fs' (cfg ++ "/robot_config_3D.csv")%string) = Ok B /\ robot_parts3 num B None = Ok (base, links, []) /\ robot_rows (shape_near3 turnq num) (rows 2) base links.
Proof.
  intros S0 AL OP H L N.
  destruct (C104_converts stof turnq res cfg opens fs objectType envType robotType "3D" rows R (or_intror eq_refl) AL (fun i inp Hi => conj (proj1 (H i inp Hi)) (proj1 (proj2 (H i inp Hi))))) as (fs' & C & _ & W).
  assert (X : forall i inp out, nth_error (resource_files res objectType envType robotType "3D") i = Some inp -> nth_error (config_files cfg "3D") i = Some out ->
    Forall2 (step_to turnq robotType "3D" i) (rows i) (R i) /\ exists B, parse_csv stof (fs' out) = Ok B /\ Forall2 (Forall2 near) (R i) B).
  { intros i inp out Hi Ho. destruct (H i inp Hi) as (_ & F & CB). split; [exact F|]. exact (proj2 (proj2 (W i out Ho) (OP out (nth_error_In _ _ Ho))) S0 CB). }
  destruct (X 0 _ _ eq_refl eq_refl) as (F0 & B0 & P0 & N0). destruct (X 1 _ _ eq_refl eq_refl) as (F1 & B1 & P1 & N1).
  destruct (X 2 _ _ eq_refl eq_refl) as (F2 & B2 & P2 & N2). destruct (X 3 _ _ eq_refl eq_refl) as (F3 & B3 & P3 & N3). clear X W H.
  destruct (load_near3 turnq num _ _ _ F0 N0 (L 0 ltac:(lia))) as (ar & E0 & A0). destruct (load_near3 turnq num _ _ _ F1 N1 (L 1 ltac:(lia))) as (ob & E1 & A1).
  destruct (load_near3 turnq num _ _ _ F2 N2 (L 2 ltac:(lia))) as (rb & E2 & A2). destruct (robot_cons _ _ _ N A2) as (base & links & -> & RR).
  exists fs', ar, ob, B3, B2, base, links. split; [exact C|]. split; [|split; [exact A0|split; [exact A1|split; [exact (ends_near _ _ _ _ _ _ F3 N3)|split; [exact P2|split; [|exact RR]]]]]].
  - unfold load_environment3, load3_file. rewrite !append_assoc. cbn [append] in *. rewrite P0. cbn [obind]. rewrite E0. cbn [obind]. rewrite P1. cbn [obind]. rewrite E1. cbn [obind]. rewrite P3. reflexivity.
  - unfold robot_parts3. rewrite E2. reflexivity.
Qed.
Print Assumptions C104_spatial_scene.

(** What C104_spatial_scene says of a body with axis and angle: lengths, exponents and centre as in the file
    (each within 5.1 millionths), and the body turned about the direction of its axis by its angle, each
    coordinate of a turned point up to 3/10000 of the point's largest coordinate. *)
Theorem C104_spatial_orientation turnq num a b d e1 e2 x y z u v w t s : V3r (fval u) (fval v) (fval w) <> V3r 0 0 0 -> accurate turnq u v w t ->
  shape_near3 turnq num [a; b; d; e1; e2; x; y; z; u; v; w; t] s ->
  exists a' b' d' e1' e2' x' y' z' dir, g_axes s = [a'; b'; d'] /\ g_eps s = [e1'; e2'] /\ g_pos s = [x'; y'; z'] /\ g_num s = num /\
    Forall2 near [a; b; d; e1; e2; x; y; z] [a'; b'; d'; e1'; e2'; x'; y'; z'] /\ direction (V3r (fval u) (fval v) (fval w)) dir /\
    forall p m, (Rabs (x3 p) <= m -> Rabs (y3 p) <= m -> Rabs (z3 p) <= m ->
      let e := sub3 (turned_by s p) (turned dir (fval t) p) in
      Rabs (x3 e) <= 3 / 10000 * m /\ Rabs (y3 e) <= 3 / 10000 * m /\ Rabs (z3 e) <= 3 / 10000 * m)%R.
Proof. exact (prepared_pose turnq num a b d e1 e2 x y z u v w t s). Qed.
Print Assumptions C104_spatial_orientation.
(** Non-vacuity: a body that is not turned. *)
Definition unit_turn (u v w t : f64) : f64 * f64 * f64 * f64 := (fofZ 1, fofZ 0, fofZ 0, fofZ 0).
Lemma near_self k : (Z.abs k <= 1)%Z -> near (fofZ k) (fofZ k).
Proof.
  intros K. split; [apply fofZ_fin; lia|]. rewrite Rminus_diag_eq, Rabs_R0 by reflexivity. apply Rmult_le_pos; [lra|apply Rabs_pos].
Qed.
Example C104_spatial_orientation_example : let o := fofZ 1 in let n := fofZ 0 in
  V3r (fval n) (fval n) (fval o) <> V3r 0 0 0 /\ accurate unit_turn n n o n /\
  shape_near3 unit_turn 7 [o; o; o; o; o; n; n; n; n; n; o; n] (Sh3 [o; o; o] [o; o] [n; n; n] (o, n, n, n) 7).
Proof.
  cbv zeta. assert (V1 : fval (fofZ 1) = 1%R) by (rewrite fofZ_val by lia; reflexivity). assert (V0 : fval (fofZ 0) = 0%R) by (rewrite fofZ_val by lia; reflexivity).
  split; [|split].
  - intros E. apply (f_equal z3) in E. cbn [z3] in E. lra.
  - exists (fofZ 1), (fofZ 0), (fofZ 0), (fofZ 0), (Q 1 0 0 0). rewrite V1, V0. split; [reflexivity|]. cbn [qw qx qy qz].
    split; [|rewrite !Rminus_diag_eq, Rabs_R0 by reflexivity; repeat split; lra].
    split; [intros _|intros E; apply (f_equal z3) in E; cbn [z3] in E; lra]. split; [unfold unit_quat; cbn; ring|]. exists (V3r 0 0 1). split; [split; [unfold dot3; cbn; ring|exists 1%R; split; [lra|unfold scale3; cbn; f_equal; ring]]|].
    intros v. unfold turn, turned, hmul, hconj, scale3, add3, dot3. rewrite cos_0, sin_0. destruct v as [p q r]. cbn. f_equal; ring.
  - exists [fofZ 1; fofZ 1; fofZ 1; fofZ 1; fofZ 1; fofZ 0; fofZ 0; fofZ 0; fofZ 1; fofZ 0; fofZ 0; fofZ 0], [fofZ 1; fofZ 1; fofZ 1; fofZ 1; fofZ 1; fofZ 0; fofZ 0; fofZ 0; fofZ 1; fofZ 0; fofZ 0; fofZ 0].
    split; [left; do 16 eexists; split; [reflexivity|split; reflexivity]|]. split; [cbn [firstn]; repeat (apply Forall2_cons; [apply near_self; lia|]); apply Forall2_nil|].
    do 12 eexists. exists []. split; reflexivity.
Qed.

(** ---- what a failure leaves ---- *)
(** A failed call does not leave the previous scene: without an obstacle file it throws, and the arena is
    the new one while the obstacles, the robot and the end points are the old ones. *)
Theorem C104_failure_keeps_the_scene_refuted stof turnq res cfg opens fs objectType envType robotType dim rows R : dim = "2D"%string \/ dim = "3D"%string ->
  (forall n, In n (resource_files res objectType envType robotType dim) -> ~ In n (config_files cfg dim)) -> (forall n, In n (config_files cfg dim) -> opens n = true) ->
  (forall inp, nth_error (resource_files res objectType envType robotType dim) 0 = Some inp -> parse_csv stof (fs inp) = Ok rows) -> Forall2 (body_to turnq) rows R ->
  (forall inp, nth_error (resource_files res objectType envType robotType dim) 1 = Some inp -> fs inp = None) ->
  exists fs', prepare stof turnq res cfg opens fs objectType envType robotType dim = (fs', Throw InvalidArgument) /\
    (forall out, nth_error (config_files cfg dim) 0 = Some out -> holds (fs' out) R) /\
    forall n, nth_error (config_files cfg dim) 0 <> Some n -> fs' n = fs n.
Proof.
  intros D AL OP P F M. pose proof (P _ eq_refl) as P0. pose proof (M _ eq_refl) as M1.
  rewrite (prepare_jobs stof turnq res cfg opens). unfold jobs_of.
  change (resource_files res objectType envType robotType dim) with
    [nth 0 (resource_files res objectType envType robotType dim) ""%string; nth 1 (resource_files res objectType envType robotType dim) ""%string;
     nth 2 (resource_files res objectType envType robotType dim) ""%string; nth 3 (resource_files res objectType envType robotType dim) ""%string].
  change (config_files cfg dim) with (nth 0 (config_files cfg dim) ""%string :: tl (config_files cfg dim)).
  set (o := nth 0 (config_files cfg dim) ""%string) in *. cbn [combine].
  change (tl (config_files cfg dim)) with (nth 1 (config_files cfg dim) ""%string :: tl (tl (config_files cfg dim))). cbn [combine convert_all]. unfold convert_file.
  change (nth 0 (resource_files res objectType envType robotType dim) ""%string) with (res ++ "/" ++ dim ++ "/env_" ++ (objectType ++ "_" ++ envType ++ "_" ++ dim) ++ "_arena.csv")%string.
  rewrite P0, (written_ok _ _ (geo_ok turnq) rows R F), (OP o) by (left; reflexivity).
  change (nth 1 (resource_files res objectType envType robotType dim) ""%string) with (res ++ "/" ++ dim ++ "/env_" ++ (objectType ++ "_" ++ envType ++ "_" ++ dim) ++ "_obstacle.csv")%string.
  rewrite write_other, M1 by (intros E; exact (AL _ (or_intror (or_introl eq_refl)) (or_introl (eq_sym E)))). cbn [parse_csv].
  eexists. split; [reflexivity|]. split.
  - intros out Ho. injection Ho as <-. rewrite write_same. apply held. exact (rel_rows _ _ (geo_ok turnq) rows R F).
  - intros n Hn. apply write_other. intros E. apply Hn. subst n. reflexivity.
Qed.
Print Assumptions C104_failure_keeps_the_scene_refuted.
(** A file that cannot be written is not reported. *)
Theorem C104_unwritten_reported_refuted stof turnq res cfg fs objectType envType robotType dim rows R : dim = "2D"%string \/ dim = "3D"%string ->
  (forall n, In n (resource_files res objectType envType robotType dim) -> ~ In n (config_files cfg dim)) ->
  (forall i inp, nth_error (resource_files res objectType envType robotType dim) i = Some inp ->
     parse_csv stof (fs inp) = Ok (rows i) /\ Forall2 (step_to turnq robotType dim i) (rows i) (R i)) ->
  exists fs', prepare stof turnq res cfg (fun _ => false) fs objectType envType robotType dim = (fs', Ok Datatypes.tt) /\ forall n, fs' n = fs n.
Proof.
  intros D AL H. destruct (C104_converts stof turnq res cfg (fun _ => false) fs objectType envType robotType dim rows R D AL H) as (fs' & C & O & W).
  exists fs'. split; [exact C|]. intros n. destruct (in_dec string_dec n (config_files cfg dim)) as [I|I]; [|exact (O n I)].
  apply In_nth_error in I. destruct I as [i Hi]. exact (proj1 (W i n Hi) eq_refl).
Qed.
Print Assumptions C104_unwritten_reported_refuted.
(** An empty line in a file of bodies is an exception. *)
Theorem C104_empty_line_throws stof turnq res cfg opens fs objectType envType robotType dim i inp rows : dim = "2D"%string \/ dim = "3D"%string ->
  (forall n, In n (resource_files res objectType envType robotType dim) -> ~ In n (config_files cfg dim)) ->
  i < 3 -> nth_error (resource_files res objectType envType robotType dim) i = Some inp -> parse_csv stof (fs inp) = Ok rows -> In [] rows ->
  exists fs' e, prepare stof turnq res cfg opens fs objectType envType robotType dim = (fs', Throw e).
Proof.
  intros D AL Li Hi P I. destruct (prepare stof turnq res cfg opens fs objectType envType robotType dim) as [fs' r] eqn:E.
  destruct (C104_every_stopping_point stof turnq res cfg opens fs objectType envType robotType dim fs' r D AL E) as (k & [(-> & ->)|(_ & e & ->)] & _ & S); [|exists fs', e; reflexivity].
  exfalso. assert (exists out, nth_error (config_files cfg dim) i = Some out) as [out Ho].
  { destruct (nth_error (config_files cfg dim) i) as [out|] eqn:Q; [exists out; reflexivity|]. apply nth_error_None in Q. cbn in Q. lia. }
  destruct (proj1 (S i inp out Hi Ho) ltac:(lia)) as (rows' & R & P' & F & _). rewrite P in P'. injection P' as <-.
  unfold step_to in F. destruct (Nat.ltb_spec i 3) as [_|X]; [|lia].
  clear - F I. induction F as [|c r rows R h _ IH]; [destruct I|]. destruct I as [-> |I]; [|exact (IH I)].
  destruct h as [(a & b & d & e1 & e2 & x & y & z & u & v & w & t & qw & qx & qy & qz & h & _)|(h & _)]; [discriminate h|exact (h eq_refl)].
Qed.
Print Assumptions C104_empty_line_throws.

Lemma all_step stof opens row inp out rest fs fs' : convert_all stof opens ((row, inp, out) :: rest) fs = (fs', Ok Datatypes.tt) ->
  exists f, convert_file stof opens row fs inp out = (f, Ok Datatypes.tt) /\ convert_all stof opens rest f = (fs', Ok Datatypes.tt).
Proof.
  cbn [convert_all]. destruct (convert_file stof opens row fs inp out) as [f [[]|e|]]; intros H; [|discriminate H..]. exists f. split; [reflexivity|exact H].
Qed.
(** Any other dimension, such as "2d", is not reported: whatever starts and goals the resource holds, a
    call that returns has emptied the end point file. *)
Theorem C104_other_dimension_no_ends stof turnq res cfg opens fs objectType envType robotType dim fs' out : dim <> "2D"%string -> dim <> "3D"%string ->
  nth_error (config_files cfg dim) 3 = Some out -> opens out = true ->
  prepare stof turnq res cfg opens fs objectType envType robotType dim = (fs', Ok Datatypes.tt) -> fs' out = Some [].
Proof.
  intros N2 N3 O W H. cbn in O. injection O as <-. unfold prepare in H.
  apply all_step in H. destruct H as (f1 & _ & H). apply all_step in H. destruct H as (f2 & _ & H). apply all_step in H. destruct H as (f3 & _ & H).
  apply all_step in H. destruct H as (f4 & F & H). cbn [convert_all] in H. injection H as <-. unfold convert_file in F.
  destruct (parse_csv stof _) as [rows| |]; [|discriminate F..].
  assert (E : forall l, written (goal_row turnq robotType dim) l = ([], None)).
  { intros l. clear F. induction l as [|r l IH]; [reflexivity|]. cbn [written]. unfold goal_row at 1. apply String.eqb_neq in N2, N3. rewrite N2, N3. rewrite IH. reflexivity. }
  rewrite E in F. cbn [append] in W, F. rewrite W in F. injection F as <-. unfold write. rewrite String.eqb_refl. reflexivity.
Qed.
Print Assumptions C104_other_dimension_no_ends.

(** Non-vacuity: scenes of ones. *)
Definition one_stof (f : list ascii) : stof_result :=
  match f with [c] => if Ascii.eqb c (ascii_of_nat 49) then Value (fofZ 1) else Invalid | _ => Invalid end.
Definition ones (n : nat) : list ascii := joined comma (repeat [ascii_of_nat 49] n).
Definition one_files (n : nat) (dim : string) : files :=
  fun name => if in_dec string_dec name (resource_files "r" "o" "e" "b" dim) then Some (ones n) else None.
Definition one_turn (u v w t : f64) : f64 * f64 * f64 * f64 := (u, v, w, t).
Lemma ones_read n fs : data_lines (ones n) = [ones n] -> line_fields (ones n) = repeat [ascii_of_nat 49] n -> fs = Some (ones n) -> parse_csv one_stof fs = Ok [repeat (fofZ 1) n].
Proof.
  intros D L ->. rewrite parse_readable; [|split; [reflexivity|]].
  - rewrite D. cbn [map]. unfold numbers_of. rewrite L. do 2 f_equal. clear. induction n as [|n IH]; [reflexivity|]. cbn [repeat flat_map]. rewrite IH. reflexivity.
  - intros l g _ _. unfold one_stof. destruct g as [|c [|? ?]]; try discriminate. destruct (Ascii.eqb c (ascii_of_nat 49)); discriminate.
Qed.
Lemma ones_back R : (forall r x, In r R -> In x r -> x = fofZ 1) -> come_back one_stof R.
Proof.
  intros H r x Hr Hx. rewrite (H r x Hr Hx). split; [apply fofZ_fin; lia|]. assert (T : number_text (fofZ 1) = ["1"%char]) by (vm_compute; reflexivity). rewrite T.
  intros q Hq. change (Some (IZR 1) = Some q) in Hq. injection Hq as <-. exists (fofZ 1). split; [reflexivity|]. split; [apply fofZ_fin; lia|].
  rewrite fofZ_val by lia. rewrite Rminus_diag_eq, Rabs_R0 by reflexivity. apply Rmult_le_pos; [left; apply Rinv_0_lt_compat, pow_lt; lra|apply Rabs_pos].
Qed.
Example C104_example dim n : dim = "2D"%string /\ n = 6 \/ dim = "3D"%string /\ n = 12 ->
  let rows := fun _ : nat => [repeat (fofZ 1) n] in
  let R := fun i : nat => if Nat.ltb i 3 then [repeat (fofZ 1) n] else [repeat (fofZ 1) (if String.eqb dim "2D" then 3 else 7)] in
  one_stof [] = Invalid /\ (forall m, In m (resource_files "r" "o" "e" "b" dim) -> ~ In m (config_files "c" dim)) /\
  (forall i inp, nth_error (resource_files "r" "o" "e" "b" dim) i = Some inp ->
     parse_csv one_stof (one_files n dim inp) = Ok (rows i) /\ Forall2 (step_to one_turn "b" dim i) (rows i) (R i) /\ come_back one_stof (R i)) /\
  (forall i, i < 3 -> Forall (fun c => n <= List.length c) (rows i)) /\ rows 2 <> [] /\
  (forall inp, nth_error (resource_files "r" "o" "e" "b" dim) 1 = Some inp -> (fun m => if string_dec m inp then None else one_files n dim m) inp = None).
Proof.
  intros D rows R. split; [reflexivity|]. split; [|split; [|split; [|split]]].
  - intros m Hm Hc. destruct D as [(-> & _)|(-> & _)]; cbn in Hm, Hc; decompose [or] Hm; subst; decompose [or] Hc; try contradiction; discriminate.
  - intros i inp Hi. split; [|split].
    + apply ones_read; [destruct D as [(_ & ->)|(_ & ->)]; vm_compute; reflexivity|destruct D as [(_ & ->)|(_ & ->)]; vm_compute; reflexivity|].
      unfold one_files. destruct (in_dec string_dec inp (resource_files "r" "o" "e" "b" dim)) as [_|N]; [reflexivity|]. exfalso. apply N. exact (nth_error_In _ _ Hi).
    + unfold rows, R, step_to. destruct (Nat.ltb i 3); (constructor; [|constructor]).
      * destruct D as [(-> & ->)|(-> & ->)]; [right; split; [discriminate|split; [discriminate|reflexivity]]|]. left. do 16 eexists. split; [reflexivity|]. split; reflexivity.
      * destruct D as [(-> & ->)|(-> & ->)]; cbn [String.eqb Ascii.eqb Bool.eqb]; [left; split; [reflexivity|]; do 4 eexists; split; [reflexivity|reflexivity]|].
        right. split; [reflexivity|]. do 12 eexists. split; [reflexivity|]. split; [reflexivity|]. split; [cbn; lia|reflexivity].
    + apply ones_back. intros r x Hr Hx. unfold R in Hr. destruct (Nat.ltb i 3); (destruct Hr as [<-|[]]; exact (repeat_spec _ _ _ Hx)).
  - intros i _. constructor; [|constructor]. rewrite repeat_length. lia.
  - discriminate.
  - intros inp _. destruct (string_dec inp inp) as [_|N]; [reflexivity|contradiction].
Qed.
(** The same for "2d": the call returns, although the resource holds a start. *)
Example C104_other_dimension_example : exists fs', prepare one_stof one_turn "r" "c" (fun _ => true) (one_files 6 "2d") "o" "e" "b" "2d" = (fs', Ok Datatypes.tt) /\
  parse_csv one_stof (one_files 6 "2d" (ends_in "r" "o" "e" "2d")) = Ok [repeat (fofZ 1) 6] /\ fs' "c/end_points_2d.csv"%string = Some [].
Proof.
  assert (P : parse_csv one_stof (Some (ones 6)) = Ok [repeat (fofZ 1) 6]) by (apply ones_read; [vm_compute; reflexivity|vm_compute; reflexivity|reflexivity]).
  assert (Q : forall fs row inp out, fs inp = Some (ones 6) -> snd (row (repeat (fofZ 1) 6)) = None ->
    convert_file one_stof (fun _ => true) row fs inp out = (write fs out (fst (row (repeat (fofZ 1) 6)) ++ []), Ok Datatypes.tt)).
  { intros fs row inp out F R. unfold convert_file. rewrite F, P. cbn [written]. destruct (row (repeat (fofZ 1) 6)) as [t e]. cbn [fst snd] in *. rewrite R. reflexivity. }
  assert (W : forall fs row inp out rest, fs inp = Some (ones 6) -> snd (row (repeat (fofZ 1) 6)) = None ->
    convert_all one_stof (fun _ => true) ((row, inp, out) :: rest) fs = convert_all one_stof (fun _ => true) rest (write fs out (fst (row (repeat (fofZ 1) 6)) ++ []))).
  { intros fs row inp out rest F R. cbn [convert_all]. rewrite (Q fs row inp out F R). reflexivity. }
  eexists. split; [|split].
  - unfold prepare. rewrite W by reflexivity. rewrite W by reflexivity. rewrite W by reflexivity. rewrite W by reflexivity. cbn [convert_all]. reflexivity.
  - exact P.
  - reflexivity.
Qed.
