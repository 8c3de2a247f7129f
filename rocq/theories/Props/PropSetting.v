(** C105: settings (PlannerSetting2D, PlannerSetting3D) after a history of calls. *)
From Coq Require Import List Ascii String Bool ZArith Arith Lia.
From Verif.Base Require Import Outcome Float64.
From Verif.Model Require Import MCsv MStore MSettings MSetting.
From Verif.Spec Require Import SUtil SStore SSettings SSetting.
From Verif.Proofs Require Import PSettings PSettingsX PSetting.
Import ListNotations.

(** How loadEnvironment ends, whatever the files hold: normally exactly if the three files give their parts;
    with the exception e exactly if the first file that cannot be used is unreadable with e; undefined
    exactly if the first file that cannot be used has too short a line. *)
Theorem C105_planar_endings stof num files pre s : stof [] = Invalid -> let r := snd (load_scene2 stof num files pre s) in
  (r = Ok tt <-> forall p, exists v, gives stof (row_is2 num) p (files (file_of "2D" pre p)) v) /\
  (forall e, r = Throw e <-> exists p, reaches stof (row_is2 num) "2D" files pre p /\ unreadable stof (files (file_of "2D" pre p)) e) /\
  (r = UB <-> exists p, reaches stof (row_is2 num) "2D" files pre p /\ too_short stof 6 p (files (file_of "2D" pre p))).
Proof. intros S0. exact (load_ends _ stof _ _ 6 "2D" S0 (loader2 stof num S0) (row2_len num) files pre s). Qed.
Print Assumptions C105_planar_endings.
Theorem C105_spatial_endings stof num files pre s : stof [] = Invalid -> let r := snd (load_scene3 stof num files pre s) in
  (r = Ok tt <-> forall p, exists v, gives stof (row_is3 num) p (files (file_of "3D" pre p)) v) /\
  (forall e, r = Throw e <-> exists p, reaches stof (row_is3 num) "3D" files pre p /\ unreadable stof (files (file_of "3D" pre p)) e) /\
  (r = UB <-> exists p, reaches stof (row_is3 num) "3D" files pre p /\ too_short stof 12 p (files (file_of "3D" pre p))).
Proof. intros S0. exact (load_ends _ stof _ _ 12 "3D" S0 (loader3 stof num S0) (row3_len num) files pre s). Qed.
Print Assumptions C105_spatial_endings.

(** After any history of calls without undefined behaviour, exceptions caught: each getter shows what the
    last call that wrote its part gave, or an empty list if no call wrote it. *)
Theorem C105_planar_last_writer stof num cs s : stof [] = Invalid -> history2 stof num cs new_setting = Ok s -> forall p,
  (exists h1 c h2 v, cs = h1 ++ c :: h2 /\ writes stof (row_is2 num) "2D" c p v /\ shows s p = v /\ forall c' w, In c' h2 -> ~ writes stof (row_is2 num) "2D" c' p w) \/
  ((forall c w, In c cs -> ~ writes stof (row_is2 num) "2D" c p w) /\ shows s p = nothing p).
Proof.
  intros S0 H p. destruct (last_writer _ stof _ _ 6 "2D" S0 (loader2 stof num S0) (row2_len num) cs new_setting s H p) as [L|(N & E)]; [left; exact L|right].
  split; [exact N|]. rewrite E. destruct p; reflexivity.
Qed.
Print Assumptions C105_planar_last_writer.
Theorem C105_spatial_last_writer stof num cs s : stof [] = Invalid -> history3 stof num cs new_setting = Ok s -> forall p,
  (exists h1 c h2 v, cs = h1 ++ c :: h2 /\ writes stof (row_is3 num) "3D" c p v /\ shows s p = v /\ forall c' w, In c' h2 -> ~ writes stof (row_is3 num) "3D" c' p w) \/
  ((forall c w, In c cs -> ~ writes stof (row_is3 num) "3D" c p w) /\ shows s p = nothing p).
Proof.
  intros S0 H p. destruct (last_writer _ stof _ _ 12 "3D" S0 (loader3 stof num S0) (row3_len num) cs new_setting s H p) as [L|(N & E)]; [left; exact L|right].
  split; [exact N|]. rewrite E. destruct p; reflexivity.
Qed.
Print Assumptions C105_spatial_last_writer.

(** A loading that returns leaves no trace of what was there before, in particular of failed loadings. *)
Theorem C105_success_forgets stof num files pre : 
  (forall s t s', load_scene2 stof num files pre s = (s', Ok tt) -> load_scene2 stof num files pre t = (s', Ok tt)) /\
  (forall s t s', load_scene3 stof num files pre s = (s', Ok tt) -> load_scene3 stof num files pre t = (s', Ok tt)) /\
  (forall s a o e, load_scene2 stof num files pre s = (Setting a o e, Ok tt) <-> load_environment2 stof num files pre = Ok (a, o, e)) /\
  (forall s a o e, load_scene3 stof num files pre s = (Setting a o e, Ok tt) <-> load_environment3 stof num files pre = Ok (a, o, e)).
Proof.
  assert (X2 : forall s a o e, load_scene2 stof num files pre s = (Setting a o e, Ok tt) <-> load_environment2 stof num files pre = Ok (a, o, e)).
  { intros s a o e. unfold load_scene2, load_environment, load_environment2. cbn [append].
    change (load2_file stof num (files (pre ++ "arena_config_2D.csv")%string) (t_arena s)) with (load2_file stof num (files (pre ++ "arena_config_2D.csv")%string) []).
    destruct (load2_file stof num (files (pre ++ "arena_config_2D.csv")%string) []) as [x| |]; cbn [obind t_obstacle t_arena t_ends]; [|split; intros H; discriminate H..].
    change (load2_file stof num (files (pre ++ "obstacle_config_2D.csv")%string) (t_obstacle s)) with (load2_file stof num (files (pre ++ "obstacle_config_2D.csv")%string) []).
    destruct (load2_file stof num (files (pre ++ "obstacle_config_2D.csv")%string) []) as [y| |]; cbn [obind t_obstacle t_arena t_ends]; [|split; intros H; discriminate H..].
    destruct (parse_csv stof (files (pre ++ "end_points_2D.csv")%string)) as [z| |]; cbn [obind]; [|split; intros H; discriminate H..].
    split; intros H; injection H as -> -> ->; reflexivity. }
  assert (X3 : forall s a o e, load_scene3 stof num files pre s = (Setting a o e, Ok tt) <-> load_environment3 stof num files pre = Ok (a, o, e)).
  { intros s a o e. unfold load_scene3, load_environment, load_environment3. cbn [append].
    change (load3_file stof num (files (pre ++ "arena_config_3D.csv")%string) (t_arena s)) with (load3_file stof num (files (pre ++ "arena_config_3D.csv")%string) []).
    destruct (load3_file stof num (files (pre ++ "arena_config_3D.csv")%string) []) as [x| |]; cbn [obind t_obstacle t_arena t_ends]; [|split; intros H; discriminate H..].
    change (load3_file stof num (files (pre ++ "obstacle_config_3D.csv")%string) (t_obstacle s)) with (load3_file stof num (files (pre ++ "obstacle_config_3D.csv")%string) []).
    destruct (load3_file stof num (files (pre ++ "obstacle_config_3D.csv")%string) []) as [y| |]; cbn [obind t_obstacle t_arena t_ends]; [|split; intros H; discriminate H..].
    destruct (parse_csv stof (files (pre ++ "end_points_3D.csv")%string)) as [z| |]; cbn [obind]; [|split; intros H; discriminate H..].
    split; intros H; injection H as -> -> ->; reflexivity. }
  split; [|split; [|split; [exact X2|exact X3]]]; intros s t [a o e] H; [apply X2; apply X2 in H; exact H|apply X3; apply X3 in H; exact H].
Qed.
Print Assumptions C105_success_forgets.

(** Refuted: a loading that throws leaves the setting as it was.  With a usable arena file and an unreadable
    obstacle file the arena is the new one, obstacles and end points are the old ones. *)
Theorem C105_failure_keeps_the_scene_refuted stof num files pre s l e : stof [] = Invalid ->
  gives stof (row_is2 num) Arena (files (file_of "2D" pre Arena)) (Shapes l) -> unreadable stof (files (file_of "2D" pre Obstacles)) e ->
  load_scene2 stof num files pre s = (Setting l (t_obstacle s) (t_ends s), Throw e).
Proof.
  intros S0 G U. pose proof (load_cases _ stof _ _ 6 "2D" S0 (loader2 stof num S0) files pre s) as C. cbv zeta in C.
  pose proof (proj1 (proj2 (C105_planar_endings stof num files pre s S0)) e) as Ee. cbv zeta in Ee.
  assert (R : snd (load_scene2 stof num files pre s) = Throw e) by (apply Ee; exists Obstacles; split; [intros q [<-|[]]; eexists; exact G|exact U]).
  fold (load_scene2 stof num files pre s) in C. destruct (load_scene2 stof num files pre s) as [s' r]. cbn [snd] in R. subst r. f_equal.
  destruct C as [(a & o & x & _ & Go & _)|[(St & _)|[(a & Ga & _ & ->)|(a & o & _ & Go & _)]]].
  - contradiction (unread_not_gives _ _ _ _ _ _ _ U Go).
  - contradiction (stop_not_gives _ _ _ _ (row2_len num) _ _ _ _ St G).
  - pose proof (gives_fun _ _ _ (row2_fun num) _ _ _ _ G Ga) as E. injection E as ->. reflexivity.
  - contradiction (unread_not_gives _ _ _ _ _ _ _ U Go).
Qed.
Print Assumptions C105_failure_keeps_the_scene_refuted.

Theorem C105_spatial_failure_keeps_the_scene_refuted stof num files pre s l e : stof [] = Invalid ->
  gives stof (row_is3 num) Arena (files (file_of "3D" pre Arena)) (Shapes l) -> unreadable stof (files (file_of "3D" pre Obstacles)) e ->
  load_scene3 stof num files pre s = (Setting l (t_obstacle s) (t_ends s), Throw e).
Proof.
  intros S0 G U. pose proof (load_cases _ stof _ _ 12 "3D" S0 (loader3 stof num S0) files pre s) as C. cbv zeta in C.
  pose proof (proj1 (proj2 (C105_spatial_endings stof num files pre s S0)) e) as Ee. cbv zeta in Ee.
  assert (R : snd (load_scene3 stof num files pre s) = Throw e) by (apply Ee; exists Obstacles; split; [intros q [<-|[]]; eexists; exact G|exact U]).
  fold (load_scene3 stof num files pre s) in C. destruct (load_scene3 stof num files pre s) as [s' r]. cbn [snd] in R. subst r. f_equal.
  destruct C as [(a & o & x & _ & Go & _)|[(St & _)|[(a & Ga & _ & ->)|(a & o & _ & Go & _)]]].
  - contradiction (unread_not_gives _ _ _ _ _ _ _ U Go).
  - contradiction (stop_not_gives _ _ _ _ (row3_len num) _ _ _ _ St G).
  - pose proof (gives_fun _ _ _ (row3_fun num) _ _ _ _ G Ga) as E. injection E as ->. reflexivity.
  - contradiction (unread_not_gives _ _ _ _ _ _ _ U Go).
Qed.
Print Assumptions C105_spatial_failure_keeps_the_scene_refuted.

(** The shapes of a setting have its number of points if those given to the setters have. *)
Theorem C105_points_per_shape stof num cs s : stof [] = Invalid -> history2 stof num cs new_setting = Ok s ->
  (forall l, In (SetArena l) cs \/ In (SetObstacle l) cs -> Forall (fun x => h_num x = num) l) ->
  Forall (fun x => h_num x = num) (t_arena s) /\ Forall (fun x => h_num x = num) (t_obstacle s).
Proof.
  intros S0 H G. assert (X : forall p l, shows s p = Shapes l -> Forall (fun x => h_num x = num) l).
  { intros p l E. destruct (C105_planar_last_writer stof num cs s S0 H p) as [(h1 & c & h2 & v & -> & W & V & _)|(_ & N)].
    - rewrite V in E. subst v. destruct c as [a|o|e|files pre]; cbn [writes] in W.
      + destruct W as (_ & W). injection W as ->. apply G. left. apply in_or_app. right. left. reflexivity.
      + destruct W as (_ & W). injection W as ->. apply G. right. apply in_or_app. right. left. reflexivity.
      + destruct W as (_ & W). discriminate W.
      + destruct W as (_ & text & _ & _ & W). assert (F : exists k, Shapes l = Shapes k /\ Forall2 (fun line => row_is2 num (numbers_of stof line)) (data_lines text) k) by (destruct p; [exact W|exact W|discriminate W]).
        destruct F as (k & E & F). injection E as <-. clear - F. induction F as [|x y xs ys h _ IH]; constructor; [|exact IH]. destruct h as (? & ? & ? & ? & ? & ? & ? & _ & ->). reflexivity.
    - rewrite N in E. destruct p; cbn [nothing] in E; [injection E as <-; constructor|injection E as <-; constructor|discriminate E]. }
  split; [exact (X Arena _ eq_refl)|exact (X Obstacles _ eq_refl)].
Qed.
Print Assumptions C105_points_per_shape.

Theorem C105_spatial_points_per_shape stof num cs s : stof [] = Invalid -> history3 stof num cs new_setting = Ok s ->
  (forall l, In (SetArena l) cs \/ In (SetObstacle l) cs -> Forall (fun x => g_num x = num) l) ->
  Forall (fun x => g_num x = num) (t_arena s) /\ Forall (fun x => g_num x = num) (t_obstacle s).
Proof.
  intros S0 H G. assert (X : forall p l, shows s p = Shapes l -> Forall (fun x => g_num x = num) l).
  { intros p l E. destruct (C105_spatial_last_writer stof num cs s S0 H p) as [(h1 & c & h2 & v & -> & W & V & _)|(_ & N)].
    - rewrite V in E. subst v. destruct c as [a|o|e|files pre]; cbn [writes] in W.
      + destruct W as (_ & W). injection W as ->. apply G. left. apply in_or_app. right. left. reflexivity.
      + destruct W as (_ & W). injection W as ->. apply G. right. apply in_or_app. right. left. reflexivity.
      + destruct W as (_ & W). discriminate W.
      + destruct W as (_ & text & _ & _ & W). assert (F : exists k, Shapes l = Shapes k /\ Forall2 (fun line => row_is3 num (numbers_of stof line)) (data_lines text) k) by (destruct p; [exact W|exact W|discriminate W]).
        destruct F as (k & E & F). injection E as <-. clear - F. induction F as [|x y xs ys h _ IH]; constructor; [|exact IH]. destruct h as (? & ? & ? & ? & ? & ? & ? & ? & ? & ? & ? & ? & ? & _ & ->). reflexivity.
    - rewrite N in E. destruct p; cbn [nothing] in E; [injection E as <-; constructor|injection E as <-; constructor|discriminate E]. }
  split; [exact (X Arena _ eq_refl)|exact (X Obstacles _ eq_refl)].
Qed.
Print Assumptions C105_spatial_points_per_shape.

(** Non-vacuity: a scene of ones, then a loading whose obstacle file is missing, then one that is complete. *)
Definition stof1 (f : list ascii) : stof_result :=
  match f with [c] => if Ascii.eqb c (ascii_of_nat 49) then Value (fofZ 1%Z) else Invalid | _ => Invalid end.
Definition line1 : list ascii := joined comma (repeat [ascii_of_nat 49] 6).
Definition shape1 : sh2 f64 := Sh2 [fofZ 1%Z; fofZ 1%Z] (fofZ 1%Z) [fofZ 1%Z; fofZ 1%Z] (fofZ 1%Z) 5.
Definition some_files (missing : string) (n : string) : option (list ascii) := if String.eqb n missing then None else Some line1.
Lemma line1_readable : readable stof1 line1 /\ data_lines line1 = [line1] /\ numbers_of stof1 line1 = repeat (fofZ 1%Z) 6.
Proof.
  split; [|split; [vm_compute; reflexivity|]].
  - split; [reflexivity|]. intros l f _ _. unfold stof1. destruct f as [|c [|? ?]]; try discriminate. destruct (Ascii.eqb c (ascii_of_nat 49)); discriminate.
  - unfold numbers_of. assert (L : line_fields line1 = repeat [ascii_of_nat 49] 6) by (vm_compute; reflexivity). rewrite L. reflexivity.
Qed.
Lemma some_gives missing p pre : file_of "2D" pre p <> missing -> exists v, gives stof1 (row_is2 5) p (some_files missing (file_of "2D" pre p)) v /\ (p <> EndPoints -> v = Shapes [shape1]).
Proof.
  intros N. unfold some_files. destruct (String.eqb_spec (file_of "2D" pre p) missing) as [E|_]; [contradiction|]. destruct line1_readable as (R & D & L).
  assert (G : exists l, Shapes [shape1] = Shapes l /\ Forall2 (fun line => row_is2 5 (numbers_of stof1 line)) (data_lines line1) l).
  { exists [shape1]. split; [reflexivity|]. rewrite D. constructor; [|constructor]. rewrite L. do 7 eexists. split; [instantiate (1 := []); reflexivity|reflexivity]. }
  destruct p; [exists (Shapes [shape1])|exists (Shapes [shape1])|eexists]; (split; [exists line1; split; [reflexivity|split; [exact R|]]|]); try exact G; try reflexivity; intros X; try reflexivity; contradiction X; reflexivity.
Qed.
Example C105_example : let cs := [LoadEnvironment (some_files "nothing") "c/"; SetArena []; LoadEnvironment (some_files "c/obstacle_config_2D.csv") "c/"] in
  exists s, history2 stof1 5 cs new_setting = Ok s /\ t_arena s = [shape1] /\ t_obstacle s = [shape1] /\
    snd (load_scene2 stof1 5 (some_files "c/obstacle_config_2D.csv") "c/" s) = Throw InvalidArgument.
Proof.
  cbv zeta. assert (S0 : stof1 [] = Invalid) by reflexivity.
  assert (A : snd (load_scene2 stof1 5 (some_files "nothing") "c/" new_setting) = Ok tt).
  { apply (proj1 (C105_planar_endings stof1 5 (some_files "nothing") "c/" new_setting S0)). intros p. destruct (some_gives "nothing" p "c/") as (v & G & _); [destruct p; discriminate|]. exists v. exact G. }
  destruct (load_scene2 stof1 5 (some_files "nothing") "c/" new_setting) as [s1 r1] eqn:E1. cbn [snd] in A. subst r1.
  assert (O1 : t_obstacle s1 = [shape1]).
  { pose proof (load_cases _ stof1 _ _ 6 "2D" S0 (loader2 stof1 5 S0) (some_files "nothing") "c/" new_setting) as C. cbv zeta in C. fold (load_scene2 stof1 5 (some_files "nothing") "c/" new_setting) in C. rewrite E1 in C.
    destruct C as [(a & o & e & _ & Go & _ & -> & _)|[([(e & X & _)|(X & _)] & _)|[(a & _ & [(e & X & _)|(X & _)] & _)|(a & o & _ & _ & [(e & X & _)|(X & _)] & _)]]]; try discriminate X.
    destruct (some_gives "nothing" Obstacles "c/") as (v & G & V); [discriminate|]. pose proof (gives_fun _ _ _ (row2_fun 5) _ _ _ _ G Go) as E. rewrite V in E by discriminate. injection E as <-. reflexivity. }
  set (s2 := Setting [] (t_obstacle s1) (t_ends s1)).
  assert (L : forall s, load_scene2 stof1 5 (some_files "c/obstacle_config_2D.csv") "c/" s = (Setting [shape1] (t_obstacle s) (t_ends s), Throw InvalidArgument)).
  { intros s. apply C105_failure_keeps_the_scene_refuted; [exact S0| |].
    - destruct (some_gives "c/obstacle_config_2D.csv" Arena "c/") as (v & G & V); [discriminate|]. rewrite <- V by discriminate. exact G.
    - left. split; reflexivity. }
  exists (Setting [shape1] (t_obstacle s2) (t_ends s2)). split; [|split; [reflexivity|split; [exact O1|rewrite L; reflexivity]]].
  assert (K : forall f s r t rest, load_scene2 stof1 5 f "c/" s = (t, r) -> r <> UB -> history2 stof1 5 (LoadEnvironment f "c/" :: rest) s = history2 stof1 5 rest t).
  { intros f s r t rest E N. unfold history2. cbn [history do_call]. unfold load_scene2 in E. rewrite E. destruct r; [reflexivity|reflexivity|contradiction N; reflexivity]. }
  rewrite (K _ _ _ _ _ E1) by discriminate. match goal with |- history2 _ _ (_ :: ?r) _ = _ => change (history2 stof1 5 r s2 = Ok (Setting [shape1] (t_obstacle s2) (t_ends s2))) end.
  rewrite (K _ _ _ _ _ (L s2)) by discriminate. reflexivity.
Qed.
