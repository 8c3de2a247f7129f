(** Proofs for C105: settings after a history of calls. *)
From Coq Require Import List Ascii String Bool Arith Lia.
From Verif.Base Require Import Outcome Float64.
From Verif.Model Require Import MCsv MSettings MSetting.
From Verif.Spec Require Import SUtil SSettings SSetting.
From Verif.Proofs Require Import PSettings PSettingsX PUtil.
Import ListNotations.

Section P.
Variable T : Type.
Variable stof : list ascii -> stof_result.
Variable load_file : option (list ascii) -> list T -> outcome (list T).
Variable row : list f64 -> T -> Prop.
Variable cols : nat.
Variable dim : string.
Hypothesis S0 : stof [] = Invalid.

Definition range_line (text : list ascii) : Prop := exists l f, In l (data_lines text) /\ In f (line_fields l) /\ stof f = Range.
Lemma range_dec text : range_line text \/ readable stof text.
Proof.
  destruct (Exists_dec (fun l => Exists (fun f => stof f = Range) (line_fields l)) (data_lines text) (fun l => Exists_dec _ (line_fields l) (field_dec stof))) as [E|E].
  - left. apply Exists_exists in E. destruct E as (l & Hl & E). apply Exists_exists in E. destruct E as (f & Hf & R). exists l, f. repeat split; assumption.
  - right. split; [exact S0|]. intros l f Hl Hf R. apply E. apply Exists_exists. exists l. split; [exact Hl|]. apply Exists_exists. exists f. split; assumption.
Qed.
Lemma parse_three file :
  (exists text, file = Some text /\ readable stof text /\ parse_csv stof file = Ok (map (numbers_of stof) (data_lines text))) \/
  (exists e, unreadable stof file e /\ parse_csv stof file = Throw e).
Proof.
  destruct file as [text|]; [|right; exists InvalidArgument; split; [left; split; reflexivity|reflexivity]].
  destruct (range_dec text) as [(l & f & Hl & Hf & R)|R].
  - right. exists OutOfRange. split; [right; exists text, l, f; repeat split; assumption|]. unfold parse_csv. rewrite getlines_nil. change newline with (ascii_of_nat 10).
    apply (parse_lines_range stof S0). unfold data_lines in Hl. apply filter_In in Hl. destruct Hl as [Hl Hc]. exists l, f. repeat split; try assumption. destruct (starts_with_hash l); [discriminate Hc|reflexivity].
  - left. exists text. split; [reflexivity|]. split; [exact R|]. apply parse_readable; exact R.
Qed.

(** What is needed of the loader: exactly the three cases. *)
Definition good_loader : Prop := forall file old,
  (exists text l, file = Some text /\ readable stof text /\ Forall2 (fun line => row (numbers_of stof line)) (data_lines text) l /\ load_file file old = Ok l) \/
  (exists e, unreadable stof file e /\ load_file file old = Throw e) \/
  (exists text line, file = Some text /\ readable stof text /\ In line (data_lines text) /\ List.length (numbers_of stof line) < cols /\ load_file file old = UB).
Hypothesis GL : good_loader.
Hypothesis RF : forall c a b, row c a -> row c b -> a = b.
Hypothesis RL : forall c a, row c a -> cols <= List.length c.

Lemma unread_not_readable file e text : unreadable stof file e -> file = Some text -> readable stof text -> False.
Proof.
  intros [(H & _)|(t & l & f & H & Hl & Hf & R & _)] E (_ & N); rewrite H in E; [discriminate E|]. injection E as ->. exact (N l f Hl Hf R).
Qed.
Lemma unread_not_gives file e p v : unreadable stof file e -> gives stof row p file v -> False.
Proof. intros U (text & E & R & _). exact (unread_not_readable _ _ _ U E R). Qed.
Lemma unread_fun file e1 e2 : unreadable stof file e1 -> unreadable stof file e2 -> e1 = e2.
Proof. intros [(H & ->)|(t & l & f & H & _ & _ & _ & ->)] [(K & ->)|(t' & l' & f' & K & _ & _ & _ & ->)]; rewrite H in K; try discriminate K; reflexivity. Qed.
Lemma rows_fun ls a b : Forall2 (fun line => row (numbers_of stof line)) ls a -> Forall2 (fun line => row (numbers_of stof line)) ls b -> a = b.
Proof.
  intros H. revert b. induction H as [|l x ls a h _ IH]; intros b K; inversion K; subst; [reflexivity|]. f_equal; [eapply RF; eassumption|apply IH; assumption].
Qed.
Lemma gives_fun p file v w : gives stof row p file v -> gives stof row p file w -> v = w.
Proof.
  intros (t & E & _ & G) (t' & E' & _ & G'). rewrite E in E'. injection E' as <-.
  destruct p; [| |rewrite G, G'; reflexivity]; destruct G as (a & -> & A); destruct G' as (b & -> & B); f_equal; exact (rows_fun _ _ _ A B).
Qed.
Lemma short_not_gives file p v : too_short stof cols p file -> gives stof row p file v -> False.
Proof.
  intros (N & text & l & E & _ & I & L) (t & E' & _ & G). rewrite E in E'. injection E' as <-.
  assert (exists a, Forall2 (fun line => row (numbers_of stof line)) (data_lines text) a) as [a F] by (destruct p; [destruct G as (a & _ & A); exists a; exact A|destruct G as (a & _ & A); exists a; exact A|contradiction (N eq_refl)]).
  clear - RL F I L. induction F as [|x y xs ys h _ IH]; [destruct I|]. destruct I as [->|I]; [|exact (IH I)]. apply RL in h. lia.
Qed.
Lemma short_not_unread file p e : too_short stof cols p file -> unreadable stof file e -> False.
Proof. intros (_ & text & l & E & R & _) U. exact (unread_not_readable _ _ _ U E R). Qed.

(** One file. *)
Lemma shape_file p file old : p <> EndPoints ->
  (exists l, gives stof row p file (Shapes l) /\ load_file file old = Ok l) \/ (exists e, unreadable stof file e /\ load_file file old = Throw e) \/
  (too_short stof cols p file /\ load_file file old = UB).
Proof.
  intros N. destruct (GL file old) as [(text & l & E & R & F & H)|[(e & U & H)|(text & line & E & R & I & L & H)]].
  - left. exists l. split; [|exact H]. exists text. split; [exact E|]. split; [exact R|]. destruct p; [exists l; split; [reflexivity|exact F]|exists l; split; [reflexivity|exact F]|contradiction].
  - right. left. exists e. split; assumption.
  - right. right. split; [|exact H]. split; [exact N|]. exists text, line. repeat (split; [assumption|]). assumption.
Qed.
Lemma points_file file :
  (exists l, gives stof row EndPoints file (Points l) /\ parse_csv stof file = Ok l) \/ (exists e, unreadable stof file e /\ parse_csv stof file = Throw e).
Proof.
  destruct (parse_three file) as [(text & E & R & H)|H]; [left|right; exact H]. exists (map (numbers_of stof) (data_lines text)). split; [|exact H].
  exists text. split; [exact E|]. split; [exact R|reflexivity].
Qed.

Definition stop (r : outcome unit) (file : option (list ascii)) (p : part) : Prop :=
  (exists e, r = Throw e /\ unreadable stof file e) \/ (r = UB /\ too_short stof cols p file).
(** One loading. *)
Lemma load_cases files pre s : let F := fun p => files (file_of dim pre p) in
  let '(s', r) := load_environment stof load_file dim files pre s in
  (exists a o e, gives stof row Arena (F Arena) (Shapes a) /\ gives stof row Obstacles (F Obstacles) (Shapes o) /\ gives stof row EndPoints (F EndPoints) (Points e) /\
     s' = Setting a o e /\ r = Ok tt) \/
  (stop r (F Arena) Arena /\ s' = s) \/
  (exists a, gives stof row Arena (F Arena) (Shapes a) /\ stop r (F Obstacles) Obstacles /\ s' = Setting a (t_obstacle s) (t_ends s)) \/
  (exists a o, gives stof row Arena (F Arena) (Shapes a) /\ gives stof row Obstacles (F Obstacles) (Shapes o) /\ stop r (F EndPoints) EndPoints /\ s' = Setting a o (t_ends s)).
Proof.
  intros F. unfold load_environment.
  change (files (pre ++ "arena_config_" ++ dim ++ ".csv")%string) with (F Arena). change (files (pre ++ "obstacle_config_" ++ dim ++ ".csv")%string) with (F Obstacles).
  change (files (pre ++ "end_points_" ++ dim ++ ".csv")%string) with (F EndPoints).
  destruct (shape_file Arena (F Arena) (t_arena s)) as [(a & Ga & ->)|[(e & U & ->)|(U & ->)]]; [discriminate| | |].
  2: { right; left. split; [left; exists e; split; [reflexivity|exact U]|reflexivity]. }
  2: { right; left. split; [right; split; [reflexivity|exact U]|reflexivity]. }
  cbn [t_obstacle t_arena t_ends].
  destruct (shape_file Obstacles (F Obstacles) (t_obstacle s)) as [(o & Go & ->)|[(e & U & ->)|(U & ->)]]; [discriminate| | |].
  2: { right; right; left. exists a. split; [exact Ga|]. split; [left; exists e; split; [reflexivity|exact U]|reflexivity]. }
  2: { right; right; left. exists a. split; [exact Ga|]. split; [right; split; [reflexivity|exact U]|reflexivity]. }
  destruct (points_file (F EndPoints)) as [(e & Ge & ->)|(x & U & ->)].
  - left. exists a, o, e. repeat (split; [assumption|]). split; reflexivity.
  - right; right; right. exists a, o. split; [exact Ga|]. split; [exact Go|]. split; [left; exists x; split; [reflexivity|exact U]|reflexivity].
Qed.
Lemma stop_not_gives r file p v : stop r file p -> gives stof row p file v -> False.
Proof. intros [(e & _ & U)|(_ & U)] G; [exact (unread_not_gives _ _ _ _ U G)|exact (short_not_gives _ _ _ U G)]. Qed.
Ltac reach := intros q [<-|[<-|[]]] || intros q [<-|[]] || intros q []; eexists; eassumption.
(** What a call leaves in each part. *)
Lemma call_parts c s s' r : do_call stof load_file dim c s = (s', r) -> r <> UB ->
  forall p, (exists v, writes stof row dim c p v /\ shows s' p = v) \/ ((forall v, ~ writes stof row dim c p v) /\ shows s' p = shows s p).
Proof.
  destruct c as [a|o|e|files pre]; cbn [do_call].
  - intros E _ p. injection E as <- <-. destruct p; cbn [shows t_arena t_obstacle t_ends writes]; [left; eexists; split; [split; reflexivity|reflexivity]|right; split; [intros v (X & _); discriminate X|reflexivity]..].
  - intros E _ p. injection E as <- <-. destruct p; cbn [shows t_arena t_obstacle t_ends writes]; [right; split; [intros v (X & _); discriminate X|reflexivity]|left; eexists; split; [split; reflexivity|reflexivity]|right; split; [intros v (X & _); discriminate X|reflexivity]].
  - intros E _ p. injection E as <- <-. destruct p; cbn [shows t_arena t_obstacle t_ends writes]; [right; split; [intros v (X & _); discriminate X|reflexivity]..|left; eexists; split; [split; reflexivity|reflexivity]].
  - intros E N p. pose proof (load_cases files pre s) as C. cbv zeta in C. rewrite E in C.
    destruct C as [(a & o & e & Ga & Go & Ge & -> & _)|[(St & ->)|[(a & Ga & St & ->)|(a & o & Ga & Go & St & ->)]]].
    + left. destruct p; cbn [shows t_arena t_obstacle t_ends writes before]; eexists; (split; [split; [|eassumption]|reflexivity]).
      * intros q [].
      * intros q [<-|[]]. eexists; exact Ga.
      * intros q [<-|[<-|[]]]; eexists; eassumption.
    + right. split; [|reflexivity]. intros v (R & G). destruct p.
      * exact (stop_not_gives _ _ _ _ St G).
      * destruct (R Arena (or_introl eq_refl)) as (w & G'). exact (stop_not_gives _ _ _ _ St G').
      * destruct (R Arena (or_introl eq_refl)) as (w & G'). exact (stop_not_gives _ _ _ _ St G').
    + destruct p; cbn [shows t_arena t_obstacle t_ends].
      * left. eexists. split; [split; [intros q []|exact Ga]|reflexivity].
      * right. split; [|reflexivity]. intros v (_ & G). exact (stop_not_gives _ _ _ _ St G).
      * right. split; [|reflexivity]. intros v (R & _). destruct (R Obstacles (or_intror (or_introl eq_refl))) as (w & G'). exact (stop_not_gives _ _ _ _ St G').
    + destruct p; cbn [shows t_arena t_obstacle t_ends].
      * left. eexists. split; [split; [intros q []|exact Ga]|reflexivity].
      * left. eexists. split; [split; [intros q [<-|[]]; eexists; exact Ga|exact Go]|reflexivity].
      * right. split; [|reflexivity]. intros v (_ & G). exact (stop_not_gives _ _ _ _ St G).
Qed.
(** How a loading ends. *)
Lemma load_ends files pre s : let F := fun p => files (file_of dim pre p) in let r := snd (load_environment stof load_file dim files pre s) in
  (r = Ok tt <-> forall p, exists v, gives stof row p (F p) v) /\
  (forall e, r = Throw e <-> exists p, reaches stof row dim files pre p /\ unreadable stof (F p) e) /\
  (r = UB <-> exists p, reaches stof row dim files pre p /\ too_short stof cols p (F p)).
Proof.
  intros F r. pose proof (load_cases files pre s) as C. cbv zeta in C. subst r. destruct (load_environment stof load_file dim files pre s) as [s' r] eqn:E. cbn [snd].
  assert (X : forall p, reaches stof row dim files pre p -> stop r (F p) p ->
    (r = Ok tt <-> forall p, exists v, gives stof row p (F p) v) /\ (forall e, r = Throw e <-> exists p, reaches stof row dim files pre p /\ unreadable stof (F p) e) /\
    (r = UB <-> exists p, reaches stof row dim files pre p /\ too_short stof cols p (F p))).
  { intros p Rp St.
    assert (U : forall q, reaches stof row dim files pre q -> (exists e, unreadable stof (F q) e) \/ too_short stof cols q (F q) -> q = p).
    { intros q Rq Bq. assert (NG : forall v, ~ gives stof row q (F q) v) by (intros v G; destruct Bq as [(e & Ue)|Ts]; [exact (unread_not_gives _ _ _ _ Ue G)|exact (short_not_gives _ _ _ Ts G)]).
      assert (NP : forall v, ~ gives stof row p (F p) v) by (intros v G; exact (stop_not_gives _ _ _ _ St G)).
      assert (QP : ~ In q (before p)) by (intros I; destruct (Rp q I) as (v & G); exact (NG v G)). assert (PQ : ~ In p (before q)) by (intros I; destruct (Rq p I) as (v & G); exact (NP v G)).
      destruct p, q; try reflexivity; exfalso; first [apply QP; cbn; tauto|apply PQ; cbn; tauto]. }
    split; [|split].
    - split; [intros ->; destruct St as [(e & X & _)|(X & _)]; discriminate X|]. intros A. destruct (A p) as (v & G). contradiction (stop_not_gives _ _ _ _ St G).
    - intros e. split.
      + intros ->. exists p. split; [exact Rp|]. destruct St as [(e' & X & Ue)|(X & _)]; [injection X as <-; exact Ue|discriminate X].
      + intros (q & Rq & Ue). rewrite (U q Rq (or_introl (ex_intro _ e Ue))) in Ue. destruct St as [(e' & -> & Ue')|(_ & Ts)]; [rewrite (unread_fun _ _ _ Ue Ue'); reflexivity|contradiction (short_not_unread _ _ _ Ts Ue)].
    - split.
      + intros ->. exists p. split; [exact Rp|]. destruct St as [(e' & X & _)|(_ & Ts)]; [discriminate X|exact Ts].
      + intros (q & Rq & Ts). rewrite (U q Rq (or_intror Ts)) in Ts. destruct St as [(e' & _ & Ue')|(-> & _)]; [contradiction (short_not_unread _ _ _ Ts Ue')|reflexivity]. }
  destruct C as [(a & o & e & Ga & Go & Ge & _ & ->)|[(St & _)|[(a & Ga & St & _)|(a & o & Ga & Go & St & _)]]].
  - assert (G : forall p, exists v, gives stof row p (F p) v) by (intros p; destruct p; eexists; eassumption). split; [split; [intros _; exact G|reflexivity]|]. split.
    + intros x. split; [intros Y; discriminate Y|]. intros (p & _ & U). destruct (G p) as (v & Gv). contradiction (unread_not_gives _ _ _ _ U Gv).
    + split; [intros Y; discriminate Y|]. intros (p & _ & U). destruct (G p) as (v & Gv). contradiction (short_not_gives _ _ _ U Gv).
  - apply (X Arena); [intros q []|exact St].
  - apply (X Obstacles); [intros q [<-|[]]; eexists; exact Ga|exact St].
  - apply (X EndPoints); [intros q [<-|[<-|[]]]; eexists; eassumption|exact St].
Qed.
(** Histories. *)
Lemma last_writer cs : forall s s', history stof load_file dim cs s = Ok s' -> forall p,
  (exists h1 c h2 v, cs = h1 ++ c :: h2 /\ writes stof row dim c p v /\ shows s' p = v /\ forall c' w, In c' h2 -> ~ writes stof row dim c' p w) \/
  ((forall c w, In c cs -> ~ writes stof row dim c p w) /\ shows s' p = shows s p).
Proof.
  induction cs as [|c cs IH]; intros s s' H p; cbn [history] in H.
  - injection H as <-. right. split; [intros c w []|reflexivity].
  - destruct (do_call stof load_file dim c s) as [s1 r] eqn:E. assert (N : r <> UB) by (intros ->; discriminate H).
    assert (H' : history stof load_file dim cs s1 = Ok s') by (destruct r; [exact H|exact H|contradiction N; reflexivity]).
    destruct (IH s1 s' H' p) as [(h1 & c' & h2 & v & -> & W & S & L)|(L & S)].
    + left. exists (c :: h1), c', h2, v. repeat split; assumption.
    + destruct (call_parts c s s1 r E N p) as [(v & W & V)|(W & V)].
      * left. exists [], c, cs, v. split; [reflexivity|]. split; [exact W|]. split; [rewrite S; exact V|]. intros c' w I. exact (L c' w I).
      * right. split; [|rewrite S; exact V]. intros c' w [<-|I]; [exact (W w)|exact (L c' w I)].
Qed.
End P.

Lemma row2_fun num c a b : row_is2 (A:=f64) num c a -> row_is2 num c b -> a = b.
Proof. intros (q1 & q2 & q3 & q4 & q5 & q6 & r & E & ->) (p1 & p2 & p3 & p4 & p5 & p6 & r' & E' & ->). rewrite E in E'. injection E' as <- <- <- <- <- <- _. reflexivity. Qed.
Lemma row3_fun num c a b : row_is3 (A:=f64) num c a -> row_is3 num c b -> a = b.
Proof.
  intros (q1 & q2 & q3 & q4 & q5 & q6 & q7 & q8 & q9 & q10 & q11 & q12 & r & E & ->) (p1 & p2 & p3 & p4 & p5 & p6 & p7 & p8 & p9 & p10 & p11 & p12 & r' & E' & ->).
  rewrite E in E'. injection E' as <- <- <- <- <- <- <- <- <- <- <- <- _. reflexivity.
Qed.
Lemma row2_len num c a : row_is2 (A:=f64) num c a -> 6 <= List.length c.
Proof. intros (q1 & q2 & q3 & q4 & q5 & q6 & r & -> & _). rewrite app_length. cbn [List.length]. lia. Qed.
Lemma row3_len num c a : row_is3 (A:=f64) num c a -> 12 <= List.length c.
Proof. intros (q1 & q2 & q3 & q4 & q5 & q6 & q7 & q8 & q9 & q10 & q11 & q12 & r & -> & _). rewrite app_length. cbn [List.length]. lia. Qed.
Lemma row2_some num (c : list f64) : 6 <= List.length c -> exists a, row_is2 num c a.
Proof. intros L. do 6 (destruct c as [|? c]; [cbn in L; lia|]). eexists. do 7 eexists. split; reflexivity. Qed.
Lemma row3_some num (c : list f64) : 12 <= List.length c -> exists a, row_is3 num c a.
Proof. intros L. do 12 (destruct c as [|? c]; [cbn in L; lia|]). eexists. do 13 eexists. split; reflexivity. Qed.
Lemma rows_or_short {B S} (P : B -> S -> Prop) (len : B -> nat) n (ls : list B) : (forall c, n <= len c -> exists a, P c a) ->
  (exists l, Forall2 P ls l) \/ exists c, In c ls /\ len c < n.
Proof.
  intros H. induction ls as [|c ls IH]; [left; exists []; constructor|]. destruct IH as [(l & F)|(d & I & L)]; [|right; exists d; split; [right; exact I|exact L]].
  destruct (le_lt_dec n (len c)) as [L|L]; [|right; exists c; split; [left; reflexivity|exact L]]. destruct (H c L) as (a & A). left. exists (a :: l). constructor; assumption.
Qed.
Lemma loader2 stof num : stof [] = Invalid -> good_loader _ stof (load2_file stof num) (row_is2 num) 6.
Proof.
  intros S0 file old. destruct (parse_three stof S0 file) as [(text & -> & R & P)|(e & U & P)].
  - destruct (rows_or_short (fun line => row_is2 num (numbers_of stof line)) (fun line => List.length (numbers_of stof line)) 6 (data_lines text) (fun c => row2_some num _)) as [(l & F)|(c & I & L)].
    + left. exists text, l. split; [reflexivity|]. split; [exact R|]. split; [exact F|]. apply (file2_iff stof num text old l R). exact F.
    + right; right. exists text, c. repeat (split; [first [reflexivity|assumption]|]). exact (file2_short stof num text old c R I L).
  - right; left. exists e. split; [exact U|]. unfold load2_file. rewrite P. reflexivity.
Qed.
Lemma loader3 stof num : stof [] = Invalid -> good_loader _ stof (load3_file stof num) (row_is3 num) 12.
Proof.
  intros S0 file old. destruct (parse_three stof S0 file) as [(text & -> & R & P)|(e & U & P)].
  - destruct (rows_or_short (fun line => row_is3 num (numbers_of stof line)) (fun line => List.length (numbers_of stof line)) 12 (data_lines text) (fun c => row3_some num _)) as [(l & F)|(c & I & L)].
    + left. exists text, l. split; [reflexivity|]. split; [exact R|]. split; [exact F|]. apply (file3_iff stof num text old l R). exact F.
    + right; right. exists text, c. repeat (split; [first [reflexivity|assumption]|]). exact (file3_short stof num text old c R I L).
  - right; left. exists e. split; [exact U|]. unfold load3_file. rewrite P. reflexivity.
Qed.
