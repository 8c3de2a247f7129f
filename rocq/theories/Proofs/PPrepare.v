(** Proofs for C104. *)
From Coq Require Import List Ascii String Bool ZArith Arith Lia Reals Lra.
From Verif.Base Require Import Outcome Float64 FloatFacts.
From Verif.Model Require Import MCsv MStore MSettings MPrepare.
From Verif.Spec Require Import SUtil SStore SSettings SPrepare.
From Verif.Proofs Require Import PStore PStoreB PSettings PSettingsX.
Import ListNotations.

Definition txt (r : list f64) : list ascii := joined comma (map number_text r).

(** ---- lines ---- *)
Lemma joined_in ts x : In x (joined comma ts) -> x = comma \/ exists t, In t ts /\ In x t.
Proof.
  induction ts as [|t ts IH]; [intros []|]. destruct ts as [|t' ts]; [intros H; right; exists t; split; [left; reflexivity|exact H]|].
  cbn [joined]. intros H. apply in_app_or in H. destruct H as [H|[H|H]]; [right; exists t; split; [left; reflexivity|exact H]|left; symmetry; exact H|].
  destruct (IH H) as [E|(u & U & V)]; [left; exact E|right; exists u; split; [right; exact U|exact V]].
Qed.
Lemma txt_no_newline r : ~ In (ascii_of_nat 10) (txt r).
Proof.
  intros H. apply joined_in in H. destruct H as [H|(t & T & H)]; [discriminate H|]. apply in_map_iff in T. destruct T as (x & <- & _).
  exact (safe_no_newline _ (proj2 (number_safe x)) H).
Qed.
Lemma safe_no_hash t s : t <> [] -> safe_text t -> starts_with_hash (t ++ s) = false.
Proof.
  intros N S. destruct t as [|c t]; [contradiction|]. cbn [app starts_with_hash]. specialize (S c (or_introl eq_refl)). unfold safe in S.
  destruct (Ascii.eqb_spec c (ascii_of_nat 35)) as [->|]; [discriminate S|reflexivity].
Qed.
Lemma txt_no_hash r : starts_with_hash (txt r) = false.
Proof.
  destruct r as [|x r]; [reflexivity|]. destruct (number_safe x) as [N S]. unfold txt. cbn [map joined].
  destruct (map number_text r) as [|u l]; [rewrite <- (app_nil_r (number_text x)); apply safe_no_hash; assumption|apply safe_no_hash; assumption].
Qed.
Lemma txt_fields r : r <> [] -> line_fields (txt r) = map number_text r.
Proof.
  intros N. unfold txt, line_fields. induction r as [|x r IH]; [contradiction|]. pose proof (safe_no_comma _ (proj2 (number_safe x))) as C.
  destruct r as [|y r]; [cbn [map joined]; apply (split_none ","%char); exact C|].
  change (joined comma (map number_text (x :: y :: r))) with (number_text x ++ ","%char :: joined comma (map number_text (y :: r))).
  rewrite (split_at ","%char) by exact C. cbn [map]. f_equal. apply IH. discriminate.
Qed.
Lemma drop_last_ne ls t : t <> [] -> drop_last_empty (ls ++ [t]) = ls ++ [t].
Proof.
  intros N. induction ls as [|l ls IH]; [cbn [app drop_last_empty]; destruct t; [contradiction|reflexivity]|]. cbn [app drop_last_empty].
  destruct l as [|a l]; [|rewrite IH; reflexivity]. rewrite IH. destruct ls; reflexivity.
Qed.
Lemma split_lines_rest c (ls : list (list ascii)) t : (forall l, In l ls -> ~ In c l) -> ~ In c t ->
  split c (flat_map (fun l => l ++ [c]) ls ++ t) = ls ++ [t].
Proof.
  intros H T. induction ls as [|l ls IH]; [cbn [flat_map app]; apply split_none; exact T|]. cbn [flat_map]. rewrite <- !app_assoc. cbn [app].
  rewrite split_at by (apply H; left; reflexivity). rewrite IH; [reflexivity|]. intros x Hx. apply H. right. exact Hx.
Qed.
Definition rest_line (t : list ascii) : list (list ascii) := match t with [] => [] | _ => [t] end.
Lemma data_lines_rest ls t : (forall l, In l ls -> ~ In (ascii_of_nat 10) l /\ starts_with_hash l = false) ->
  ~ In (ascii_of_nat 10) t -> starts_with_hash t = false ->
  data_lines (flat_map (fun l => l ++ [ascii_of_nat 10]) ls ++ t) = ls ++ rest_line t.
Proof.
  intros H T K. unfold data_lines, text_lines. rewrite split_lines_rest by (try exact T; intros l Hl; apply (H l Hl)).
  assert (E : drop_last_empty (ls ++ [t]) = ls ++ rest_line t).
  { destruct t as [|c t]; [rewrite drop_last; cbn; rewrite app_nil_r; reflexivity|apply drop_last_ne; discriminate]. }
  rewrite E, filter_app. f_equal.
  - clear E T K. induction ls as [|l ls IH]; [reflexivity|]. cbn [filter]. rewrite (proj2 (H l (or_introl eq_refl))). cbn [negb]. f_equal. apply IH.
    intros x Hx. apply H. right. exact Hx.
  - destruct t as [|c t]; [reflexivity|]. unfold rest_line. cbn [filter]. rewrite K. reflexivity.
Qed.
Lemma file_lines R t : ~ In (ascii_of_nat 10) t -> starts_with_hash t = false ->
  data_lines (flat_map csv_line R ++ t) = map txt R ++ rest_line t.
Proof.
  intros T K. assert (E : flat_map csv_line R = flat_map (fun l => l ++ [ascii_of_nat 10]) (map txt R)).
  { induction R as [|r R IH]; [reflexivity|]. cbn [flat_map map]. rewrite IH. reflexivity. }
  rewrite E. apply data_lines_rest; try assumption. intros l Hl. apply in_map_iff in Hl. destruct Hl as (r & <- & _). split; [apply txt_no_newline|apply txt_no_hash].
Qed.
Lemma fields_all R : (forall r, In r R -> r <> []) -> map line_fields (map txt R) = map (map number_text) R.
Proof. intros H. rewrite map_map. apply map_ext_in. intros r Hr. apply txt_fields, H, Hr. Qed.
Lemma held R : (forall r, In r R -> r <> []) -> holds (Some (flat_map csv_line R)) R.
Proof.
  intros H. eexists. split; [reflexivity|]. rewrite <- (app_nil_r (flat_map csv_line R)), file_lines by (try reflexivity; intros []).
  cbn [rest_line]. rewrite app_nil_r. apply fields_all, H.
Qed.
Lemma held_cut R t : (forall r, In r R -> r <> []) -> ~ In (ascii_of_nat 10) t -> starts_with_hash t = false -> cut_after (Some (flat_map csv_line R ++ t)) R.
Proof.
  intros H T K. eexists. split; [reflexivity|]. rewrite file_lines by assumption. split.
  - rewrite firstn_app, map_length, Nat.sub_diag. cbn [firstn]. rewrite app_nil_r, <- (map_length txt R), firstn_all. apply fields_all, H.
  - rewrite app_length, map_length. destruct t; cbn; lia.
Qed.

(** ---- reading a file back ---- *)
Lemma back_rows stof R file : stof [] = Invalid -> come_back stof R -> holds file R ->
  exists B, parse_csv stof file = Ok B /\ Forall2 (Forall2 near) R B.
Proof.
  intros S0 C (text & -> & L).
  assert (V : forall r x, In r R -> In x r -> exists y, stof (number_text x) = Value y /\ near x y).
  { intros r x Hr Hx. destruct (C r x Hr Hx) as [Fx Rd]. destruct (number_decimal x Fx) as (q & D & Er & _).
    destruct (Rd q D) as (y & W & Fy & Ey). exists y. split; [exact W|]. split; [exact Fy|].
    revert Er Ey. clear. generalize (fval x) (fval y). intros a b Er Ey.
    apply Rle_trans with (Rabs (b - q) + Rabs (q - a))%R; [replace (b - a)%R with ((b - q) + (q - a))%R by lra; apply Rabs_triang|].
    assert (K : (Rabs q <= Rabs (q - a) + Rabs a)%R) by (replace q with ((q - a) + a)%R at 1 by lra; apply Rabs_triang).
    assert (P24 : (0 <= / 2 ^ 24 <= 6 / 100000000)%R) by (replace (2 ^ 24)%R with 16777216%R by lra; lra).
    pose proof (Rabs_pos a). pose proof (Rabs_pos q).
    assert (M : (/ 2 ^ 24 * Rabs q <= 6 / 100000000 * Rabs q)%R) by (apply Rmult_le_compat_r; lra). lra. }
  assert (RD : readable stof text).
  { split; [exact S0|]. intros l g Hl Hg. apply (in_map line_fields) in Hl. rewrite L in Hl. apply in_map_iff in Hl. destruct Hl as (r & E & Hr).
    rewrite <- E in Hg. apply in_map_iff in Hg. destruct Hg as (x & <- & Hx). destruct (V r x Hr Hx) as (y & -> & _). discriminate. }
  exists (map (numbers_of stof) (data_lines text)). split; [apply parse_readable, RD|].
  assert (N : map (numbers_of stof) (data_lines text) = map (fun fs => flat_map (fun g => match stof g with Value x => [x] | _ => [] end) fs) (map (map number_text) R)).
  { rewrite <- L, map_map. reflexivity. }
  rewrite N, map_map. clear - V. induction R as [|r R IH]; [constructor|]. cbn [map]. constructor; [|apply IH; intros q x Hq Hx; apply (V q x); [right|]; assumption].
  assert (W : forall x, In x r -> exists y, stof (number_text x) = Value y /\ near x y) by (intros x Hx; apply (V r x); [left; reflexivity|exact Hx]).
  clear - W. induction r as [|x r IH]; [constructor|]. cbn [map flat_map]. destruct (W x (or_introl eq_refl)) as (y & -> & Nr). cbn [app].
  constructor; [exact Nr|]. apply IH. intros z Hz. apply W. right. exact Hz.
Qed.

(** ---- rows ---- *)
Section Rows.
Variable row : list f64 -> row_out.
Variable rel : list f64 -> list f64 -> Prop.
Hypothesis ok : forall c r, rel c r -> row c = (csv_line r, None) /\ r <> [].
Hypothesis bad : forall c, (exists r, rel c r) \/ exists t e, row c = (t, Some e) /\ ~ In (ascii_of_nat 10) t /\ starts_with_hash t = false.
Lemma rel_rows rows R : Forall2 rel rows R -> forall r, In r R -> r <> [].
Proof. intros H. induction H as [|c r cs rs h _ IH]; intros x Hx; [destruct Hx|]. destruct Hx as [<-|Hx]; [exact (proj2 (ok _ _ h))|exact (IH x Hx)]. Qed.
Lemma written_ok rows R : Forall2 rel rows R -> written row rows = (flat_map csv_line R, None).
Proof. intros H. induction H as [|c r cs rs h _ IH]; [reflexivity|]. cbn [written flat_map]. rewrite (proj1 (ok _ _ h)), IH. reflexivity. Qed.
Lemma written_none rows t : written row rows = (t, None) -> exists R, Forall2 rel rows R /\ t = flat_map csv_line R.
Proof.
  revert t. induction rows as [|c rows IH]; intros t H; [exists []; cbn in H; injection H as <-; split; [constructor|reflexivity]|].
  cbn [written] in H. destruct (bad c) as [(r & h)|(t' & e & E & _)]; [|rewrite E in H; discriminate H]. rewrite (proj1 (ok _ _ h)) in H.
  destruct (written row rows) as [t' e]. injection H as H He. subst e. destruct (IH t' eq_refl) as (R & F & ->). exists (r :: R). split; [constructor; assumption|].
  symmetry. exact H.
Qed.
Lemma written_bad rows t e : written row rows = (t, Some e) -> exists R t', Forall2 rel (firstn (List.length R) rows) R /\ List.length R < List.length rows /\
  t = flat_map csv_line R ++ t' /\ ~ In (ascii_of_nat 10) t' /\ starts_with_hash t' = false.
Proof.
  revert t. induction rows as [|c rows IH]; intros t H; [discriminate H|].
  cbn [written] in H. destruct (bad c) as [(r & h)|(t' & e' & E & T & K)].
  - rewrite (proj1 (ok _ _ h)) in H. destruct (written row rows) as [t' e']. injection H as H He. subst e'. destruct (IH t' eq_refl) as (R & t2 & F & L & -> & T & K).
    exists (r :: R), t2. split; [cbn [List.length firstn]; constructor; assumption|]. split; [cbn; lia|]. split; [|split; assumption].
    rewrite <- H. cbn [flat_map]. rewrite <- app_assoc. reflexivity.
  - rewrite E in H. injection H as <- <-. exists [], t'. split; [constructor|]. split; [cbn; lia|]. repeat split; assumption.
Qed.
End Rows.

Section Conv.
Variable turnq : f64 -> f64 -> f64 -> f64 -> f64 * f64 * f64 * f64.
Lemma twelve {A} (c : list A) : List.length c = 12 -> exists a b d e1 e2 x y z u v w t, c = [a; b; d; e1; e2; x; y; z; u; v; w; t].
Proof. exact (len12 c). Qed.
Lemma geo_other c : c <> [] -> List.length c <> 12 -> geometric_row turnq c = (csv_line c, None).
Proof. intros N L. do 12 (destruct c as [|? c]; [first [contradiction|reflexivity]|]). destruct c; [exfalso; apply L; reflexivity|reflexivity]. Qed.
Lemma geo_ok c r : body_to turnq c r -> geometric_row turnq c = (csv_line r, None) /\ r <> [].
Proof.
  intros [(a & b & d & e1 & e2 & x & y & z & u & v & w & t & qw & qx & qy & qz & -> & E & ->)|(N & L & ->)].
  - split; [|discriminate]. cbn [geometric_row]. rewrite E. reflexivity.
  - split; [apply geo_other; assumption|exact N].
Qed.
Lemma geo_bad c : (exists r, body_to turnq c r) \/ exists t e, geometric_row turnq c = (t, Some e) /\ ~ In (ascii_of_nat 10) t /\ starts_with_hash t = false.
Proof.
  destruct c as [|c0 c]; [right; exists [], OutOfRange; split; [reflexivity|]; split; [intros []|reflexivity]|]. left.
  destruct (Nat.eq_dec (List.length (c0 :: c)) 12) as [L|L].
  - destruct (twelve _ L) as (a & b & d & e1 & e2 & x & y & z & u & v & w & t & E). destruct (turnq u v w t) as [[[qw qx] qy] qz] eqn:Q.
    eexists. left. do 16 eexists. split; [exact E|]. split; [exact Q|reflexivity].
  - exists (c0 :: c). right. split; [discriminate|]. split; [exact L|reflexivity].
Qed.
Lemma row_line_txt (c : list f64) : flat_map (fun x => number_text x ++ [comma]) c = row_line (map number_text c).
Proof. unfold row_line. induction c as [|x c IH]; [reflexivity|]. cbn [flat_map map]. rewrite IH. reflexivity. Qed.
Lemma short_ok (c : list f64) n : List.length c < n -> exists t e, write_at c n = (t, Some e) /\ ~ In (ascii_of_nat 10) t /\ starts_with_hash t = false.
Proof.
  intros L. unfold write_at. destruct (Nat.ltb_spec (List.length c) n) as [_|K]; [|lia]. do 2 eexists. split; [reflexivity|]. rewrite row_line_txt. apply row_line_ok.
  intros t Ht. apply in_map_iff in Ht. destruct Ht as (x & <- & _). apply number_safe.
Qed.
Lemma long_ok (c : list f64) n : n <= List.length c -> write_at c n = (csv_line (firstn n c), None).
Proof. intros L. unfold write_at. destruct (Nat.ltb_spec (List.length c) n) as [K|_]; [lia|reflexivity]. Qed.
Lemma goal_ok robot dim c r : end_to turnq robot dim c r -> goal_row turnq robot dim c = (csv_line r, None) /\ r <> [].
Proof.
  intros [(-> & x & y & t & rest & -> & ->)|(-> & x & y & z & u & v & w & t & js & qw & qx & qy & qz & -> & E & L & ->)].
  - split; [|discriminate]. unfold goal_row. cbn [String.eqb Ascii.eqb Bool.eqb]. apply (long_ok ([x; y; t] ++ rest) 3). cbn; lia.
  - split; [|discriminate]. unfold goal_row. cbn [String.eqb Ascii.eqb Bool.eqb app]. rewrite E, dof_joints.
    rewrite long_ok by (cbn [List.length]; lia). cbn [plus firstn]. reflexivity.
Qed.
Lemma goal_bad robot dim c : dim = "2D"%string \/ dim = "3D"%string ->
  (exists r, end_to turnq robot dim c r) \/ exists t e, goal_row turnq robot dim c = (t, Some e) /\ ~ In (ascii_of_nat 10) t /\ starts_with_hash t = false.
Proof.
  intros [->| ->].
  - destruct (le_lt_dec 3 (List.length c)) as [L|L].
    + left. destruct c as [|x [|y [|t rest]]]; cbn in L; try lia. exists [x; y; t]. left. split; [reflexivity|]. exists x, y, t, rest. split; reflexivity.
    + right. exact (short_ok c 3 L).
  - destruct (le_lt_dec (7 + joints_of robot) (List.length c)) as [L|L].
    + left. do 7 (destruct c as [|? c]; [cbn in L; lia|]). destruct (turnq f2 f3 f4 f5) as [[[qw qx] qy] qz] eqn:Q.
      eexists. right. split; [reflexivity|]. do 12 eexists. split; [reflexivity|]. split; [exact Q|]. split; [cbn in L; lia|reflexivity].
    + right. unfold goal_row. cbn [String.eqb Ascii.eqb Bool.eqb].
      do 7 (destruct c as [|? c]; [exists [], OutOfRange; split; [reflexivity|]; split; [intros []|reflexivity]|]).
      destruct (turnq f2 f3 f4 f5) as [[[qw qx] qy] qz]. apply short_ok. rewrite dof_joints. cbn [List.length] in *. lia.
Qed.
End Conv.

(** ---- files ---- *)
Section Jobs.
Variable stof : list ascii -> stof_result.
Variable opens : string -> bool.
Definition job : Type := (list f64 -> row_out) * string * string.
Definition good (j : job) (rel : list f64 -> list f64 -> Prop) : Prop :=
  let '(row, _, _) := j in
  (forall c r, rel c r -> row c = (csv_line r, None) /\ r <> []) /\
  (forall c, (exists r, rel c r) \/ exists t e, row c = (t, Some e) /\ ~ In (ascii_of_nat 10) t /\ starts_with_hash t = false).
Definition inp_of (j : job) : string := snd (fst j).
Definition out_of (j : job) : string := snd j.
Lemma write_same fs n t : write fs n t n = Some t.
Proof. unfold write. rewrite String.eqb_refl. reflexivity. Qed.
Lemma write_other fs n t m : m <> n -> write fs n t m = fs m.
Proof. intros N. unfold write. destruct (String.eqb_spec m n) as [E|_]; [contradiction|reflexivity]. Qed.
Lemma parse_no_ub file : parse_csv stof file <> UB.
Proof.
  destruct file as [text|]; [|discriminate]. unfold parse_csv. generalize (@nil (list f64)). generalize (getlines newline [] text). clear text. intros ls.
  induction ls as [|l ls IH]; intros d; [discriminate|]. cbn [parse_lines]. destruct (is_comment l); [apply IH|].
  assert (P : forall gs rec, parse_fields stof gs rec <> UB).
  { induction gs as [|g gs IHg]; intros rec; [discriminate|]. cbn [parse_fields]. destruct (stof g); [apply IHg|apply IHg|discriminate]. }
  specialize (P (getlines comma [] l) []). destruct (parse_fields stof (getlines comma [] l) []); cbn [obind]; [apply IH|discriminate|contradiction].
Qed.
(** What a job left in its output after a run that stopped before job k. *)
Definition finished (fs fs' : files) (j : job) (rel : list f64 -> list f64 -> Prop) : Prop :=
  exists rows R, parse_csv stof (fs (inp_of j)) = Ok rows /\ Forall2 rel rows R /\
    if opens (out_of j) then fs' (out_of j) = Some (flat_map csv_line R) else fs' (out_of j) = fs (out_of j).
Definition broken (fs fs' : files) (j : job) (rel : list f64 -> list f64 -> Prop) : Prop :=
  fs' (out_of j) = fs (out_of j) \/
  exists rows R t, parse_csv stof (fs (inp_of j)) = Ok rows /\ Forall2 rel (firstn (List.length R) rows) R /\ List.length R < List.length rows /\
    fs' (out_of j) = Some (flat_map csv_line R ++ t) /\ ~ In (ascii_of_nat 10) t /\ starts_with_hash t = false.
Definition stages (jobs : list job) rels (fs fs' : files) (r : outcome unit) (k : nat) : Prop :=
  (k = List.length jobs /\ r = Ok Datatypes.tt \/ k < List.length jobs /\ exists e, r = Throw e) /\
  (forall n, ~ In n (map out_of jobs) -> fs' n = fs n) /\
  forall i j rel, nth_error jobs i = Some j -> nth_error rels i = Some rel ->
    (i < k -> finished fs fs' j rel) /\ (i = k -> broken fs fs' j rel) /\ (k < i -> fs' (out_of j) = fs (out_of j)).
Lemma one_job fs row inp out rel fs' r : good (row, inp, out) rel -> convert_file stof opens row fs inp out = (fs', r) ->
  (forall n, n <> out -> fs' n = fs n) /\
  (r = Ok Datatypes.tt /\ finished fs fs' (row, inp, out) rel \/ (exists e, r = Throw e) /\ broken fs fs' (row, inp, out) rel).
Proof.
  intros [G B] H. unfold convert_file in H. destruct (parse_csv stof (fs inp)) as [rows|e|] eqn:P.
  - destruct (written row rows) as [text e] eqn:W. assert (Hf : fs' = if opens out then write fs out text else fs) by (injection H as H1 _; symmetry; exact H1).
    assert (Hr : r = match e with Some e => Throw e | None => Ok Datatypes.tt end) by (injection H as _ H2; symmetry; exact H2). clear H.
    split.
    + intros n N. rewrite Hf. destruct (opens out); [apply write_other, N|reflexivity].
    + destruct e as [e|].
      * right. split; [exists e; exact Hr|]. unfold broken. cbn [out_of inp_of fst snd]. rewrite Hf. destruct (opens out); [|left; reflexivity]. right.
        destruct (written_bad row rel G B rows text e W) as (R & t & F & L & -> & T & K). exists rows, R, t. rewrite write_same. repeat split; assumption.
      * left. split; [exact Hr|]. destruct (written_none row rel G B rows text W) as (R & F & ->). exists rows, R. cbn [out_of inp_of fst snd].
        split; [exact P|]. split; [exact F|]. rewrite Hf. destruct (opens out); [apply write_same|reflexivity].
  - injection H as <- <-. split; [intros n _; reflexivity|]. right. split; [exists e; reflexivity|]. left. reflexivity.
  - exfalso. exact (parse_no_ub _ P).
Qed.
Lemma all_jobs jobs rels : Forall2 good jobs rels -> forall fs fs' r, NoDup (map out_of jobs) ->
  (forall a b, In a jobs -> In b jobs -> inp_of a <> out_of b) ->
  convert_all stof opens jobs fs = (fs', r) -> exists k, stages jobs rels fs fs' r k.
Proof.
  intros G. induction G as [|j rel jobs rels g G IH]; intros fs fs' r ND AL H.
  - cbn [convert_all] in H. injection H as <- <-. exists 0. split; [left; split; reflexivity|]. split; [intros n _; reflexivity|]. intros i j rel Hi. destruct i; discriminate Hi.
  - destruct j as [[row inp] out]. cbn [convert_all] in H. destruct (convert_file stof opens row fs inp out) as [fs1 r1] eqn:C.
    destruct (one_job fs row inp out rel fs1 r1 g C) as (K1 & D). cbn [map] in ND. apply NoDup_cons_iff in ND. destruct ND as [NI ND].
    destruct D as [(-> & F)|((e & ->) & B)].
    + destruct (IH fs1 fs' r ND (fun a b Ha Hb => AL a b (or_intror Ha) (or_intror Hb)) H) as (k & E & O & St). exists (S k).
      cbn [out_of snd] in NI. assert (X : forall i j', nth_error jobs i = Some j' -> fs1 (out_of j') = fs (out_of j') /\ fs1 (inp_of j') = fs (inp_of j')).
      { intros i j' Hi. apply nth_error_In in Hi. split.
        - apply K1. intros Q. apply NI. rewrite <- Q. apply in_map, Hi.
        - apply K1. exact (AL j' (row, inp, out) (or_intror Hi) (or_introl eq_refl)). }
      split; [|split].
      * cbn [List.length]. destruct E as [(-> & ->)|(L & e & ->)]; [left; split; reflexivity|right; split; [lia|exists e; reflexivity]].
      * intros n N. cbn [map In] in N. rewrite O by (intros Q; apply N; right; exact Q). apply K1. intros Q. apply N. left. symmetry. exact Q.
      * intros i j' rel' Hi Hl. destruct i as [|i]; cbn [nth_error] in Hi, Hl.
        -- injection Hi as <-. injection Hl as <-. split; [|split; intros Q; lia]. intros _. destruct F as (rows & R & P & F & W). exists rows, R.
           split; [exact P|]. split; [exact F|]. cbn [out_of snd] in *. rewrite O by exact NI. exact W.
        -- destruct (St i j' rel' Hi Hl) as (S1 & S2 & S3). destruct (X i j' Hi) as [X1 X2]. split; [|split].
           ++ intros L. destruct (S1 ltac:(lia)) as (rows & R & P & F' & W). exists rows, R. rewrite <- X2, <- X1. repeat split; assumption.
           ++ intros L. destruct (S2 ltac:(lia)) as [Q|(rows & R & t & P & F' & L' & W & T & K)]; [left; rewrite <- X1; exact Q|].
              right. exists rows, R, t. rewrite <- X2. repeat split; assumption.
           ++ intros L. rewrite <- X1. apply S3. lia.
    + assert (Hf : fs' = fs1) by (injection H as H1 _; symmetry; exact H1). assert (Hr : r = Throw e) by (injection H as _ H2; symmetry; exact H2). subst fs' r.
      exists 0. split; [right; split; [cbn; lia|exists e; reflexivity]|]. split.
      * intros n N. apply K1. intros Q. apply N. left. symmetry. exact Q.
      * intros i j' rel' Hi Hl. destruct i as [|i]; cbn [nth_error] in Hi, Hl.
        -- injection Hi as <-. injection Hl as <-. split; [intros Q; lia|]. split; [intros _; exact B|intros Q; lia].
        -- split; [intros Q; lia|]. split; [intros Q; lia|]. intros _. apply K1. intros Q. apply NI. cbn [out_of snd]. rewrite <- Q. apply in_map.
           exact (nth_error_In _ _ Hi).
Qed.
Lemma all_ok jobs rels : Forall2 good jobs rels -> forall fs (rows R : nat -> list (list f64)), NoDup (map out_of jobs) ->
  (forall a b, In a jobs -> In b jobs -> inp_of a <> out_of b) ->
  (forall i j rel, nth_error jobs i = Some j -> nth_error rels i = Some rel -> parse_csv stof (fs (inp_of j)) = Ok (rows i) /\ Forall2 rel (rows i) (R i)) ->
  exists fs', convert_all stof opens jobs fs = (fs', Ok Datatypes.tt) /\ (forall n, ~ In n (map out_of jobs) -> fs' n = fs n) /\
    forall i j, nth_error jobs i = Some j -> if opens (out_of j) then fs' (out_of j) = Some (flat_map csv_line (R i)) else fs' (out_of j) = fs (out_of j).
Proof.
  intros G. induction G as [|j rel jobs rels g G IH]; intros fs rows R ND AL H.
  - exists fs. split; [reflexivity|]. split; [intros n _; reflexivity|]. intros i j Hi. destruct i; discriminate Hi.
  - destruct j as [[row inp] out]. cbn [map] in ND. apply NoDup_cons_iff in ND. destruct ND as [NI ND]. cbn [out_of snd] in NI.
    destruct (H 0 _ _ eq_refl eq_refl) as [P F]. cbn [inp_of fst snd] in P. destruct g as [gok _].
    set (fs1 := if opens out then write fs out (flat_map csv_line (R 0)) else fs).
    assert (K1 : forall n, n <> out -> fs1 n = fs n) by (intros n N; unfold fs1; destruct (opens out); [apply write_other, N|reflexivity]).
    destruct (IH fs1 (fun i => rows (S i)) (fun i => R (S i)) ND (fun a b Ha Hb => AL a b (or_intror Ha) (or_intror Hb))) as (fs' & C & O & W).
    { intros i j' rel' Hi Hl. rewrite K1; [exact (H (S i) j' rel' Hi Hl)|]. exact (AL j' (row, inp, out) (or_intror (nth_error_In _ _ Hi)) (or_introl eq_refl)). }
    exists fs'. split; [|split].
    + cbn [convert_all]. unfold convert_file. rewrite P, (written_ok row rel gok _ _ F). exact C.
    + intros n N. cbn [map In] in N. rewrite O by (intros Q; apply N; right; exact Q). apply K1. intros Q. apply N. left. symmetry. exact Q.
    + intros i j' Hi. destruct i as [|i]; cbn [nth_error] in Hi.
      * injection Hi as <-. cbn [out_of snd]. rewrite O by exact NI. unfold fs1. destruct (opens out); [apply write_same|reflexivity].
      * specialize (W i j' Hi). destruct (opens (out_of j')); [exact W|]. rewrite W. apply K1. intros Q. apply NI. rewrite <- Q. apply in_map. exact (nth_error_In _ _ Hi).
Qed.
End Jobs.

(** ---- parsePlanningConfig ---- *)
Lemma append_l a b c : (a ++ b)%string = (a ++ c)%string -> b = c.
Proof. induction a as [|x a IH]; intros H; [exact H|]. apply IH. cbn in H. injection H as H. exact H. Qed.
Lemma append_assoc a b c : ((a ++ b) ++ c)%string = (a ++ b ++ c)%string.
Proof. induction a as [|x a IH]; [reflexivity|]. cbn. rewrite IH. reflexivity. Qed.
Lemma config_distinct cfg dim : NoDup (config_files cfg dim).
Proof.
  assert (N : forall a b, a <> b -> (forall d, (a ++ d)%string <> (b ++ d)%string) -> (cfg ++ "/" ++ a ++ dim ++ ".csv")%string <> (cfg ++ "/" ++ b ++ dim ++ ".csv")%string).
  { intros a b _ D E. apply append_l in E. apply append_l in E. exact (D _ E). }
  unfold config_files. cbn [map]. repeat constructor; cbn [In]; intros H; repeat destruct H as [H|H]; try exact H;
    (refine (N _ _ _ _ H); [discriminate|intros d; discriminate]).
Qed.
Section Prepare.
Variable stof : list ascii -> stof_result.
Variable turnq : f64 -> f64 -> f64 -> f64 -> f64 * f64 * f64 * f64.
Variable res cfg : string.
Variable opens : string -> bool.
Definition jobs_of objectType envType robotType dim : list job :=
  combine (combine [geometric_row turnq; geometric_row turnq; geometric_row turnq; goal_row turnq robotType dim] (resource_files res objectType envType robotType dim)) (config_files cfg dim).
Lemma prepare_jobs fs oT eT rT dim : prepare stof turnq res cfg opens fs oT eT rT dim = convert_all stof opens (jobs_of oT eT rT dim) fs.
Proof.
  unfold prepare, jobs_of, resource_files, config_files, arena_in, obstacle_in, robot_in, ends_in. cbn [map combine]. rewrite !append_assoc. reflexivity.
Qed.
Definition rels_of rT dim := map (step_to turnq rT dim) [0; 1; 2; 3].
Lemma jobs_good oT eT rT dim : dim = "2D"%string \/ dim = "3D"%string -> Forall2 (good) (jobs_of oT eT rT dim) (rels_of rT dim).
Proof.
  intros D. unfold jobs_of, resource_files, config_files, rels_of. cbn [map combine].
  repeat apply Forall2_cons; try apply Forall2_nil; (split; [|intros c]); try (apply geo_ok); try (apply geo_bad).
  - apply goal_ok.
  - apply goal_bad, D.
Qed.
Lemma jobs_out oT eT rT dim : map out_of (jobs_of oT eT rT dim) = config_files cfg dim.
Proof. reflexivity. Qed.
Lemma jobs_inp oT eT rT dim : map inp_of (jobs_of oT eT rT dim) = resource_files res oT eT rT dim.
Proof. reflexivity. Qed.
Lemma good_rows j rel rows R : good j rel -> Forall2 rel rows R -> forall r, In r R -> r <> [].
Proof. destruct j as [[row inp] out]. intros [G _]. exact (rel_rows row rel G rows R). Qed.
Lemma f2_nth {A B} (P : A -> B -> Prop) l r i a b : Forall2 P l r -> nth_error l i = Some a -> nth_error r i = Some b -> P a b.
Proof. intros H. revert i. induction H as [|x y l r h _ IH]; intros i Ha Hb; [destruct i; discriminate Ha|]. destruct i as [|i]; [injection Ha as <-; injection Hb as <-; exact h|exact (IH i Ha Hb)]. Qed.
Lemma job_at oT eT rT dim i inp out : nth_error (resource_files res oT eT rT dim) i = Some inp -> nth_error (config_files cfg dim) i = Some out ->
  exists j, nth_error (jobs_of oT eT rT dim) i = Some j /\ nth_error (rels_of rT dim) i = Some (step_to turnq rT dim i) /\ inp_of j = inp /\ out_of j = out.
Proof.
  intros Hi Ho. destruct i as [|[|[|[|i]]]]; [| | | |destruct i; discriminate Hi]; cbn [nth_error resource_files config_files map] in Hi, Ho; injection Hi as <-; injection Ho as <-; eexists; repeat split.
Qed.
Lemma prepare_stages fs oT eT rT dim fs' r : dim = "2D"%string \/ dim = "3D"%string ->
  (forall n, In n (resource_files res oT eT rT dim) -> ~ In n (config_files cfg dim)) ->
  prepare stof turnq res cfg opens fs oT eT rT dim = (fs', r) ->
  exists k, (k = 4 /\ r = Ok Datatypes.tt \/ k < 4 /\ exists e, r = Throw e) /\
    (forall n, ~ In n (config_files cfg dim) -> fs' n = fs n) /\
    forall i inp out, nth_error (resource_files res oT eT rT dim) i = Some inp -> nth_error (config_files cfg dim) i = Some out ->
      (i < k -> exists rows R, parse_csv stof (fs inp) = Ok rows /\ Forall2 (step_to turnq rT dim i) rows R /\
                  if opens out then holds (fs' out) R else fs' out = fs out) /\
      (i = k -> fs' out = fs out \/ exists rows R, parse_csv stof (fs inp) = Ok rows /\ Forall2 (step_to turnq rT dim i) (firstn (List.length R) rows) R /\
                  List.length R < List.length rows /\ cut_after (fs' out) R) /\
      (k < i -> fs' out = fs out).
Proof.
  intros D AL H. rewrite prepare_jobs in H. pose proof (jobs_good oT eT rT dim D) as G.
  assert (AL' : forall a b, In a (jobs_of oT eT rT dim) -> In b (jobs_of oT eT rT dim) -> inp_of a <> out_of b).
  { intros a b Ha Hb E. apply (in_map inp_of) in Ha. apply (in_map out_of) in Hb. rewrite jobs_inp in Ha. rewrite jobs_out in Hb. rewrite E in Ha. exact (AL _ Ha Hb). }
  destruct (all_jobs stof opens _ _ G fs fs' r (config_distinct cfg dim) AL' H) as (k & E & O & S). exists k. split; [exact E|]. split; [exact O|].
  intros i inp out Hi Ho. destruct (job_at oT eT rT dim i inp out Hi Ho) as (j & Hj & Hr & <- & <-). destruct (S i j _ Hj Hr) as (S1 & S2 & S3).
  pose proof (f2_nth _ _ _ i j _ G Hj Hr) as gj. split; [|split; [|exact S3]].
  - intros L. destruct (S1 L) as (rows & R & P & F & W). exists rows, R. split; [exact P|]. split; [exact F|].
    destruct (opens (out_of j)); [|exact W]. rewrite W. apply held. exact (good_rows j _ rows R gj F).
  - intros L. destruct (S2 L) as [Q|(rows & R & t & P & F & L' & W & T & K)]; [left; exact Q|]. right. exists rows, R. split; [exact P|]. split; [exact F|]. split; [exact L'|].
    rewrite W. apply held_cut; try assumption. exact (good_rows j _ _ R gj F).
Qed.
Lemma apart oT eT rT dim : (forall n, In n (resource_files res oT eT rT dim) -> ~ In n (config_files cfg dim)) ->
  forall a b, In a (jobs_of oT eT rT dim) -> In b (jobs_of oT eT rT dim) -> inp_of a <> out_of b.
Proof. intros AL a b Ha Hb E. apply (in_map inp_of) in Ha. apply (in_map out_of) in Hb. rewrite jobs_inp in Ha. rewrite jobs_out in Hb. rewrite E in Ha. exact (AL _ Ha Hb). Qed.
Lemma job_files oT eT rT dim i j : nth_error (jobs_of oT eT rT dim) i = Some j ->
  nth_error (resource_files res oT eT rT dim) i = Some (inp_of j) /\ nth_error (config_files cfg dim) i = Some (out_of j).
Proof. intros H. rewrite <- (jobs_inp oT eT rT dim), <- (jobs_out oT eT rT dim). split; apply map_nth_error, H. Qed.
Lemma rel_at oT eT rT dim i j rel : nth_error (jobs_of oT eT rT dim) i = Some j -> nth_error (rels_of rT dim) i = Some rel -> rel = step_to turnq rT dim i.
Proof. intros _ H. destruct i as [|[|[|[|i]]]]; [| | | |destruct i; discriminate H]; cbn in H; injection H as <-; reflexivity. Qed.
Lemma prepare_ok fs oT eT rT dim rows R : dim = "2D"%string \/ dim = "3D"%string ->
  (forall n, In n (resource_files res oT eT rT dim) -> ~ In n (config_files cfg dim)) ->
  (forall i inp, nth_error (resource_files res oT eT rT dim) i = Some inp -> parse_csv stof (fs inp) = Ok (rows i) /\ Forall2 (step_to turnq rT dim i) (rows i) (R i)) ->
  exists fs', prepare stof turnq res cfg opens fs oT eT rT dim = (fs', Ok Datatypes.tt) /\ (forall n, ~ In n (config_files cfg dim) -> fs' n = fs n) /\
    forall i out, nth_error (config_files cfg dim) i = Some out -> if opens out then holds (fs' out) (R i) else fs' out = fs out.
Proof.
  intros D AL H. rewrite prepare_jobs. pose proof (jobs_good oT eT rT dim D) as G.
  destruct (all_ok stof opens _ _ G fs rows R (config_distinct cfg dim) (apart oT eT rT dim AL)) as (fs' & C & O & W).
  { intros i j rel Hi Hl. rewrite (rel_at oT eT rT dim i j rel Hi Hl). exact (H i _ (proj1 (job_files oT eT rT dim i j Hi))). }
  exists fs'. split; [exact C|]. split; [exact O|]. intros i out Ho.
  assert (E : exists j, nth_error (jobs_of oT eT rT dim) i = Some j /\ out = out_of j).
  { rewrite <- (jobs_out oT eT rT dim) in Ho. rewrite nth_error_map in Ho. destruct (nth_error (jobs_of oT eT rT dim) i) as [j|]; [|discriminate Ho]. exists j. split; [reflexivity|].
    cbn in Ho. injection Ho as <-. reflexivity. }
  destruct E as (j & Hj & ->). specialize (W i j Hj). destruct (opens (out_of j)); [|exact W]. rewrite W. apply held.
  assert (Hr : nth_error (rels_of rT dim) i = Some (step_to turnq rT dim i)).
  { destruct i as [|[|[|[|i]]]]; try reflexivity. destruct i; discriminate Ho. }
  exact (good_rows j _ _ _ (f2_nth _ _ _ i j _ G Hj Hr) (proj2 (H i _ (proj1 (job_files oT eT rT dim i j Hj))))).
Qed.
End Prepare.

(** ---- loading what was prepared ---- *)
Lemma f2_length {A B} (P : A -> B -> Prop) l r : Forall2 P l r -> List.length l = List.length r.
Proof. intros H. induction H as [|x y l r _ _ IH]; [reflexivity|cbn; rewrite IH; reflexivity]. Qed.
Lemma near_firstn n r b : Forall2 near r b -> Forall2 near (firstn n r) (firstn n b).
Proof. intros H. revert n. induction H as [|x y r b h _ IH]; intros [|n]; constructor; [exact h|apply IH]. Qed.
Lemma six_of turnq c r : body_to turnq c r -> firstn 6 c = firstn 6 r.
Proof. intros [(a & b & d & e1 & e2 & x & y & z & u & v & w & t & qw & qx & qy & qz & -> & _ & ->)|(_ & _ & ->)]; reflexivity. Qed.
Lemma body_length turnq c r : body_to turnq c r -> List.length c = List.length r.
Proof. intros [(a & b & d & e1 & e2 & x & y & z & u & v & w & t & qw & qx & qy & qz & -> & _ & ->)|(_ & _ & ->)]; reflexivity. Qed.
Lemma load_near2 turnq num rows R B : Forall2 (body_to turnq) rows R -> Forall2 (Forall2 near) R B -> Forall (fun c => 6 <= List.length c) rows ->
  exists ss, load2 num B [] = Ok ss /\ Forall2 (shape_near2 num) rows ss.
Proof.
  intros H. revert B. induction H as [|c r rows R h _ IH]; intros B HB L; inversion HB as [|r' b R' B' N NB]; subst; [exists []; split; [reflexivity|constructor]|].
  inversion L as [|c' l' Lc Ll]; subst. destruct (IH B' NB Ll) as (ss & E & F).
  pose proof (f2_length _ _ _ N) as LB. rewrite <- (body_length _ _ _ h) in LB. rewrite LB in Lc.
  do 6 (destruct b as [|? b]; [cbn in Lc; lia|]). eexists (_ :: ss). split.
  - unfold load2 in *. cbn [omap]. rewrite E. reflexivity.
  - constructor; [|exact F]. eexists. split; [rewrite (six_of _ _ _ h); exact (near_firstn 6 _ _ N)|]. do 7 eexists. split; reflexivity.
Qed.
Lemma load_near3 turnq num rows R B : Forall2 (body_to turnq) rows R -> Forall2 (Forall2 near) R B -> Forall (fun c => 12 <= List.length c) rows ->
  exists ss, load3 num B [] = Ok ss /\ Forall2 (shape_near3 turnq num) rows ss.
Proof.
  intros H. revert B. induction H as [|c r rows R h _ IH]; intros B HB L; inversion HB as [|r' b R' B' N NB]; subst; [exists []; split; [reflexivity|constructor]|].
  inversion L as [|c' l' Lc Ll]; subst. destruct (IH B' NB Ll) as (ss & E & F).
  pose proof (f2_length _ _ _ N) as LB. rewrite <- (body_length _ _ _ h) in LB. rewrite LB in Lc.
  do 12 (destruct b as [|? b]; [cbn in Lc; lia|]). eexists (_ :: ss). split.
  - unfold load3 in *. cbn [omap]. rewrite E. reflexivity.
  - constructor; [|exact F]. exists r. eexists. split; [exact h|]. split; [exact (near_firstn 12 _ _ N)|]. do 13 eexists. split; reflexivity.
Qed.
Lemma ends_near turnq rT dim rows R B : Forall2 (end_to turnq rT dim) rows R -> Forall2 (Forall2 near) R B -> Forall2 (end_near turnq rT dim) rows B.
Proof.
  intros H. revert B. induction H as [|c r rows R h _ IH]; intros B HB; inversion HB as [|r' b R' B' N NB]; subst; constructor; [|exact (IH B' NB)].
  exists r. split; assumption.
Qed.
Lemma robot_cons {A S} (P : list A -> S -> Prop) (rows : list (list A)) (s : list S) : rows <> [] -> Forall2 P rows s -> exists b ls, s = b :: ls /\ robot_rows P rows b ls.
Proof. intros N H. destruct H as [|c b rows ls h H]; [contradiction|]. exists b, ls. split; [reflexivity|]. exists c, rows. repeat split; assumption. Qed.
