(** The boundary-point files of storeRoutines (C97). *)
From Coq Require Import List Ascii Bool ZArith Arith Lia.
From Verif.Base Require Import Outcome Float64.
From Verif.Model Require Import MCsv MFreeSpace MStore.
From Verif.Spec Require Import SUtil SStore.
From Verif.Proofs Require Import PUtil PStore.
Import ListNotations.

Lemma safe_no_blank l : safe_text l -> ~ In " "%char l. Proof. intros H K. specialize (H _ K). discriminate H. Qed.
Definition keep (w : list ascii) : bool := match w with [] => false | _ => true end.
Lemma words_blanks n l : words (repeat blank n ++ l) = words l.
Proof.
  induction n as [|n IH]; [reflexivity|]. cbn [repeat app]. unfold words in *. cbn [split]. change (Ascii.eqb blank " ") with true. cbv iota. cbn [filter]. exact IH.
Qed.
Lemma words_step t l : t <> [] -> ~ In " "%char t -> words (t ++ blank :: l) = t :: words l.
Proof. intros N B. unfold words. change blank with " "%char. rewrite (split_at _ _ _ B). cbn [filter]. destruct t; [elim N; reflexivity|reflexivity]. Qed.
Lemma words_one t : t <> [] -> ~ In " "%char t -> words t = [t].
Proof. intros N B. unfold words. rewrite (split_none _ _ B). cbn [filter]. destruct t; [elim N; reflexivity|reflexivity]. Qed.
Lemma words_row w (r : list f64) : words (joined blank (map (fun x => aligned w (number_text x)) r)) = map number_text r.
Proof.
  induction r as [|x r IH]; [reflexivity|]. destruct (number_safe x) as [N S]. cbn [map]. destruct r as [|y r].
  - cbn [map joined]. unfold aligned. rewrite words_blanks. apply words_one; [exact N|exact (safe_no_blank _ S)].
  - cbn [map] in *. change (joined blank (aligned w (number_text x) :: aligned w (number_text y) :: map (fun x0 => aligned w (number_text x0)) r))
      with (aligned w (number_text x) ++ blank :: joined blank (aligned w (number_text y) :: map (fun x0 => aligned w (number_text x0)) r)).
    unfold aligned at 1. rewrite <- app_assoc, words_blanks, words_step; [|exact N|exact (safe_no_blank _ S)]. f_equal. exact IH.
Qed.
(** Characters of a line. *)
Definition line_char (c : ascii) : Prop := safe c = true \/ c = blank.
Lemma joined_chars ts : (forall t, In t ts -> forall c, In c t -> line_char c) -> forall c, In c (joined blank ts) -> line_char c.
Proof.
  induction ts as [|t ts IH]; intros H c K; [destruct K|]. destruct ts as [|u ts]; [exact (H t (or_introl eq_refl) c K)|].
  change (joined blank (t :: u :: ts)) with (t ++ blank :: joined blank (u :: ts)) in K. apply in_app_or in K. destruct K as [K|[K|K]].
  - exact (H t (or_introl eq_refl) c K).
  - right. symmetry. exact K.
  - apply IH; [|exact K]. intros v V. apply H. right. exact V.
Qed.
Lemma aligned_chars w t c : safe_text t -> In c (aligned w t) -> line_char c.
Proof. intros S K. unfold aligned in K. apply in_app_or in K. destruct K as [K|K]; [right; exact (repeat_spec _ _ _ K)|left; exact (S c K)]. Qed.
Definition row_of (w : nat) (r : list f64) : list ascii := joined blank (map (fun x => aligned w (number_text x)) r).
Lemma row_chars w r c : In c (row_of w r) -> line_char c.
Proof.
  apply joined_chars. intros t T d D. apply in_map_iff in T. destruct T as (x & <- & _). exact (aligned_chars _ _ _ (proj2 (number_safe x)) D).
Qed.
Lemma row_ok w r : ~ In (ascii_of_nat 10) (row_of w r) /\ starts_with_hash (row_of w r) = false /\ ~ In ","%char (row_of w r).
Proof.
  split; [|split].
  - intros K. destruct (row_chars _ _ _ K) as [E|E]; discriminate E.
  - destruct (row_of w r) as [|c l] eqn:E; [reflexivity|]. assert (K : In c (row_of w r)) by (rewrite E; left; reflexivity). cbn [starts_with_hash].
    destruct (Ascii.eqb_spec c (ascii_of_nat 35)) as [->|]; [|reflexivity]. destruct (row_chars _ _ _ K) as [F|F]; discriminate F.
  - intros K. destruct (row_chars _ _ _ K) as [E|E]; discriminate E.
Qed.
Lemma joined_lines (ls : list (list ascii)) : ls <> [] -> joined newline ls ++ [newline] = flat_map (fun l => l ++ [newline]) ls.
Proof.
  induction ls as [|l ls IH]; intros N; [elim N; reflexivity|]. destruct ls as [|m ls]; [cbn [joined flat_map]; rewrite app_nil_r; reflexivity|].
  change (joined newline (l :: m :: ls)) with (l ++ newline :: joined newline (m :: ls)). rewrite <- app_assoc. cbn [app].
  rewrite IH by discriminate. cbn [flat_map]. rewrite <- !app_assoc. reflexivity.
Qed.
Definition widest (m : list (list f64)) : nat := list_max (map (fun x => length (number_text x)) (List.concat m)).
Definition rows_text (m : list (list f64)) : list (list ascii) := map (row_of (widest m)) m.
Lemma matrix_lines m : has_entries m -> matrix_text m ++ [newline] = flat_map (fun l => l ++ [newline]) (rows_text m).
Proof.
  intros [N R]. unfold matrix_text. destruct (List.concat m) as [|x c] eqn:E.
  - destruct m as [|r m]; [elim N; reflexivity|]. destruct r as [|y r]; [elim (R [] (or_introl eq_refl)); reflexivity|discriminate E].
  - rewrite joined_lines; [|destruct m; [elim N; reflexivity|discriminate]]. unfold rows_text, widest. rewrite E. reflexivity.
Qed.
Lemma boundary_lines ob ar : (forall m, In m (ob ++ ar) -> has_entries m) ->
  data_lines (boundary_file ob ar) = flat_map rows_text (ob ++ ar).
Proof.
  intros H. transitivity (data_lines (flat_map (fun l => l ++ [ascii_of_nat 10]) (flat_map rows_text (ob ++ ar)))).
  - f_equal. unfold boundary_file. rewrite <- flat_map_app. induction (ob ++ ar) as [|m l IH]; [reflexivity|]. cbn [flat_map].
    rewrite flat_map_app, IH by (intros k K; apply H; right; exact K). f_equal. apply matrix_lines, H. left. reflexivity.
  - apply data_lines_of. intros l L. apply in_flat_map in L. destruct L as (m & _ & L). apply in_map_iff in L. destruct L as (r & <- & _).
    destruct (row_ok (widest m) r) as (A & B & _). split; assumption.
Qed.
Lemma boundary_words ob ar : (forall m, In m (ob ++ ar) -> has_entries m) ->
  map words (data_lines (boundary_file ob ar)) = map (map number_text) (List.concat (ob ++ ar)).
Proof.
  intros H. rewrite (boundary_lines ob ar H). clear H. induction (ob ++ ar) as [|m l IH]; [reflexivity|]. cbn [flat_map List.concat]. rewrite !map_app, IH. f_equal.
  unfold rows_text. rewrite map_map. apply map_ext. intros r. apply words_row.
Qed.
Lemma boundary_one_field ob ar l : (forall m, In m (ob ++ ar) -> has_entries m) -> In l (data_lines (boundary_file ob ar)) -> line_fields l = [l].
Proof.
  intros H L. rewrite (boundary_lines ob ar H) in L. apply in_flat_map in L. destruct L as (m & _ & L). apply in_map_iff in L. destruct L as (r & <- & _).
  unfold line_fields. apply split_none. exact (proj2 (proj2 (row_ok _ r))).
Qed.
(** Columns line up: every line of a matrix has the same length. *)
Lemma aligned_length w t : (length t <= w)%nat -> length (aligned w t) = w.
Proof. intros L. unfold aligned. rewrite app_length, repeat_length. lia. Qed.
Lemma row_length w r : (forall x, In x r -> (length (number_text x) <= w)%nat) -> length (row_of w r) = (length r * (w + 1) - 1)%nat.
Proof.
  unfold row_of. induction r as [|x r IH]; intros H; [reflexivity|]. cbn [map]. destruct r as [|y r].
  - cbn [map joined length]. rewrite aligned_length by (apply H; left; reflexivity). lia.
  - cbn [map] in *. change (joined blank (aligned w (number_text x) :: aligned w (number_text y) :: map (fun x0 => aligned w (number_text x0)) r))
      with (aligned w (number_text x) ++ blank :: joined blank (aligned w (number_text y) :: map (fun x0 => aligned w (number_text x0)) r)).
    rewrite app_length. cbn [length]. rewrite aligned_length by (apply H; left; reflexivity). 
    rewrite IH by (intros z Z0; apply H; right; exact Z0). cbn [length]. lia.
Qed.
