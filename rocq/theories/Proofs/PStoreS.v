(** Shape of the free segments handed to storeRoutines (C97). *)
From Coq Require Import List Bool Arith Lia Permutation.
From Verif.Base Require Import Outcome Float64 FloatFacts.
From Verif.Model Require Import MInterval MFreeSpace MHRM3D.
From Verif.Spec Require Import SStore SPlanner3D.
From Verif.Proofs Require Import PInterval.
Import ListNotations.

Lemma sort_length {A} srt (key : A -> f64) l l' : conforming srt -> sort_by srt key l = Ok l' -> length l' = length l.
Proof.
  intros C H. unfold sort_by in H. destruct (nan_mixed (map key l)) eqn:M; [discriminate H|]. injection H as <-.
  apply Permutation_length, Permutation_sym, (fun s => proj1 (C A _ l s)).
  unfold nan_mixed in M. apply andb_false_iff in M. destruct M as [M|M].
  - apply swo_float. apply Forall_forall. intros a Ha. destruct (fisnan (key a)) eqn:E; [|reflexivity].
    exfalso. assert (K : existsb fisnan (map key l) = true) by (apply existsb_exists; exists (key a); split; [apply in_map; exact Ha|exact E]).
    rewrite K in M. discriminate M.
  - assert (N : forall x y, In x l -> In y l -> fltb (key x) (key y) = false).
    { intros x y Hx Hy. destruct (fltb (key x) (key y)) eqn:E; [|reflexivity]. exfalso.
      assert (K : existsb (fun a => existsb (fun b => fltb a b) (map key l)) (map key l) = true).
      { apply existsb_exists. exists (key x). split; [apply in_map; exact Hx|]. apply existsb_exists. exists (key y). split; [apply in_map; exact Hy|exact E]. }
      rewrite K in M. discriminate M. }
    split; [intros x Hx; apply N; assumption|]. split.
    + intros x y z Hx Hy _ K. rewrite (N x y Hx Hy) in K. discriminate K.
    + intros x y z Hx Hy Hz _ _ _ _. split; apply N; assumption.
Qed.

Definition even_row (r : row) : Prop := length (rL r) = length (rM r) /\ length (rU r) = length (rM r).
Lemma push_even r p : even_row r -> even_row (push_row r p).
Proof. intros (A & B). unfold even_row, push_row. cbn [rL rU rM]. rewrite !app_length. cbn [length]. lia. Qed.
Lemma enhance_one_even r j r' j' out : even_row r -> enhance_one r j r' j' = Ok out -> even_row out.
Proof.
  intros H E. unfold enhance_one in E. apply obind_Ok in E. destruct E as (l & _ & E). apply obind_Ok in E. destruct E as (b & _ & E).
  destruct b; [injection E as <-; apply push_even, H|]. apply obind_Ok in E. destruct E as (u & _ & E). apply obind_Ok in E. destruct E as (b & _ & E).
  destruct b; injection E as <-; [apply push_even, H|exact H].
Qed.
Lemma sort_row_even srt r out : conforming srt -> even_row r -> sort_row srt r = Ok out -> even_row out.
Proof.
  intros C (A & B) E. unfold sort_row, fsort in E. apply obind_Ok in E. destruct E as (l & El & E). apply obind_Ok in E. destruct E as (u & Eu & E).
  apply obind_Ok in E. destruct E as (m & Em & E). injection E as <-. apply (sort_length _ _ _ _ C) in El, Eu, Em.
  unfold even_row. cbn [rL rU rM]. lia.
Qed.
Lemma pairs_even ps : forall ri rn out, even_row ri -> even_row rn ->
  ofold (fun s j => enhance_pair (fst s) (snd s) (fst j) (snd j)) ps (ri, rn) = Ok out -> even_row (fst out) /\ even_row (snd out).
Proof.
  induction ps as [|p ps IH]; intros ri rn out H1 H2 E; cbn [ofold] in E; [injection E as <-; split; assumption|].
  apply obind_Ok in E. destruct E as ([a b] & Ep & E). cbn [fst snd] in Ep. unfold enhance_pair in Ep.
  apply obind_Ok in Ep. destruct Ep as (a' & Ea & Ep). apply obind_Ok in Ep. destruct Ep as (b' & Eb & Ep). injection Ep as <- <-.
  exact (IH _ _ _ (enhance_one_even _ _ _ _ _ H1 Ea) (enhance_one_even _ _ _ _ _ H2 Eb) E).
Qed.
Lemma enhance_rows_even srt : conforming srt -> forall rest ri n out, even_row ri -> Forall even_row rest ->
  enhance_rows srt ri n rest = Ok out -> Forall even_row out /\ length out = S (length rest).
Proof.
  intros C. induction rest as [|rn rest IH]; intros ri n out H1 H2 E; cbn [enhance_rows] in E.
  - injection E as <-. split; [repeat constructor; exact (proj1 H1) + exact (proj2 H1)|reflexivity].
  - inversion H2 as [|? ? Hn Hr]; subst. apply obind_Ok in E. destruct E as (p & Ep & E). apply obind_Ok in E. destruct E as (t & Et & E). injection E as <-.
    unfold enhance_line in Ep. apply obind_Ok in Ep. destruct Ep as (q & Eq & Ep). apply obind_Ok in Ep. destruct Ep as (r' & Er & Ep). injection Ep as <-.
    destruct (pairs_even _ _ _ _ H1 Hn Eq) as [Q1 Q2]. cbn [fst snd] in Et |- *.
    destruct (IH _ _ _ Q2 Hr Et) as [F L]. split; [constructor; [exact (sort_row_even _ _ _ C Q1 Er)|exact F]|cbn [length]; rewrite L; reflexivity].
Qed.
Lemma even_shape out : Forall even_row out ->
  map (@length f64) (map rL out) = map (@length f64) (map rM out) /\ map (@length f64) (map rU out) = map (@length f64) (map rM out).
Proof.
  intros H. rewrite !map_map. split; apply map_ext_in; intros r Hr; rewrite Forall_forall in H; apply (H r Hr).
Qed.
Lemma omap_length {A B} (f : A -> outcome B) l bs : omap f l = Ok bs -> length bs = length l.
Proof.
  revert bs. induction l as [|a l IH]; intros bs H; cbn [omap] in H; [injection H as <-; reflexivity|].
  apply obind_Ok in H. destruct H as (b & _ & H). apply obind_Ok in H. destruct H as (bs' & Hs & H). injection H as <-. cbn [length]. rewrite (IH _ Hs). reflexivity.
Qed.
Lemma omap_Forall {A B} (f : A -> outcome B) (P : B -> Prop) l bs : (forall a b, f a = Ok b -> P b) -> omap f l = Ok bs -> Forall P bs.
Proof.
  intros K. revert bs. induction l as [|a l IH]; intros bs H; cbn [omap] in H; [injection H as <-; constructor|].
  apply obind_Ok in H. destruct H as (b & Hb & H). apply obind_Ok in H. destruct H as (bs' & Hs & H). injection H as <-. constructor; [exact (K _ _ Hb)|exact (IH _ Hs)].
Qed.
Lemma compute_shape srt t ty seg : conforming srt -> compute_free_segment srt t ty = Ok seg -> same_shape seg.
Proof.
  intros C E. unfold compute_free_segment in E. apply obind_Ok in E. destruct E as (rows & Er & E). apply obind_Ok in E. destruct E as (er & Ee & E). injection E as <-.
  assert (F : Forall even_row rows).
  { apply (omap_Forall _ _ _ _) with (2 := Er). intros a b Hb. unfold free_row in Hb. apply obind_Ok in Hb. destruct Hb as (ivs & _ & Hb). injection Hb as <-.
    unfold even_row. cbn [rL rU rM]. rewrite !map_length. lia. }
  apply omap_length in Er. rewrite seq_length in Er.
  unfold enhance in Ee. destruct rows as [|r rest]; [discriminate Ee|]. inversion F as [|? ? F1 F2]; subst.
  destruct (enhance_rows_even srt C _ _ _ _ F1 F2 Ee) as [G L]. destruct (even_shape er G) as [S1 S2].
  unfold same_shape. cbn [fxL fxU fxM fty]. split; [exact S1|]. split; [exact S2|]. rewrite map_length, L, <- Er. reflexivity.
Qed.
Lemma planes_shape E s' ty l4 l5 t xs segs t2 : conforming (m_sort E) -> plane_segments E s' ty l4 l5 t xs segs t2 ->
  Forall (fun p => same_shape (snd p)) segs /\ map fst segs = xs.
Proof.
  intros C. induction 1 as [t|t t1 t2 x xs seg segs _ Hs _ _ (IH & IM)]; [split; [constructor|reflexivity]|].
  split; [constructor; [exact (compute_shape _ _ _ _ C Hs)|exact IH]|cbn [map fst]; rewrite IM; reflexivity].
Qed.
