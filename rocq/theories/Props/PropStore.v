(** C97: the files written by storeGraphInfo, storePathInfo and storeRoutines
    (src/test/util/DisplayPlanningData.cpp, include/hrm/test/util/DisplayPlanningData-inl.h),
    and reading them with parse2DCsvFile. *)
From Coq Require Import List Ascii String Bool ZArith Arith Lia Reals Lra.
From Verif.Base Require Import Outcome Float64 FloatFacts.
From Verif.Model Require Import MInterval MCsv MFreeSpace MHRM3D MStore.
From Verif.Spec Require Import SUtil SStore SPlanner3D.
From Verif.Proofs Require Import PInterval PStore PStoreS PStoreB PHRM3DW.
From Verif.Props Require Import PropUtil PropPlanner3D.
Import ListNotations.

(** One line per vertex (waypoint), in order; its comma-separated fields are the
    printed entries, in order, followed by an empty field. *)
Theorem C97_rows_and_fields : forall vectors : list (list f64),
  map line_fields (data_lines (vectors_file vectors)) = map (fun v => map number_text v ++ [[]]) vectors.
Proof. exact vectors_fields. Qed.
Print Assumptions C97_rows_and_fields.

(** What is printed for a finite double: a decimal number within five millionths of it,
    and the double itself if it has at most six significant decimal digits. *)
Theorem C97_six_digits : forall x : f64, fisfin x = true -> exists r, decimal (number_text x) = Some r /\
  (Rabs (r - fval x) <= 5 / 1000000 * Rabs (fval x))%R /\
  (forall (n j : Z), fval x = (IZR n * powerRZ 10 j)%R -> (-1000000 < n < 1000000)%Z -> r = fval x).
Proof. exact number_decimal. Qed.
Print Assumptions C97_six_digits.

(** std::stof on a decimal text: the nearest float (relative error at most 2^-24). *)
Definition reads_float (stof : list ascii -> stof_result) (t : list ascii) : Prop :=
  forall r, decimal t = Some r -> exists y, stof t = Value y /\ fisfin y = true /\ (Rabs (fval y - r) <= / 2 ^ 24 * Rabs r)%R.

(** Reading a stored path (or the stored vertices) back: as many vectors of as many
    entries, in order, each entry within 5.1 millionths. *)
Theorem C97_read_back : forall stof vectors, stof [] = Invalid ->
  (forall v x, In v vectors -> In x v -> fisfin x = true /\ reads_float stof (number_text x)) ->
  exists back, parse_csv stof (Some (vectors_file vectors)) = Ok back /\
    Forall2 (Forall2 (fun x y => fisfin y = true /\ (Rabs (fval y - fval x) <= 51 / 10000000 * Rabs (fval x))%R)) vectors back.
Proof.
  intros stof vectors S0 H.
  destruct (rows_read stof (fun x y => fisfin y = true /\ (Rabs (fval y - fval x) <= 51 / 10000000 * Rabs (fval x))%R) vectors S0) as (back & E & F & NR).
  - intros v x Hv Hx. destruct (H v x Hv Hx) as [Fx Rd]. destruct (number_decimal x Fx) as (r & D & Er & _).
    destruct (Rd r D) as (y & V & Fy & Ey). exists y. split; [exact V|]. split; [exact Fy|].
    revert Er Ey. clear. generalize (fval x) (fval y). intros a b Er Ey.
    apply Rle_trans with (Rabs (b - r) + Rabs (r - a))%R; [replace (b - a)%R with ((b - r) + (r - a))%R by lra; apply Rabs_triang|].
    assert (K : (Rabs r <= Rabs (r - a) + Rabs a)%R) by (replace r with ((r - a) + a)%R at 1 by lra; apply Rabs_triang).
    assert (P24 : (0 <= / 2 ^ 24 <= 6 / 100000000)%R).
    { replace (2 ^ 24)%R with 16777216%R by lra. lra. }
    pose proof (Rabs_pos a). pose proof (Rabs_pos r).
    assert (M : (/ 2 ^ 24 * Rabs r <= 6 / 100000000 * Rabs r)%R) by (apply Rmult_le_compat_r; lra). lra.
  - exists back. split; [|exact F]. rewrite (C48_one_record_per_data_line stof _ S0 NR), E. reflexivity.
Qed.
Print Assumptions C97_read_back.

(** The stored edges: one line of two fields per edge, in order, exactly its vertex numbers. *)
Theorem C97_edges : forall edges : list (nat * nat), exists texts : list (list ascii * list ascii),
  map line_fields (data_lines (edges_file edges)) = map (fun t => [fst t; snd t]) texts /\
  Forall2 (fun e t => decimal (fst t) = Some (INR (fst e)) /\ decimal (snd t) = Some (INR (snd e))) edges texts.
Proof.
  intros es. exists (map (fun e : nat * nat => (dec (Z.of_nat (fst e)), dec (Z.of_nat (snd e)))) es). split.
  - rewrite edges_fields, map_map. reflexivity.
  - induction es as [|e es IH]; cbn [map]; constructor; [cbn [fst snd]; split; apply dec_decimal|exact IH].
Qed.
Print Assumptions C97_edges.

(** The stored vertex numbers of the path: a single line, the numbers in order, and an
    empty field at the end. *)
Theorem C97_path_ids : forall ids : list nat, exists texts : list (list ascii),
  line_fields (ids_file ids) = texts ++ [[]] /\ ~ In (ascii_of_nat 10) (ids_file ids) /\
  Forall2 (fun i t => decimal t = Some (INR i)) ids texts.
Proof.
  intros ids. exists (map (fun i => dec (Z.of_nat i)) ids). destruct (ids_fields ids) as [F N]. split; [exact F|]. split; [exact N|].
  clear. induction ids as [|i ids IH]; cbn [map]; constructor; [apply dec_decimal|exact IH].
Qed.
Print Assumptions C97_path_ids.

(** The stored free segments of a slice: a line x, y, low, mid, high per segment, in
    the order planes, lines, segments; storing what the planner's query returned is defined. *)
Theorem C97_segments : forall (E : env3) bd (s s' : state3 E) segs, conforming (m_sort E) ->
  free_segment_one_slice E bd s = Ok (s', segs) ->
  exists text, segments_file segs = Ok text /\
    map line_fields (data_lines text) = map (map number_text) (segment_rows segs).
Proof.
  intros E bd s s' segs C H. apply C64_query_segments in H. destruct H as ((l0 & l1 & l2 & l3 & l4 & l5 & _ & _ & _ & _ & _ & _ & P) & _).
  apply segments_fields. exact (proj1 (planes_shape _ _ _ _ _ _ _ _ _ C P)).
Qed.
Print Assumptions C97_segments.

(** The boundary points: one line per coordinate row of each body, obstacles first, whose words are the
    printed coordinates of the points in order. *)
Theorem C97_boundary_rows : forall obstacle arena : list (list (list f64)), (forall m, In m (obstacle ++ arena) -> has_entries m) ->
  map words (data_lines (boundary_file obstacle arena)) = map (map number_text) (List.concat (obstacle ++ arena)).
Proof. exact boundary_words. Qed.
Print Assumptions C97_boundary_rows.
(** Although named .csv, they cannot be read back with parse2DCsvFile: no line has more than one field, so at
    most one number per row comes back, whatever the number of points. *)
Theorem C97_boundary_read_back_refuted : forall stof (obstacle arena : list (list (list f64))) back, stof [] = Invalid ->
  (forall m, In m (obstacle ++ arena) -> has_entries m) -> (forall f, stof f <> Range) ->
  parse_csv stof (Some (boundary_file obstacle arena)) = Ok back ->
  List.length back = List.length (List.concat (obstacle ++ arena)) /\ forall r, In r back -> List.length r <= 1.
Proof.
  intros stof ob ar back H0 H HR P. rewrite C48_one_record_per_data_line in P; [|exact H0|intros l f _ _; exact (HR f)]. injection P as <-. split.
  - rewrite map_length, <- (map_length words), (boundary_words ob ar H). rewrite map_length. reflexivity.
  - intros r R. apply in_map_iff in R. destruct R as (l & <- & L). rewrite (boundary_one_field ob ar l H L). cbn [flat_map].
    destruct (stof l); cbn; lia.
Qed.
Print Assumptions C97_boundary_read_back_refuted.
(** Stored values are not the planner's values: two different doubles print the same. *)
Theorem C97_values_kept_refuted :
  ~ (forall a b : f64, fisfin a = true -> fisfin b = true -> number_text a = number_text b -> fval a = fval b).
Proof.
  intros H. assert (K : fval (fofZ 1234567) = fval (fofZ 1234568)).
  { apply H; vm_compute; reflexivity. }
  rewrite !fofZ_val in K by lia. apply eq_IZR in K. discriminate K.
Qed.
Print Assumptions C97_values_kept_refuted.

Definition demo_path : list (list f64) := [[fofZ 1; fdec (-25) 1]; [fdec 123456789 14; fofZ 1234567]].
Example C97_read_back_hyp : demo_stof [] = Invalid /\
  (forall v x, In v [[fofZ 1; fofZ 1]; [fofZ 1]] -> In x v -> fisfin x = true /\ reads_float demo_stof (number_text x)).
Proof.
  split; [reflexivity|]. intros v x Hv Hx. assert (x = fofZ 1) as ->.
  { destruct Hv as [<-|[<-|[]]]; destruct Hx as [Hx|Hx]; try (symmetry; exact Hx); [destruct Hx as [Hx|[]]; symmetry; exact Hx|destruct Hx]. }
  split; [apply fofZ_fin; lia|]. assert (T : number_text (fofZ 1) = ["1"%char]) by (vm_compute; reflexivity). rewrite T.
  intros r Hr. change (Some (IZR 1) = Some r) in Hr. injection Hr as <-. exists (fofZ 1). split; [reflexivity|]. split; [apply fofZ_fin; lia|].
  rewrite fofZ_val by lia. rewrite Rminus_diag_eq, Rabs_R0 by reflexivity. apply Rmult_le_pos; [left; apply Rinv_0_lt_compat, pow_lt; lra|apply Rabs_pos].
Qed.
Example C97_written : string_of_list_ascii (vectors_file demo_path) =
  ("1,-2.5," ++ String (ascii_of_nat 10) ("1.23457e-06,1.23457e+06," ++ String (ascii_of_nat 10) ""))%string.
Proof. vm_compute. reflexivity. Qed.
Example C97_boundary_written : has_entries [[fofZ 1; fdec (-25) 1]; [fofZ 10; fofZ 0]] /\
  string_of_list_ascii (boundary_file [[[fofZ 1; fdec (-25) 1]; [fofZ 10; fofZ 0]]] []) =
  ("   1 -2.5" ++ String (ascii_of_nat 10) ("  10    0" ++ String (ascii_of_nat 10) ""))%string.
Proof.
  split; [split; [discriminate|intros r [<-|[<-|[]]]; discriminate]|]. vm_compute. reflexivity.
Qed.
Example C97_edges_written : string_of_list_ascii (edges_file [(0, 12); (7, 305)]) =
  ("0,12" ++ String (ascii_of_nat 10) ("7,305" ++ String (ascii_of_nat 10) ""))%string.
Proof. vm_compute. reflexivity. Qed.
Definition stored_lines (o : outcome (state3 D1 * freeseg3)) : nat :=
  match o with Ok (_, segs) => match segments_file segs with Ok t => List.length (data_lines t) | _ => 0 end | _ => 0 end.
Example C97_segments_hyp : conforming (m_sort D1) /\
  stored_lines (obind (run3 D1 [] 2 2 2 []) (fun p => free_segment_one_slice D1 (BMesh [world] [post]) (fst p))) = 7.
Proof. split; [exact isort_conforming|vm_compute; reflexivity]. Qed.
