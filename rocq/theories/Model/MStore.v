(** Model of the files written by storeGraphInfo and storePathInfo,
    src/test/util/DisplayPlanningData.cpp:27-48, 53-86, and of the segment file of
    storeRoutines, include/hrm/test/util/DisplayPlanningData-inl.h:50-67
    (GTestUtils-inl.h has the same text without the suffix).  A file is the list of
    the characters written to it; opening it is assumed to succeed (the code does
    not check it). *)
From Coq Require Import List Ascii Bool ZArith Arith.
From Flocq Require Import IEEE754.BinarySingleNaN.
From Verif.Base Require Import Outcome Float64.
From Verif.Model Require Import MCsv MFreeSpace.
Import ListNotations.
Local Open Scope Z_scope.
Local Open Scope outcome_scope.

(** operator<<(std::ostream&, size_t): decimal digits, no leading zero. *)
Definition digit (d : Z) : ascii := ascii_of_nat (48 + Z.to_nat d).
Fixpoint dec_digits (fuel : nat) (n : Z) (acc : list ascii) : list ascii :=
  match fuel with
  | O => acc
  | S k => let acc' := digit (n mod 10) :: acc in
           if n <? 10 then acc' else dec_digits k (n / 10) acc'
  end.
Definition dec (n : Z) : list ascii := dec_digits (S (Z.to_nat (Z.log2 n))) n [].

(** operator<<(std::ostream&, double) with the default flags and precision 6: as
    printf's %g.  p / q > 0 is the magnitude; [decade] is the X with
    10^X <= p / q < 10^(X+1), searched upwards from [lo]. *)
Definition below10 (p q k : Z) : bool :=
  if 0 <=? k then p <? q * 10 ^ k else p * 10 ^ (- k) <? q.
Fixpoint decade (fuel : nat) (p q lo : Z) : Z :=
  match fuel with
  | O => lo
  | S k => if below10 p q (lo + 1) then lo else decade k p q (lo + 1)
  end.
(** The integer nearest to num / den, ties to even. *)
Definition nearest_even (num den : Z) : Z :=
  let d := num / den in
  let r := num mod den in
  if 2 * r <? den then d else if den <? 2 * r then d + 1 else if Z.even d then d else d + 1.
(** The six significant digits as an integer D, and the exponent X of the first one:
    the printed value is D * 10^(X - 5). *)
Definition six_digits (p q : Z) : Z * Z :=
  let X := decade 650 p q (-330) in
  let D := if 0 <=? 5 - X then nearest_even (p * 10 ^ (5 - X)) q else nearest_even p (q * 10 ^ (X - 5)) in
  if D =? 1000000 then (100000, X + 1) else (D, X).

(** %g removes trailing zeros of the fraction, and the point if nothing is left. *)
Fixpoint strip (l : list ascii) : list ascii :=
  match l with
  | [] => []
  | c :: r => match strip r with
              | [] => if Ascii.eqb c "0" then [] else [c]
              | s => c :: s
              end
  end.
Definition fraction (l : list ascii) : list ascii :=
  match strip l with [] => [] | s => "."%char :: s end.
(** Style %f for -4 <= X < 6. *)
Definition fixed_text (D X : Z) : list ascii :=
  if 0 <=? X then firstn (Z.to_nat (X + 1)) (dec D) ++ fraction (skipn (Z.to_nat (X + 1)) (dec D))
  else ["0"%char] ++ fraction (repeat "0"%char (Z.to_nat (- X - 1)) ++ dec D).
(** Style %e otherwise: at least two digits in the exponent. *)
Definition two_digits (n : Z) : list ascii := if n <? 10 then "0"%char :: dec n else dec n.
Definition exp_text (D X : Z) : list ascii :=
  firstn 1 (dec D) ++ fraction (skipn 1 (dec D)) ++
  "e"%char :: (if X <? 0 then "-"%char else "+"%char) :: two_digits (Z.abs X).
Definition magnitude_text (p q : Z) : list ascii :=
  let '(D, X) := six_digits p q in
  if (-4 <=? X) && (X <? 6) then fixed_text D X else exp_text D X.

Definition sign_text (s : bool) : list ascii := if s then ["-"%char] else [].
(** Simplification: a NaN has no sign here ("-nan" is not produced). *)
Definition number_text (x : f64) : list ascii :=
  match x with
  | B754_zero s => sign_text s ++ ["0"%char]
  | B754_infinity s => sign_text s ++ ["i"%char; "n"%char; "f"%char]
  | B754_nan => ["n"%char; "a"%char; "n"%char]
  | B754_finite s m e _ =>
      sign_text s ++
      (if 0 <=? e then magnitude_text (Z.pos m * 2 ^ e) 1 else magnitude_text (Z.pos m) (2 ^ (- e)))
  end.

(** DisplayPlanningData.cpp:32-37, 69-74, 80-85: every number is followed by a comma,
    every vector by a newline. *)
Definition row_text (row : list f64) : list ascii :=
  flat_map (fun x => number_text x ++ [comma]) row ++ [newline].
Definition vectors_file (rows : list (list f64)) : list ascii := flat_map row_text rows.

(** DisplayPlanningData.cpp:40-46. *)
Definition edges_file (edges : list (nat * nat)) : list ascii :=
  flat_map (fun e => dec (Z.of_nat (fst e)) ++ [comma] ++ dec (Z.of_nat (snd e)) ++ [newline]) edges.

(** DisplayPlanningData.cpp:57-62: one line without a newline. *)
Definition ids_file (ids : list nat) : list ascii := flat_map (fun i => dec (Z.of_nat i) ++ [comma]) ids.

(** include/hrm/test/util/DisplayPlanningData-inl.h:50-67, GTestUtils-inl.h:47-63: one
    line per free segment of the slice (struct FreeSegment3D as a list of planes); all
    subscripts are unchecked. *)
Definition segment_line (x : f64) (fs : freeseg) (j k : nat) : outcome (list ascii) :=
  do y <- idx (fty fs) j;
  do ls <- idx (fxL fs) j; do lo <- idx ls k;
  do ms <- idx (fxM fs) j; do mi <- idx ms k;
  do us <- idx (fxU fs) j; do hi <- idx us k;
  Ok (number_text x ++ [comma] ++ number_text y ++ [comma] ++ number_text lo ++ [comma] ++
      number_text mi ++ [comma] ++ number_text hi ++ [newline]).
Definition plane_lines (p : f64 * freeseg) : outcome (list ascii) :=
  do ls <- omap (fun j => do ms <- idx (fxM (snd p)) j;
                          do l <- omap (segment_line (fst p) (snd p) j) (seq 0 (length ms)); Ok (List.concat l))
                (seq 0 (length (fty (snd p))));
  Ok (List.concat ls).
Definition segments_file (planes : list (f64 * freeseg)) : outcome (list ascii) :=
  do ls <- omap plane_lines planes; Ok (List.concat ls).

(** Eigen's operator<<(std::ostream&, matrix) with the default format (IO.h): every coefficient is
    right-aligned to the width of the widest one, columns are separated by a space, rows by a
    newline; nothing is written for a matrix without coefficients. *)
Definition blank : ascii := ascii_of_nat 32.
Definition aligned (w : nat) (t : list ascii) : list ascii := repeat blank (w - length t) ++ t.
Fixpoint joined (sep : ascii) (ts : list (list ascii)) : list ascii :=
  match ts with [] => [] | [t] => t | t :: r => t ++ sep :: joined sep r end.
Definition matrix_text (rows : list (list f64)) : list ascii :=
  let w := list_max (map (fun x => length (number_text x)) (List.concat rows)) in
  match List.concat rows with
  | [] => []
  | _ => joined newline (map (fun r => joined blank (map (fun x => aligned w (number_text x)) r)) rows)
  end.
(** DisplayPlanningData-inl.h:13-48, GTestUtils-inl.h:11-45, TestHRM2D.cpp:40-72: the boundary points of the
    obstacles, then of the arenas. *)
Definition boundary_file (obstacle arena : list (list (list f64))) : list ascii :=
  flat_map (fun m => matrix_text m ++ [newline]) obstacle ++ flat_map (fun m => matrix_text m ++ [newline]) arena.
