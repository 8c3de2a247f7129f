(** Model of parse2DCsvFile, src/util/Parse2dCsvFile.cpp:3-43. *)
From Coq Require Import List Ascii Bool.
From Verif.Base Require Import Outcome Float64.
Import ListNotations.
Local Open Scope outcome_scope.

(** Repeated std::getline(stream, piece, sep) until it fails: characters up to the
    separator; a piece is also produced at the end of the stream if at least one
    character was extracted. *)
Fixpoint getlines (sep : ascii) (cur : list ascii) (text : list ascii) : list (list ascii) :=
  match text with
  | [] => match cur with [] => [] | _ => [cur] end
  | c :: rest => if Ascii.eqb c sep then cur :: getlines sep [] rest else getlines sep (cur ++ [c]) rest
  end.

Section Csv.
(** std::stof: a value, or std::invalid_argument, or std::out_of_range. *)
Inductive stof_result : Type := Value (x : f64) | Invalid | Range.
Variable stof : list ascii -> stof_result.

Definition newline : ascii := ascii_of_nat 10.
Definition comma : ascii := ascii_of_nat 44.
Definition hash : ascii := ascii_of_nat 35.

(** Lines 22-33: only std::invalid_argument is caught. *)
Fixpoint parse_fields (fs : list (list ascii)) (record : list f64) : outcome (list f64) :=
  match fs with
  | [] => Ok record
  | f :: rest =>
      match stof f with
      | Value x => parse_fields rest (record ++ [x])
      | Invalid => parse_fields rest record
      | Range => Throw OutOfRange
      end
  end.

(** Line 18: [s[0] != '#'] ([s[0]] of an empty string is the null character). *)
Definition is_comment (l : list ascii) : bool :=
  match l with c :: _ => Ascii.eqb c hash | [] => false end.

Fixpoint parse_lines (ls : list (list ascii)) (data : list (list f64)) : outcome (list (list f64)) :=
  match ls with
  | [] => Ok data
  | l :: rest =>
      if is_comment l then parse_lines rest data
      else do r <- parse_fields (getlines comma [] l) []; parse_lines rest (data ++ [r])
  end.

(** The whole function; [None]: the file cannot be opened (lines 37-40). *)
Definition parse_csv (file : option (list ascii)) : outcome (list (list f64)) :=
  match file with
  | None => Throw InvalidArgument
  | Some text => parse_lines (getlines newline [] text) []
  end.
End Csv.
