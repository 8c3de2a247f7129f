(** Specification for the stored results (C97): the number a decimal text stands for. *)
From Coq Require Import List Reals Ascii Bool ZArith Arith.
From Verif.Base Require Import Float64.
From Verif.Model Require Import MFreeSpace.
From Verif.Spec Require Import SUtil.
Import ListNotations.

Definition digit_value (c : ascii) : option Z :=
  let n := nat_of_ascii c in
  if Nat.leb 48 n && Nat.leb n 57 then Some (Z.of_nat n - 48)%Z else None.
(** A text of digits as a whole number; [acc]: what the digits before it stand for. *)
Fixpoint digits_value (acc : Z) (l : list ascii) : option Z :=
  match l with
  | [] => Some acc
  | c :: rest => match digit_value c with Some d => digits_value (10 * acc + d)%Z rest | None => None end
  end.
Definition whole (l : list ascii) : option Z := match l with [] => None | _ => digits_value 0 l end.

(** digits, or digits '.' digits. *)
Definition mantissa (l : list ascii) : option R :=
  match split "."%char l with
  | [i] => match whole i with Some a => Some (IZR a) | None => None end
  | [i; f] => match whole i, whole f with
              | Some a, Some b => Some (IZR a + IZR b / 10 ^ (length f))%R
              | _, _ => None
              end
  | _ => None
  end.
(** '+' or '-' and digits. *)
Definition exponent (l : list ascii) : option Z :=
  match l with
  | c :: r => if Ascii.eqb c "+" then whole r
              else if Ascii.eqb c "-" then match whole r with Some n => Some (- n)%Z | None => None end
              else None
  | [] => None
  end.
(** A mantissa, or a mantissa 'e' exponent. *)
Definition unsigned (l : list ascii) : option R :=
  match split "e"%char l with
  | [m] => mantissa m
  | [m; x] => match mantissa m, exponent x with
              | Some a, Some k => Some (a * powerRZ 10 k)%R
              | _, _ => None
              end
  | _ => None
  end.
(** The number a decimal text such as "-1.25e-07" stands for. *)
Definition decimal (l : list ascii) : option R :=
  match l with
  | c :: r => if Ascii.eqb c "-" then match unsigned r with Some a => Some (- a)%R | None => None end
              else unsigned l
  | [] => None
  end.

(** Every character of a field is harmless for a comma-separated file. *)
Definition plain_field (l : list ascii) : Prop :=
  l <> [] /\ forall c, In c l -> c <> ","%char /\ c <> "#"%char /\ c <> ascii_of_nat 10.

(** One row [x, y, low, mid, high] per free segment: by plane, then line, then segment. *)
Definition cell (t : list (list f64)) (j k : nat) : f64 := nth k (nth j t []) fzero.
Definition segment_rows (planes : list (f64 * freeseg)) : list (list f64) :=
  flat_map (fun p => flat_map (fun j => map (fun k =>
      [fst p; nth j (fty (snd p)) fzero; cell (fxL (snd p)) j k; cell (fxM (snd p)) j k; cell (fxU (snd p)) j k])
    (seq 0 (length (nth j (fxM (snd p)) [])))) (seq 0 (length (fty (snd p))))) planes.
(** The three tables of a plane have a row per line and rows of equal length. *)
Definition same_shape (fs : freeseg) : Prop :=
  map (@length f64) (fxL fs) = map (@length f64) (fxM fs) /\
  map (@length f64) (fxU fs) = map (@length f64) (fxM fs) /\ length (fxM fs) = length (fty fs).

(** The words of a line: what is between blanks. *)
Definition words (l : list ascii) : list (list ascii) :=
  filter (fun w => match w with [] => false | _ => true end) (split " "%char l).
(** A matrix has coefficients. *)
Definition has_entries (m : list (list f64)) : Prop := m <> [] /\ forall r, In r m -> r <> [].
