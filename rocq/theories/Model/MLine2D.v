(** Model of the planar part of src/geometry/LineIntersection.cpp. *)
From Coq Require Import List ZArith Bool.
From Verif.Base Require Import Outcome Float64.
From Verif.Model Require Import MScalar.
Import ListNotations.
Local Open Scope outcome_scope.

Section Line2D.
Variable S : scalar.
Notation T := (car S).
Definition point2 : Type := (T * T)%type.

(** The columns of an Eigen 2 x n matrix, i.e. the polygon's vertices. *)
Definition polygon : Type := list point2.

(** Edge i goes from column i to column i+1, the last one back to column 0
    (LineIntersection.cpp:188-198 and 224-236). *)
Definition edges (p : polygon) : list (point2 * point2) :=
  match p with
  | [] => []
  | h :: t => combine p (t ++ [h])
  end.

(** [shape.row(1).maxCoeff()] / [minCoeff()].  Eigen requires a non-empty
    expression.  Simplification: for NaN entries (Eigen: unspecified) the fold
    below is used. *)
Definition max_coeff (x : T) (l : list T) : T :=
  fold_left (fun m y => if sltb S m y then y else m) l x.
Definition min_coeff (x : T) (l : list T) : T :=
  fold_left (fun m y => if sltb S y m then y else m) l x.

(** Body of the loop of intersectHorizontalLinePolygon2D,
    LineIntersection.cpp:238-244. *)
Definition hline_edge (ty : T) (e : point2 * point2) : list T :=
  let '((x1, y1), (x2, y2)) := e in
  if sleb S (sfmin S y1 y2) ty && sleb S ty (sfmax S y1 y2) then
    let t := sdiv S (ssub S ty y2) (ssub S y1 y2) in
    if sleb S (sofZ S 0) t && sleb S t (sofZ S 1) then
      [sadd S (smul S t x1) (smul S (ssub S (sofZ S 1) t) x2)]
    else []
  else [].

(** intersectHorizontalLinePolygon2D, LineIntersection.cpp:215-248. *)
Definition hline_polygon (ty : T) (shape : polygon) : outcome (list T) :=
  match map snd shape with
  | [] => UB
  | y :: ys =>
      if sltb S (max_coeff y ys) ty || sltb S ty (min_coeff y ys) then Ok []
      else Ok (flat_map (hline_edge ty) (edges shape))
  end.

(** isIntersectSegPolygon2D, LineIntersection.cpp:173-213.
    [solve a11 a12 a21 a22 b1 b2] stands for
    [A.colPivHouseholderQr().solve(b)], an Eigen kernel that is not modelled: it
    is an argument here, and every theorem says what it assumes about it. *)
Variable solve : T -> T -> T -> T -> T -> T -> (T * T).

Definition seg_edge (p1 p2 : point2) (e : point2 * point2) : bool :=
  let '((x1, y1), (x2, y2)) := e in
  let '(px1, py1) := p1 in
  let '(px2, py2) := p2 in
  let '(s0, s1) := solve (ssub S px2 px1) (ssub S x1 x2)
                         (ssub S py2 py1) (ssub S y1 y2)
                         (ssub S x1 px1) (ssub S y1 py1) in
  (sltb S (sofZ S 0) s0 && sltb S s0 (sofZ S 1)) &&
  (sltb S (sofZ S 0) s1 && sltb S s1 (sofZ S 1)).

Definition seg_polygon (v1 v2 : list T) (shape : polygon) : outcome bool :=
  do px1 <- at_ v1 0;
  do py1 <- at_ v1 1;
  do px2 <- at_ v2 0;
  do py2 <- at_ v2 1;
  Ok (existsb (seg_edge (px1, py1) (px2, py2)) (edges shape)).

End Line2D.

Arguments edges {S}.
