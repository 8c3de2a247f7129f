(** Model of the spatial part of src/geometry/LineIntersection.cpp, generic in the
    scalar type (binary64 or exact reals). *)
From Coq Require Import List ZArith Bool.
From Verif.Base Require Import Outcome Float64.
From Verif.Model Require Import MScalar MLine2D.
Import ListNotations.
Local Open Scope outcome_scope.

Section Line3D.
Variable S : scalar.
Notation T := (car S).

Record vec3 : Type := V3 { vx : T; vy : T; vz : T }.

(** Decimal literals such as 1e-12, 1e-6. *)
Definition sdec (m k : Z) : T := sdiv S (sofZ S m) (sofZ S (10 ^ k)).
Definition tol12 : T := sdec 1 12.
(** [-tol]: 0 - tol (same value). *)
Definition sneg (a : T) : T := ssub S (sofZ S 0) a.

(** Eigen fixed-size operations.  Eigen's unrolled reduction of three terms is
    x0 + (x1 + x2). *)
Definition vsub (a b : vec3) : vec3 := V3 (ssub S (vx a) (vx b)) (ssub S (vy a) (vy b)) (ssub S (vz a) (vz b)).
Definition vadd (a b : vec3) : vec3 := V3 (sadd S (vx a) (vx b)) (sadd S (vy a) (vy b)) (sadd S (vz a) (vz b)).
Definition vscale (k : T) (a : vec3) : vec3 := V3 (smul S k (vx a)) (smul S k (vy a)) (smul S k (vz a)).
Definition vdiv (a : vec3) (k : T) : vec3 := V3 (sdiv S (vx a) k) (sdiv S (vy a) k) (sdiv S (vz a) k).
Definition dot (a b : vec3) : T :=
  sadd S (smul S (vx a) (vx b)) (sadd S (smul S (vy a) (vy b)) (smul S (vz a) (vz b))).
Definition cross (a b : vec3) : vec3 :=
  V3 (ssub S (smul S (vy a) (vz b)) (smul S (vz a) (vy b)))
     (ssub S (smul S (vz a) (vx b)) (smul S (vx a) (vz b)))
     (ssub S (smul S (vx a) (vy b)) (smul S (vy a) (vx b))).
Definition vnorm (a : vec3) : T := ssqrt S (dot a a).
(** Eigen normalize(): divide by sqrt(squaredNorm) when squaredNorm > 0. *)
Definition normalize (a : vec3) : vec3 :=
  let z := dot a a in
  if sltb S (sofZ S 0) z then vdiv a (ssqrt S z) else a.

Record line3 : Type := L3 { lorg : vec3; ldir : vec3 }.

(** intersectLineTriangle3D, LineIntersection.cpp:126-171.  Returns [Some pt]
    when the C++ returns true with output argument pt.  [pow(uv,2)] is uv*uv. *)
Definition line_triangle (l : line3) (t0 u v : vec3) : option vec3 :=
  let n := normalize (cross u v) in
  let a := sneg (dot n (vsub (lorg l) t0)) in
  let b := dot n (ldir l) in
  if negb (sltb S tol12 (sabs S b) && sltb S tol12 (vnorm n)) then None
  else
    let pt := vadd (lorg l) (vscale (sdiv S a b) (ldir l)) in
    let uu := dot u u in
    let uv := dot u v in
    let vv := dot v v in
    let wu := dot u (vsub pt t0) in
    let wv := dot v (vsub pt t0) in
    let D := ssub S (smul S uv uv) (smul S uu vv) in
    let s := sdiv S (ssub S (smul S uv wv) (smul S vv wu)) D in
    if sltb S s (sneg tol12) || sltb S (sadd S (sofZ S 1) tol12) s then None
    else
      let t := sdiv S (ssub S (smul S uv wu) (smul S uu wv)) D in
      if negb (sltb S t (sneg tol12) || sltb S (sadd S (sofZ S 1) tol12) (sadd S s t))
      then Some pt else None.

(** MeshMatrix: vertex columns, faces as index triples (stored as a matrix of
    numbers and cast to int; modelled as naturals). *)
Record mesh : Type := Mesh { mverts : list vec3; mfaces : list (nat * nat * nat) }.

Definition face_pts (m : mesh) (f : nat * nat * nat) : outcome (vec3 * vec3 * vec3) :=
  let '(i, j, k) := f in
  do a <- idx (mverts m) i;
  do b <- idx (mverts m) j;
  do c <- idx (mverts m) k;
  Ok (a, b, c).

Definition face_hit (l : line3) (abc : vec3 * vec3 * vec3) : option vec3 :=
  let '(a, b, c) := abc in line_triangle l a (vsub b a) (vsub c a).

(** Bounding-box filter of one face in x and y, lines 84-101. *)
Definition fmin3 (a b c : T) : T := sfmin S a (sfmin S b c).
Definition fmax3 (a b c : T) : T := sfmax S a (sfmax S b c).
Definition out_of_face (l : line3) (abc : vec3 * vec3 * vec3) : bool :=
  let '(a, b, c) := abc in
  (sltb S (vx (lorg l)) (fmin3 (vx a) (vx b) (vx c)) || sltb S (fmax3 (vx a) (vx b) (vx c)) (vx (lorg l))) ||
  (sltb S (vy (lorg l)) (fmin3 (vy a) (vy b) (vy c)) || sltb S (fmax3 (vy a) (vy b) (vy c)) (vy (lorg l))).

(** The face loops (lines 36-51 and 82-121): stop once two points are found. *)
Fixpoint scan (test : vec3 * vec3 * vec3 -> option vec3) (m : mesh) (fs : list (nat * nat * nat))
    (points : list vec3) : outcome (list vec3) :=
  match fs with
  | [] => Ok points
  | f :: fs' =>
      do abc <- face_pts m f;
      let points' := match test abc with Some p => points ++ [p] | None => points end in
      if Nat.eqb (length points') 2 then Ok points' else scan test m fs' points'
  end.

(** [v > row.maxCoeff() || v < row.minCoeff()]; Eigen needs a non-empty matrix. *)
Definition out_of_row (v : T) (row : list T) : outcome bool :=
  match row with
  | [] => UB
  | x :: xs => Ok (sltb S (max_coeff S x xs) v || sltb S v (min_coeff S x xs))
  end.

(** intersectVerticalLineMesh3D, LineIntersection.cpp:56-124.  Simplification:
    the filter of line(1) uses [continue] on its own; both filters are merged. *)
Definition vertical_line_mesh (l : line3) (m : mesh) : outcome (list vec3) :=
  do o1 <- out_of_row (vx (lorg l)) (map vx (mverts m));
  if o1 then Ok [] else
  do o2 <- out_of_row (vy (lorg l)) (map vy (mverts m));
  if o2 then Ok [] else
  scan (fun abc => if out_of_face l abc then None else face_hit l abc) m (mfaces m) [].

(** intersectLineMesh3D, LineIntersection.cpp:7-54: a coordinate whose direction
    component is below 1e-6 and out of the mesh's range rejects the line;
    [direction.dot(basis_i)] is the i-th component. *)
Definition axis_reject (d o : T) (row : list T) : outcome bool :=
  if sltb S (sabs S d) (sdec 1 6) then out_of_row o row else Ok false.
Definition line_mesh (l : line3) (m : mesh) : outcome (list vec3) :=
  do o1 <- axis_reject (vx (ldir l)) (vx (lorg l)) (map vx (mverts m));
  if o1 then Ok [] else
  do o2 <- axis_reject (vy (ldir l)) (vy (lorg l)) (map vy (mverts m));
  if o2 then Ok [] else
  do o3 <- axis_reject (vz (ldir l)) (vz (lorg l)) (map vz (mverts m));
  if o3 then Ok [] else
  scan (face_hit l) m (mfaces m) [].

End Line3D.
Arguments V3 {S} vx vy vz.
Arguments vx {S}.
Arguments vy {S}.
Arguments vz {S}.
Arguments L3 {S}.
Arguments lorg {S}.
Arguments ldir {S}.
Arguments Mesh {S}.
Arguments mverts {S}.
Arguments mfaces {S}.
