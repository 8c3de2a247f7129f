(** Model of src/util/ExponentialFunction.cpp, src/geometry/SuperEllipse.cpp and
    src/geometry/SuperQuadrics.cpp.

    Exact real arithmetic: no rounding, [std::sin], [std::cos], [pow] and Eigen's
    arithmetic are the real functions.  A sample whose computation divides by zero
    (or takes 0 to a negative power) is [None]: the doubles are then NaN or infinite.
    The constants PI, HALF_PI, EPSILON of DataType.h:42-44 are the decimal numbers
    written there. *)
From Coq Require Import List Reals ZArith Arith Bool.
From Verif.Base Require Import Outcome.
Import ListNotations.
Local Open Scope outcome_scope.
Local Open Scope R_scope.

(** DataType.h:42-44. *)
Definition cPI : R := 31415926 / 10000000.
Definition cHALF_PI : R := cPI / 2.
Definition cEPSILON : R := 1 / 1000000.

(** ---- Eigen fixed size vectors and matrices (by rows) ---- *)
Record v2 : Type := V2 { x2 : R; y2 : R }.
Record m2 : Type := M2 { m00 : R; m01 : R; m10 : R; m11 : R }.
Definition add2 (u v : v2) : v2 := V2 (x2 u + x2 v) (y2 u + y2 v).
Definition sub2 (u v : v2) : v2 := V2 (x2 u - x2 v) (y2 u - y2 v).
Definition scale2 (k : R) (v : v2) : v2 := V2 (k * x2 v) (k * y2 v).
Definition norm2 (v : v2) : R := sqrt (x2 v * x2 v + y2 v * y2 v).
Definition app2 (A : m2) (v : v2) : v2 := V2 (m00 A * x2 v + m01 A * y2 v) (m10 A * x2 v + m11 A * y2 v).
Definition mul2 (A B : m2) : m2 :=
  M2 (m00 A * m00 B + m01 A * m10 B) (m00 A * m01 B + m01 A * m11 B)
     (m10 A * m00 B + m11 A * m10 B) (m10 A * m01 B + m11 A * m11 B).
Definition tr2 (A : m2) : m2 := M2 (m00 A) (m10 A) (m01 A) (m11 A).
Definition diag2 (a b : R) : m2 := M2 a 0 0 b.
(** Eigen::Rotation2Dd(t).matrix(). *)
Definition rot2 (t : R) : m2 := M2 (cos t) (- sin t) (sin t) (cos t).

Record v3 : Type := V3r { x3 : R; y3 : R; z3 : R }.
Record m3 : Type := M3 { r0 : v3; r1 : v3; r2 : v3 }.
Definition add3 (u v : v3) : v3 := V3r (x3 u + x3 v) (y3 u + y3 v) (z3 u + z3 v).
Definition sub3 (u v : v3) : v3 := V3r (x3 u - x3 v) (y3 u - y3 v) (z3 u - z3 v).
Definition scale3 (k : R) (v : v3) : v3 := V3r (k * x3 v) (k * y3 v) (k * z3 v).
Definition dot3 (u v : v3) : R := x3 u * x3 v + y3 u * y3 v + z3 u * z3 v.
Definition norm3 (v : v3) : R := sqrt (dot3 v v).
Definition app3 (A : m3) (v : v3) : v3 := V3r (dot3 (r0 A) v) (dot3 (r1 A) v) (dot3 (r2 A) v).
Definition tr3 (A : m3) : m3 :=
  M3 (V3r (x3 (r0 A)) (x3 (r1 A)) (x3 (r2 A)))
     (V3r (y3 (r0 A)) (y3 (r1 A)) (y3 (r2 A)))
     (V3r (z3 (r0 A)) (z3 (r1 A)) (z3 (r2 A))).
Definition mul3 (A B : m3) : m3 :=
  let C := tr3 B in
  M3 (app3 C (r0 A)) (app3 C (r1 A)) (app3 C (r2 A)).
Definition diag3 (a b c : R) : m3 := M3 (V3r a 0 0) (V3r 0 b 0) (V3r 0 0 c).

(** Eigen::Quaterniond and toRotationMatrix() (Eigen/src/Geometry/Quaternion.h): no
    normalisation. *)
Record quat : Type := Q { qw : R; qx : R; qy : R; qz : R }.
Definition rotm (q : quat) : m3 :=
  let tx := 2 * qx q in let ty := 2 * qy q in let tz := 2 * qz q in
  let twx := tx * qw q in let twy := ty * qw q in let twz := tz * qw q in
  let txx := tx * qx q in let txy := ty * qx q in let txz := tz * qx q in
  let tyy := ty * qy q in let tyz := tz * qy q in let tzz := tz * qz q in
  M3 (V3r (1 - (tyy + tzz)) (txy - twz) (txz + twy))
     (V3r (txy + twz) (1 - (txx + tzz)) (tyz - twx))
     (V3r (txz - twy) (tyz + twx) (1 - (txx + tyy))).

(** ---- ExponentialFunction.cpp ---- *)
(** The macro sgn, ExponentialFunction.h:11, and Eigen's sign(). *)
Definition sgn (v : R) : R := if Rlt_dec v 0 then -1 else if Rlt_dec 0 v then 1 else 0.
(** [pow(x, p)] for x >= 0: [None] for 0 to a negative power (infinite). *)
Definition rpow (x p : R) : option R :=
  if Rlt_dec 0 x then Some (Rpower x p)
  else if Rlt_dec 0 p then Some 0 else if Req_EM_T p 0 then Some 1 else None.
(** exponentialFunction, ExponentialFunction.cpp:5-10; exponentialFunctionMatrixForm,
    lines 12-25, computes the same for every entry.  [None]: 0 times infinity. *)
Definition expfun (theta power : R) (isSine : bool) : option R :=
  let t := if isSine then sin theta else cos theta in
  match rpow (Rabs t) power with Some v => Some (sgn t * v) | None => None end.

Definition obnd {A B} (o : option A) (f : A -> option B) : option B := match o with Some a => f a | None => None end.
(** A quotient; [None] when the denominator is 0. *)
Definition odiv (a b : R) : option R := if Req_EM_T b 0 then None else Some (a / b).

(** ---- SuperEllipse ---- *)
(** SuperEllipse.h:78-91; the constructor, SuperEllipse.cpp:10-19, and the setters, lines
    21-30, only store. *)
Record sellipse : Type := SE { se_axes : list R; se_eps : R; se_pos : list R; se_angle : R; se_num : nat }.
Definition se_set_pos (s : sellipse) (p : list R) : sellipse := SE (se_axes s) (se_eps s) p (se_angle s) (se_num s).
Definition se_set_angle (s : sellipse) (t : R) : sellipse := SE (se_axes s) (se_eps s) (se_pos s) t (se_num s).

(** [2 * i * PI / (static_cast<double>(num_) - 1)], lines 41 and 89. *)
Definition se_theta (num i : nat) : option R := odiv (2 * INR i * cPI) (INR num - 1).

(** getOriginShape, SuperEllipse.cpp:32-55.  [int(num_)] is taken to be num_. *)
Definition origin2 (s : sellipse) : outcome (list (option v2)) :=
  omap (fun i =>
    do a <- at_ (se_axes s) 0; do b <- at_ (se_axes s) 1;
    do p0 <- at_ (se_pos s) 0; do p1 <- at_ (se_pos s) 1;
    Ok (obnd (se_theta (se_num s) i) (fun th =>
        obnd (expfun th (se_eps s) false) (fun cx =>
        obnd (expfun th (se_eps s) true) (fun sx =>
          Some (add2 (app2 (rot2 (se_angle s)) (V2 (a * cx) (b * sx))) (V2 p0 p1)))))))
    (seq 0 (se_num s)).

(** gradPhi, SuperEllipse.cpp:88-94. *)
Definition grad2 (s : sellipse) (i : nat) : option v2 :=
  obnd (se_theta (se_num s) i) (fun th =>
  obnd (odiv 2 (se_eps s)) (fun k =>
  obnd (expfun th (2 - se_eps s) false) (fun gx =>
  obnd (expfun th (2 - se_eps s) true) (fun gy =>
    Some (V2 (k * gx) (k * gy)))))).

(** Tinv, SuperEllipse.cpp:78-85; r = fmin(a1, b1). *)
Definition tinv2 (r a2 b2 th2 : R) : option m2 :=
  obnd (odiv a2 r) (fun u => obnd (odiv b2 r) (fun w =>
    Some (mul2 (mul2 (rot2 th2) (diag2 u w)) (tr2 (rot2 th2))))).

(** The added term, SuperEllipse.cpp:96-99. *)
Definition offset2 (k r : R) (T : m2) (th1 : R) (g : v2) : option v2 :=
  let num := app2 (mul2 (mul2 T T) (rot2 th1)) g in
  let den := norm2 (app2 (mul2 T (rot2 th1)) g) in
  obnd (odiv (k * r * x2 num) den) (fun x => obnd (odiv (k * r * y2 num) den) (fun y => Some (V2 x y))).

(** getMinkSum2D, SuperEllipse.cpp:58-101.  The message for a second body that is not an
    ellipse (lines 74-76) is not modelled; the computation goes on. *)
Definition mink2 (s b : sellipse) (k : Z) : outcome (list (option v2)) :=
  do a1 <- at_ (se_axes s) 0; do b1 <- at_ (se_axes s) 1;
  do a2 <- at_ (se_axes b) 0; do b2 <- at_ (se_axes b) 1;
  do o <- origin2 s;
  let r := Rmin a1 b1 in
  Ok (map (fun ip =>
        obnd (snd ip) (fun p =>
        obnd (tinv2 r a2 b2 (se_angle b)) (fun T =>
        obnd (grad2 s (fst ip)) (fun g =>
        obnd (offset2 (IZR k) r T (se_angle s) g) (fun d =>
          Some (add2 p d)))))) (combine (seq 0 (se_num s)) o)).

(** ---- SuperQuadrics ---- *)
(** SuperQuadrics.h:89-117; qSample_ is not used by the functions below, eta_ and omega_ are
    determined by num_ (see [etas], [omegas]). *)
Record squad : Type := SQ { sq_axes : list R; sq_eps : list R; sq_pos : list R; sq_quat : quat; sq_num : nat }.
Definition sq_set_pos (s : squad) (p : list R) : squad := SQ (sq_axes s) (sq_eps s) p (sq_quat s) (sq_num s).
Definition sq_set_quat (s : squad) (q : quat) : squad := SQ (sq_axes s) (sq_eps s) (sq_pos s) q (sq_num s).

(** Eigen's LinSpaced(n, lo, hi): the single entry for n = 1 is hi. *)
Definition linspaced (n : nat) (lo hi : R) : list R :=
  if Nat.eqb n 1 then [hi] else map (fun i => lo + INR i * ((hi - lo) / (INR n - 1))) (seq 0 n).
Definition etas (n : nat) : list R := linspaced n (- cHALF_PI - cEPSILON) (cHALF_PI + cEPSILON).
Definition omegas (n : nat) : list R := linspaced n (- cPI - cEPSILON) (cPI + cEPSILON).
(** The entries of eta_ (constant along columns) and omega_ (constant along rows) in the
    column-major order of resize(1, Num_), SuperQuadrics.cpp:20-24. *)
Definition params3 (n : nat) : list (R * R) :=
  flat_map (fun eta => map (fun om => (eta, om)) (omegas n)) (etas n).

(** getOriginShape, SuperQuadrics.cpp:47-85, one sample. *)
Definition surf3 (a b c e1 e2 : R) (q : quat) (ctr : v3) (eo : R * R) : option v3 :=
  obnd (expfun (fst eo) e1 false) (fun ce =>
  obnd (expfun (fst eo) e1 true) (fun se =>
  obnd (expfun (snd eo) e2 false) (fun co =>
  obnd (expfun (snd eo) e2 true) (fun so =>
    Some (add3 (app3 (rotm q) (V3r (a * (ce * co)) (b * (ce * so)) (c * (se * 1)))) ctr))))).
Definition origin3 (s : squad) : outcome (list (option v3)) :=
  do p0 <- at_ (sq_pos s) 0; do p1 <- at_ (sq_pos s) 1; do p2 <- at_ (sq_pos s) 2;
  do a <- at_ (sq_axes s) 0; do b <- at_ (sq_axes s) 1; do c <- at_ (sq_axes s) 2;
  do e1 <- at_ (sq_eps s) 0; do e2 <- at_ (sq_eps s) 1;
  Ok (map (surf3 a b c e1 e2 (sq_quat s) (V3r p0 p1 p2)) (params3 (sq_num s))).

(** gradPhi, SuperQuadrics.cpp:115-134. *)
Definition grad3 (a b c e1 e2 : R) (eo : R * R) : option v3 :=
  obnd (expfun (fst eo) (2 - e1) false) (fun ce =>
  obnd (expfun (fst eo) (2 - e1) true) (fun se =>
  obnd (expfun (snd eo) (2 - e2) false) (fun co =>
  obnd (expfun (snd eo) (2 - e2) true) (fun so =>
  obnd (odiv (ce * co) a) (fun gx =>
  obnd (odiv (ce * so) b) (fun gy =>
  obnd (odiv (se * 1) c) (fun gz => Some (V3r gx gy gz)))))))).

(** The added term, SuperQuadrics.cpp:136-139. *)
Definition offset3 (k : R) (T R1 : m3) (g : v3) : option v3 :=
  let num := app3 (mul3 (mul3 T T) R1) g in
  let den := norm3 (app3 (mul3 T R1) g) in
  obnd (odiv (k * x3 num) den) (fun x => obnd (odiv (k * y3 num) den) (fun y =>
  obnd (odiv (k * z3 num) den) (fun z => Some (V3r x y z)))).

Definition tinv3 (a b c : R) (q : quat) : m3 := mul3 (mul3 (rotm q) (diag3 a b c)) (tr3 (rotm q)).

(** getMinkSum3D, SuperQuadrics.cpp:88-143.  The message of lines 90-93 is not modelled (its
    reads of shapeB's exponents are). *)
Definition mink3 (s b : squad) (k : Z) : outcome (list (option v3)) :=
  do f1 <- at_ (sq_eps b) 0; do _ <- (if Req_EM_T f1 1 then at_ (sq_eps b) 1 else Ok f1);
  do a1 <- at_ (sq_axes s) 0; do b1 <- at_ (sq_axes s) 1; do c1 <- at_ (sq_axes s) 2;
  do e1 <- at_ (sq_eps s) 0; do e2 <- at_ (sq_eps s) 1;
  do a2 <- at_ (sq_axes b) 0; do b2 <- at_ (sq_axes b) 1; do c2 <- at_ (sq_axes b) 2;
  do o <- origin3 s;
  let T := tinv3 a2 b2 c2 (sq_quat b) in
  Ok (map (fun ep =>
        obnd (snd ep) (fun p =>
        obnd (grad3 a1 b1 c1 e1 e2 (fst ep)) (fun g =>
        obnd (offset3 (IZR k) T (rotm (sq_quat s)) g) (fun d =>
          Some (add3 p d))))) (combine (params3 (sq_num s)) o)).
