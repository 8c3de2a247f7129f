(** Model of [FreeSpaceComputator] (include/hrm/datastructure/FreeSpace-inl.h,
    FreeSpace.h), [FreeSpace2D] (src/datastructure/FreeSpace2D.cpp). *)
From Coq Require Import List Bool Arith ZArith.
From Verif.Base Require Import Outcome Float64.
From Verif.Model Require Import MInterval.
Import ListNotations.
Local Open Scope outcome_scope.

(** struct IntersectionInterval, FreeSpace.h (arenaLow, arenaUpp, obstacleLow,
    obstacleUpp: one row per sweep line, one column per boundary). *)
Record tables : Type := Tables {
  arenaLow : list (list f64);
  arenaUpp : list (list f64);
  obstacleLow : list (list f64);
  obstacleUpp : list (list f64)
}.

(** struct FreeSegment2D, FreeSpace.h. *)
Record freeseg : Type := FreeSeg {
  fty : list f64;
  fxL : list (list f64);
  fxU : list (list f64);
  fxM : list (list f64)
}.

(** [v.resize(n, row)]. *)
Definition resize {A} (v : list A) (n : nat) (row : A) : list A :=
  firstn n v ++ repeat row (n - length v).

(** setup, FreeSpace-inl.h:19-39. [numArena] and [numObstacle] are the column
    counts (1 + getNumLinks()) * size computed on lines 25-28. *)
Definition setup (numLine : nat) (low upp : f64) (numArena numObstacle : nat) (t : tables) : tables :=
  {| arenaLow := resize (arenaLow t) numLine (repeat low numArena);
     arenaUpp := resize (arenaUpp t) numLine (repeat upp numArena);
     obstacleLow := resize (obstacleLow t) numLine (repeat fnan numObstacle);
     obstacleUpp := resize (obstacleUpp t) numLine (repeat fnan numObstacle) |}.
Definition tables0 : tables := Tables [] [] [] [].

Section FreeSpace.
Variable srt : sort_fn.

(** The NaN filter loops, FreeSpace-inl.h:107-122; [&&] short-circuits, so the
    upper table is only read when the lower value is a number. *)
Definition collect (low upp : list (list f64)) (line : nat) : outcome (list itv) :=
  do lr <- at_ low line;
  ofold (fun acc '(j, l) =>
           if fisnan l then Ok acc
           else do ur <- at_ upp line;
                do u <- at_ ur j;
                if fisnan u then Ok acc else Ok (acc ++ [Itv l u]))
        (combine (seq 0 (length lr)) lr) [].

(** computeSweepLineFreeSegment, FreeSpace-inl.h:99-129. *)
Definition sweep_line (t : tables) (line : nat) : outcome (list itv) :=
  do arenaSegment <- collect (arenaLow t) (arenaUpp t) line;
  do obsSegment <- collect (obstacleLow t) (obstacleUpp t) line;
  do a <- intersects srt arenaSegment;
  do o <- unions srt obsSegment;
  complements srt a o.

(** (s + e) / 2.0, FreeSpace-inl.h:85. *)
Definition mid (s e : f64) : f64 := fdiv (fadd s e) ftwo.

(** enhanceFreeSegment, FreeSpace-inl.h:131-174. One line's three lists. *)
Record row : Type := Row { rL : list f64; rU : list f64; rM : list f64 }.
Definition push_row (r : row) (p : f64) : row :=
  Row (rL r ++ [p]) (rU r ++ [p]) (rM r ++ [p]).

Definition and_then (c1 c2 : outcome bool) : outcome bool :=
  do b <- c1; if b then c2 else Ok false.

(** [xM[j] < p && xU[j] >= p] and [xM[j] > p && xL[j] <= p] for entry [j] of the
    line [r]. *)
Definition right_half (r : row) (j : nat) (p : f64) : outcome bool :=
  and_then (do m <- idx (rM r) j; Ok (fltb m p)) (do u <- idx (rU r) j; Ok (fleb p u)).
Definition left_half (r : row) (j : nat) (p : f64) : outcome bool :=
  and_then (do m <- idx (rM r) j; Ok (fltb p m)) (do l <- idx (rL r) j; Ok (fleb l p)).

(** Add to line [r] (entry [j]) the ends of entry [j'] of the neighbouring line
    [r'] if they fall in the right / left half of the segment
    (lines 139-149, and symmetrically 151-161). *)
Definition enhance_one (r : row) (j : nat) (r' : row) (j' : nat) : outcome row :=
  do l' <- idx (rL r') j';
  do c <- right_half r j l';
  if c then Ok (push_row r l')
  else
    do u' <- idx (rU r') j';
    do c2 <- left_half r j u';
    if c2 then Ok (push_row r u') else Ok r.

Definition enhance_pair (ri rn : row) (j1 j2 : nat) : outcome (row * row) :=
  do ri' <- enhance_one ri j1 rn j2;
  do rn' <- enhance_one rn j2 ri' j1;
  Ok (ri', rn').

Definition pairs (n1 n2 : nat) : list (nat * nat) := list_prod (seq 0 n1) (seq 0 n2).

Definition fsort (l : list f64) : outcome (list f64) := sort_by srt (fun x => x) l.
Definition sort_row (r : row) : outcome row :=
  do l <- fsort (rL r);
  do u <- fsort (rU r);
  do m <- fsort (rM r);
  Ok (Row l u m).

(** Iteration [i] of the outer loop on the (already extended) lines [ri] and
    [rn]; [n1], [n2] are the *original* sizes of the two lines. *)
Definition enhance_line (ri rn : row) (n1 n2 : nat) : outcome (row * row) :=
  do p <- ofold (fun s j => enhance_pair (fst s) (snd s) (fst j) (snd j)) (pairs n1 n2) (ri, rn);
  do ri' <- sort_row (fst p);
  Ok (ri', snd p).

(** The outer loop, from line [ri] (already extended by the previous iteration)
    on; [n] original size of this line, [rest] the following lines as stored in
    [segment_].  The last line is extended but never sorted. *)
Fixpoint enhance_rows (ri : row) (n : nat) (rest : list row) : outcome (list row) :=
  match rest with
  | [] => Ok [ri]
  | rn :: rest' =>
      let n2 := length (rM rn) in
      do p <- enhance_line ri rn n n2;
      do t <- enhance_rows (snd p) n2 rest';
      Ok (fst p :: t)
  end.

Definition enhance (rows : list row) : outcome (list row) :=
  match rows with
  | [] => UB    (* segment_.ty.size() - 1 wraps to 2^64-1; xM[0] is out of range *)
  | r :: rest => enhance_rows r (length (rM r)) rest
  end.

(** One line of computeFreeSegment, FreeSpace-inl.h:71-91. *)
Definition free_row (t : tables) (line : nat) : outcome row :=
  do ivs <- sweep_line t line;
  Ok (Row (map istart ivs) (map iend ivs) (map (fun i => mid (istart i) (iend i)) ivs)).

(** computeFreeSegment, FreeSpace-inl.h:62-97. *)
Definition compute_free_segment (t : tables) (ty : list f64) : outcome freeseg :=
  do rows <- omap (free_row t) (seq 0 (length ty));
  do er <- enhance rows;
  Ok (FreeSeg ty (map rL er) (map rU er) (map rM er)).

(** computeIntersectionInterval: FreeSpace2D.cpp:14-50 and FreeSpace3D.cpp:29-68
    have the same shape; [hits] is the list of intersection abscissae (2D:
    intersectHorizontalLinePolygon2D; 3D: z-coordinates of
    intersectVerticalLineMesh3D) of one boundary with one line. *)
Definition arena_entry (low upp : f64) (hits : list f64) : outcome (f64 * f64) :=
  match hits with
  | [] => Ok (low, upp)
  | h0 :: _ =>
      do h1 <- idx hits 1;
      Ok (ffmin low (ffmin h0 h1), ffmax upp (ffmax h0 h1))
  end.
Definition obstacle_entry (hits : list f64) : outcome (f64 * f64) :=
  match hits with
  | [] => Ok (fnan, fnan)
  | h0 :: _ =>
      do h1 <- idx hits 1;
      Ok (ffmin h0 h1, ffmax h0 h1)
  end.

(** [tbl.at(i).at(j) = v] *)
Definition set_at2 (tbl : list (list f64)) (i j : nat) (v : f64) : outcome (list (list f64)) :=
  do r <- at_ tbl i;
  do r' <- set_at r j v;
  set_at tbl i r'.

Definition set_arena (t : tables) (i j : nat) (lu : f64 * f64) : outcome tables :=
  do l <- set_at2 (arenaLow t) i j (fst lu);
  do u <- set_at2 (arenaUpp t) i j (snd lu);
  Ok {| arenaLow := l; arenaUpp := u; obstacleLow := obstacleLow t; obstacleUpp := obstacleUpp t |}.
Definition set_obstacle (t : tables) (i j : nat) (lu : f64 * f64) : outcome tables :=
  do l <- set_at2 (obstacleLow t) i j (fst lu);
  do u <- set_at2 (obstacleUpp t) i j (snd lu);
  Ok {| arenaLow := arenaLow t; arenaUpp := arenaUpp t; obstacleLow := l; obstacleUpp := u |}.

(** One sweep line: all arenas, then all obstacles.  [hitA], [hitO]: outcome of
    the intersection routine for boundary j. *)
Definition intersect_line (low upp : f64) (i : nat)
    (hitsA hitsO : list (outcome (list f64))) (t : tables) : outcome tables :=
  do t1 <- ofold (fun t '(j, h) => do hits <- h; do lu <- arena_entry low upp hits; set_arena t i j lu)
                 (combine (seq 0 (length hitsA)) hitsA) t;
  ofold (fun t '(j, h) => do hits <- h; do lu <- obstacle_entry hits; set_obstacle t i j lu)
        (combine (seq 0 (length hitsO)) hitsO) t1.

(** All sweep lines; [hitsA c] / [hitsO c] give the intersection lists of the
    arena / obstacle boundaries with the line of coordinate [c]. *)
Definition compute_intersection (low upp : f64)
    (hitsA hitsO : f64 -> list (outcome (list f64))) (lines : list f64) (t : tables) : outcome tables :=
  ofold (fun t '(i, c) => intersect_line low upp i (hitsA c) (hitsO c) t)
        (combine (seq 0 (length lines)) lines) t.

End FreeSpace.
