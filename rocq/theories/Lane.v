(** Lanes: verse/map/lane_segment.py (StraightLane, CircularLane), verse/map/lane.py, and the intervals of lane
    coordinates computed by verse/automaton/guard.py.

    Simplification: the numbers are real numbers, not floating point numbers (no rounding, no nan; in particular a
    straight segment of length 0 has the direction 0/0, which is nan in the code and 0 here; theorems about it ask for
    distinct end points). *)
From Coq Require Import Reals List.
From Verif Require Import Angle.
Import ListNotations.
Open Scope R_scope.

(** The constructors, lane_segment.py 160-196 and 232-260: only what the geometry uses.
    Straight start end; Circular center radius start_phase end_phase clockwise; both have a width. *)
Inductive segment :=
| Straight (sx sy ex ey width : R)
| Circular (cx cy radius ph0 ph1 : R) (clockwise : bool) (width : R).

(** self.direction of a CircularLane, lane_segment.py 251 *)
Definition turn (clockwise : bool) : R := if clockwise then -1 else 1.

(** self.length, lane_segment.py 185 and 255 *)
Definition length_of (s : segment) : R :=
  match s with
  | Straight sx sy ex ey _ => norm (ex - sx) (ey - sy)
  | Circular _ _ radius ph0 ph1 cw _ => radius * (ph1 - ph0) * turn cw
  end.

(** self.direction and self.direction_lateral of a StraightLane, lane_segment.py 187-188 *)
Definition dir (sx sy ex ey : R) : R * R :=
  let l := norm (ex - sx) (ey - sy) in ((ex - sx) / l, (ey - sy) / l).
Definition dir_lat (sx sy ex ey : R) : R * R := (- snd (dir sx sy ex ey), fst (dir sx sy ex ey)).

(** position(longitudinal, lateral), lane_segment.py 195-196 and 262-266 *)
Definition position (s : segment) (lon lat : R) : R * R :=
  match s with
  | Straight sx sy ex ey _ =>
    let d := dir sx sy ex ey in let n := dir_lat sx sy ex ey in
    (sx + lon * fst d + lat * fst n, sy + lon * snd d + lat * snd n)
  | Circular cx cy radius ph0 _ cw _ =>
    let phi := turn cw * lon / radius + ph0 in
    (cx + (radius - lat * turn cw) * cos phi, cy + (radius - lat * turn cw) * sin phi)
  end.

(** local_coordinates(position), lane_segment.py 204-208 and 276-283: (longitudinal, lateral) *)
Definition local (s : segment) (px py : R) : R * R :=
  match s with
  | Straight sx sy ex ey _ =>
    let d := dir sx sy ex ey in let n := dir_lat sx sy ex ey in
    ((px - sx) * fst d + (py - sy) * snd d, (px - sx) * fst n + (py - sy) * snd n)
  | Circular cx cy radius ph0 _ cw _ =>
    let phi := ph0 + wrap_to_pi (arctan2 (py - cy) (px - cx) - ph0) in
    let r := norm (px - cx) (py - cy) in
    (turn cw * (phi - ph0) * radius, turn cw * (radius - r))
  end.

(** heading_at(longitudinal), lane_segment.py 184, 198-199 and 268-271 *)
Definition heading_at (s : segment) (lon : R) : R :=
  match s with
  | Straight sx sy ex ey _ => arctan2 (ey - sy) (ex - sx)
  | Circular _ _ radius ph0 _ cw _ => wrap_to_pi (turn cw * lon / radius + ph0 + PI / 2 * turn cw)
  end.

(** Lane.COMPENSATE, lane.py 9 *)
Definition COMPENSATE : R := 3.

(** is_on, lane.py 30 *)
Definition is_on (s : segment) (px py : R) : bool :=
  let lon := fst (local s px py) in
  if Rle_dec (0 - COMPENSATE) lon then if Rlt_dec lon (length_of s) then true else false else false.

(** Lane.get_lane_segment, lane.py 24-36.  The accumulator is (idx, seg, min_lateral); None is (-1, None, inf). *)
Fixpoint find_segment (segs : list segment) (i : nat) (acc : option (nat * segment * R)) (px py : R)
  : option (nat * segment * R) :=
  match segs with
  | [] => acc
  | s :: rest =>
    let lat := snd (local s px py) in
    let acc' :=
      if is_on s px py
      then match acc with
           | None => Some (i, s, lat)
           | Some (_, _, m) => if Rlt_dec lat m then Some (i, s, lat) else acc
           end
      else acc in
    find_segment rest (S i) acc' px py
  end.
Definition get_lane_segment (lane : list segment) (px py : R) : option (nat * segment) :=
  option_map fst (find_segment lane 0 None px py).

(** Lane.get_longitudinal_position and get_lateral_distance, lane.py 44-54: None when no segment is found
    (AttributeError on None). *)
Fixpoint add_lengths (lane : list segment) (n : nat) (acc : R) : R :=
  match n, lane with
  | S n', s :: rest => add_lengths rest n' (acc + length_of s)
  | _, _ => acc
  end.
Definition get_longitudinal (lane : list segment) (px py : R) : option R :=
  match get_lane_segment lane px py with
  | Some (i, s) => Some (add_lengths lane i (fst (local s px py)))
  | None => None
  end.
Definition get_lateral (lane : list segment) (px py : R) : option R :=
  match get_lane_segment lane px py with
  | Some (_, s) => Some (snd (local s px py))
  | None => None
  end.
(** Lane.get_heading, lane.py 38-42 *)
Definition get_heading (lane : list segment) (px py : R) : option R :=
  match get_lane_segment lane px py with
  | Some (_, s) => Some (heading_at s (fst (local s px py)))
  | None => None
  end.

(** Lane._set_longitudinal_start, lane.py 18-22.  Segments are objects: [heap] gives the attribute longitudinal_start
    of each object, and the constructor of a lane writes it. *)
Definition heap := nat -> R.
Definition write (h : heap) (o : nat) (v : R) : heap := fun p => if Nat.eqb p o then v else h p.
Fixpoint set_starts (h : heap) (segs : list (nat * segment)) (start : R) : heap :=
  match segs with
  | [] => h
  | (o, s) :: rest => set_starts (write h o start) rest (start + length_of s)
  end.
Definition make_lane (h : heap) (segs : list (nat * segment)) : heap := set_starts h segs 0.

(** GuardExpressionAst._handle_longitudinal_set, guard.py 598-658, for the box [x0,x1] x [y0,y1];
    [start] is lane_seg.longitudinal_start. *)
Definition min4 (a b c d : R) : R := Rmin a (Rmin b (Rmin c d)).
Definition max4 (a b c d : R) : R := Rmax a (Rmax b (Rmax c d)).
Definition longitudinal_set (s : segment) (start x0 x1 y0 y1 : R) : R * R :=
  match s with
  | Straight sx sy ex ey _ =>
    let d := dir sx sy ex ey in
    (Rmin ((x0 - sx) * fst d) ((x1 - sx) * fst d) + Rmin ((y0 - sy) * snd d) ((y1 - sy) * snd d) + start,
     Rmax ((x0 - sx) * fst d) ((x1 - sx) * fst d) + Rmax ((y0 - sy) * snd d) ((y1 - sy) * snd d) + start)
  | Circular cx cy radius ph0 _ cw _ =>
    let a := arctan2 (y0 - cy) (x0 - cx) in let b := arctan2 (y0 - cy) (x1 - cx) in
    let c := arctan2 (y1 - cy) (x0 - cx) in let d := arctan2 (y1 - cy) (x1 - cx) in
    let phi0 := ph0 + wrap_to_pi (min4 a b c d - ph0) in
    let phi1 := ph0 + wrap_to_pi (max4 a b c d - ph0) in
    (Rmin (turn cw * (phi0 - ph0) * radius) (turn cw * (phi1 - ph0) * radius) + start,
     Rmax (turn cw * (phi0 - ph0) * radius) (turn cw * (phi1 - ph0) * radius) + start)
  end.

(** GuardExpressionAst._handle_lateral_set, guard.py 660-714 *)
Definition lateral_set (s : segment) (x0 x1 y0 y1 : R) : R * R :=
  match s with
  | Straight sx sy ex ey _ =>
    let d := dir_lat sx sy ex ey in
    (Rmin ((x0 - sx) * fst d) ((x1 - sx) * fst d) + Rmin ((y0 - sy) * snd d) ((y1 - sy) * snd d),
     Rmax ((x0 - sx) * fst d) ((x1 - sx) * fst d) + Rmax ((y0 - sy) * snd d) ((y1 - sy) * snd d))
  | Circular cx cy radius _ _ cw _ =>
    let r_low := norm (Rmax (x0 - cx) (Rmax 0 (cx - x1))) (Rmax (y0 - cy) (Rmax 0 (cy - y1))) in
    let r_high := norm (Rmax (Rabs (x0 - cx)) (Rabs (x1 - cx))) (Rmax (Rabs (y0 - cy)) (Rabs (y1 - cy))) in
    (Rmin (turn cw * (radius - r_high)) (turn cw * (radius - r_low)),
     Rmax (turn cw * (radius - r_high)) (turn cw * (radius - r_low)))
  end.

(** The interval used for a lane coordinate, guard.py 466-478 (lateral, [lat] = true) and 540-552 (longitudinal): the
    hull of the intervals of the segments found at the lower and at the upper corner of the box.  longitudinal_start is
    read from the segment object; here it is the sum of the lengths of the segments before it, as
    _set_longitudinal_start leaves it (C53).  None is the AttributeError on a missing segment. *)
Definition coord_interval (lane : list segment) (lat : bool) (bx by_ : R * R) : option (R * R) :=
  match get_lane_segment lane (fst bx) (fst by_), get_lane_segment lane (snd bx) (snd by_) with
  | Some (i, s), Some (j, t) =>
    let of k u := if lat then lateral_set u (fst bx) (snd bx) (fst by_) (snd by_)
                  else longitudinal_set u (add_lengths lane k 0) (fst bx) (snd bx) (fst by_) (snd by_) in
    let a := of i s in let b := of j t in
    Some (Rmin (fst a) (fst b), Rmax (snd a) (snd b))
  | _, _ => None
  end.
(** The true coordinate of a position. *)
Definition coord_of (lane : list segment) (lat : bool) (px py : R) : option R :=
  if lat then get_lateral lane px py else get_longitudinal lane px py.
