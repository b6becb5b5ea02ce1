(** Three-dimensional lanes: verse/map/lane_segment_3d.py and verse/map/lane_3d.py.

    Simplifications: the numbers are real numbers, not floating point numbers, except for the explicit calls of
    [round], which are modelled.  numpy divides by zero into nan or inf; here such a division gives [None], like an
    exception.  [width], [line_types], [forbidden], [priority] and [speed_limit] are kept only where a method reads
    them.  Plotting ([get_sample_points], [get_lane_center]) and the json configuration are not modelled. *)
From Coq Require Import Reals List ZArith.
From Verif Require Import Base.
Import ListNotations.
Open Scope R_scope.

(** ** Vectors: numpy arrays of three numbers *)
Record v3 := V { vx : R; vy : R; vz : R }.
Definition vadd (u v : v3) : v3 := V (vx u + vx v) (vy u + vy v) (vz u + vz v).
Definition vsub (u v : v3) : v3 := V (vx u - vx v) (vy u - vy v) (vz u - vz v).
Definition vscale (k : R) (u : v3) : v3 := V (k * vx u) (k * vy u) (k * vz u).
(** np.dot, np.inner *)
Definition dot (u v : v3) : R := vx u * vx v + vy u * vy v + vz u * vz v.
(** np.cross *)
Definition cross (u v : v3) : v3 :=
  V (vy u * vz v - vz u * vy v) (vz u * vx v - vx u * vz v) (vx u * vy v - vy u * vx v).
(** np.linalg.norm *)
Definition vnorm (u : v3) : R := sqrt (dot u u).
(** [u / np.linalg.norm(u)]; nan for the zero vector *)
Definition unit (u : v3) : option v3 :=
  if Req_EM_T (vnorm u) 0 then None else Some (vscale (/ vnorm u) u).

(** ** Python's [round(x, k)]: the nearest multiple of [10^-k], ties to the even one *)
Definition round_even (x : R) : Z :=
  let f := Int_part x in
  if Rlt_dec (x - IZR f) (1 / 2) then f
  else if Rlt_dec (1 / 2) (x - IZR f) then (f + 1)%Z
  else if Z.even f then f else (f + 1)%Z.
Definition pyround (x : R) (k : nat) : R := IZR (round_even (x * 10 ^ k)) / 10 ^ k.

(** [get_coor_by_rt(r, theta, n, center, right_rotate)], lane_segment_3d.py 528-546 *)
Definition get_coor_by_rt (r theta : R) (n center : v3) (right_rotate : bool) : v3 :=
  let l1 := sqrt (vx n * vx n + vy n * vy n) in
  let l2 := sqrt (vx n * vx n + vy n * vy n + vz n * vz n) in
  let a := if Req_EM_T l1 0 then V 1 0 0 else V (vy n / l1) (- vx n / l1) 0 in
  let b := if Req_EM_T l1 0 then (if Rlt_dec (vz n) 0 then V 0 (-1) 0 else V 0 1 0)
           else V (vx n * vz n / l1 / l2) (vy n * vz n / l1 / l2) (- l1 / l2) in
  let b := if right_rotate then b else vscale (-1) b in
  vadd center (vscale r (vadd (vscale (cos theta) a) (vscale (sin theta) b))).

(** The end of [get_theta_by_coor], lane_segment_3d.py 587-600 *)
Definition theta_of (sinx cosx : R) : R :=
  if Req_EM_T (pyround cosx 5) 0 then
    if Rlt_dec 0 sinx then PI / 2 else if Rlt_dec sinx 0 then 3 / 2 * PI else 0
  else
    let theta := atan (sinx / cosx) in
    if Rlt_dec cosx 0 then PI + theta
    else if Rlt_dec theta 0 then (if Rlt_dec 0 cosx then 2 * PI + theta else theta)
    else theta.

(** [get_theta_by_coor(point, n, center, r, right_rotate)], lane_segment_3d.py 561-600.  [None] is the [ValueError]
    for a zero [n].  When both components [n[0]], [n[1]] are not zero the second assignment of [cosx] counts. *)
Definition get_theta_by_coor (point n center : v3) (r : R) (right_rotate : bool) : option R :=
  if Req_EM_T (pyround r 3) 0 then Some 0
  else
    let delta2 := vscale (/ r) (vsub point center) in
    let l1 := sqrt (vx n * vx n + vy n * vy n) in
    if Req_EM_T l1 0 then
      let sinx := pyround (vy delta2) 5 in
      if Req_EM_T (vz n) 0 then None
      else
        let sinx := if Rlt_dec (vz n) 0 then - sinx else sinx in
        let sinx := if right_rotate then sinx else - sinx in
        Some (theta_of sinx (pyround (vx delta2) 5))
    else
      let l2 := 1 in
      let a := V (vy n / l1) (- vx n / l1) 0 in
      let b := V (vx n * vz n / l1 / l2) (vy n * vz n / l1 / l2) (- l1 / l2) in
      let b := if right_rotate then b else vscale (-1) b in
      let sinx := pyround (vz delta2 / vz b) 5 in
      let cosx := if Req_EM_T (vy n) 0 then pyround ((vy delta2 - vy b * sinx) / vy a) 5
                  else pyround ((vx delta2 - vx b * sinx) / vx a) 5 in
      Some (theta_of sinx cosx).

(** [get_rtp_by_coor(point, n, center, radius, right_rotate)], lane_segment_3d.py 549-558.  [None]: the point is on
    the axis of the circle (nan), or a [ValueError]. *)
Definition get_rtp_by_coor (point n center : v3) (radius : R) (right_rotate : bool) : option (R * R * R) :=
  do norm <- unit (cross n (vsub point center));
  do tang <- unit (cross norm n);
  let outer_center := vadd center (vscale radius tang) in
  let rget := vnorm (vsub point outer_center) in
  do theta <- get_theta_by_coor point norm outer_center rget right_rotate;
  do phase <- get_theta_by_coor outer_center n center radius right_rotate;
  Some (rget, theta, phase).

(** ** Segments *)

(** [StraightLane_3d]: start, end, direction, length.  [CircularLane_3d_v1]: center, radius, norm_vec (of length 1),
    start_phase, end_phase, right_rotate, length. *)
Inductive segment :=
| Straight (start stop direction : v3) (length : R)
| Circular (center : v3) (radius : R) (norm_vec : v3) (start_phase end_phase : R) (right_rotate : bool) (length : R).

(** [StraightLane_3d.__init__], lane_segment_3d.py 177-211; [None] when the ends are equal (the direction is nan) *)
Definition straight_lane (start stop : v3) : option segment :=
  do direction <- unit (vsub stop start);
  Some (Straight start stop direction (vnorm (vsub stop start))).

(** [CircularLane_3d_v1.__init__], lane_segment_3d.py 297-351; [None] when norm_vec is zero.  [self.a] and [self.b]
    are used for plotting only. *)
Definition circular_lane (center : v3) (radius : R) (norm_vec : v3) (start_phase end_phase : R) (right_rotate : bool)
  : option segment :=
  do n <- unit norm_vec;
  let end_phase := if right_rotate then (if Rle_dec end_phase start_phase then end_phase + 2 * PI else end_phase)
                   else end_phase in
  let start_phase := if right_rotate then start_phase
                     else (if Rle_dec start_phase end_phase then start_phase + 2 * PI else start_phase) in
  let over := if Rlt_dec (2 * PI) (Rmax start_phase end_phase) then 2 * PI else 0 in
  let start_phase := start_phase - over in
  let end_phase := end_phase - over in
  Some (Circular center radius n start_phase end_phase right_rotate (Rabs (radius * (end_phase - start_phase)))).

(** [get_center_radius(start, end, n, phase, right_rotate)], lane_segment_3d.py 622-638; [None]: the assertion fails,
    or [n] is parallel to [end - start] (nan) *)
Definition get_center_radius (start stop n : v3) (phase : R) (right_rotate : bool) : option (v3 * R) :=
  if Rlt_dec phase (2 * PI) then
    if Rlt_dec 0 phase then
      do l_n <- unit (if right_rotate then cross n (vsub start stop) else cross n (vsub stop start));
      let mid := vscale (/ 2) (vadd stop start) in
      let l := vnorm (vsub stop start) / 2 in
      if Rlt_dec PI phase then
        let theta := (phase - PI) / 2 in Some (vadd mid (vscale (l / tan theta) l_n), l / sin theta)
      else if Rlt_dec phase PI then
        let theta := phase / 2 in Some (vadd mid (vscale (l / tan theta) l_n), l / sin theta)
      else Some (mid, l / 2)
    else None
  else None.

(** [CircularLane_3d_v2.__init__], lane_segment_3d.py 494-525 *)
Definition circular_lane_v2 (start stop norm_vec : v3) (delta_phase : R) (right_rotate : bool) : option segment :=
  do cr <- get_center_radius start stop norm_vec delta_phase right_rotate;
  let (center, radius) := cr in
  do start_phase <- get_theta_by_coor start norm_vec center radius right_rotate;
  do end_phase <- get_theta_by_coor stop norm_vec center radius right_rotate;
  circular_lane center radius norm_vec start_phase end_phase right_rotate.

(** [self.length] *)
Definition seg_length (s : segment) : R :=
  match s with Straight _ _ _ l => l | Circular _ _ _ _ _ _ l => l end.

(** [CircularLane_3d_v1.get_outer_center], lane_segment_3d.py 382-387; [None] when the length is 0.  A straight lane
    has no such method; [None] there. *)
Definition get_outer_center (s : segment) (longitudinal : R) : option v3 :=
  match s with
  | Straight _ _ _ _ => None
  | Circular center radius n sp ep right_rotate length =>
    if Req_EM_T length 0 then None
    else Some (get_coor_by_rt radius (sp + (ep - sp) * longitudinal / length) n center right_rotate)
  end.

(** [position(longitudinal, lateral, theta)], lane_segment_3d.py 213-217 and 353-358 *)
Definition position (s : segment) (longitudinal lateral theta : R) : option v3 :=
  match s with
  | Straight start _ direction _ =>
    Some (get_coor_by_rt lateral theta direction (vadd start (vscale longitudinal direction)) true)
  | Circular center _ n _ _ _ _ =>
    do outer_center <- get_outer_center s longitudinal;
    do norm_cross <- unit (cross n (vsub outer_center center));
    Some (get_coor_by_rt lateral theta norm_cross outer_center true)
  end.

(** [local_coordinates(position)], lane_segment_3d.py 227-236 and 371-380: (longitudinal, lateral, theta) *)
Definition local_coordinates (s : segment) (position : v3) : option (R * R * R) :=
  match s with
  | Straight start _ n _ =>
    let delta := vsub position start in
    let rget := vnorm (cross n delta) in
    let lget := dot delta n in
    let centerget := vadd start (vscale lget n) in
    if Req_EM_T (pyround rget 3) 0 then Some (lget, rget, 0)
    else do theta <- get_theta_by_coor position n centerget rget true; Some (lget, rget, theta)
  | Circular center radius n sp ep right_rotate length =>
    do rtp <- get_rtp_by_coor position n center radius right_rotate;
    let '(rget, thetaget, phaseget) := rtp in
    let phaseget := if Rlt_dec phaseget sp then (if Rlt_dec phaseget ep then phaseget + 2 * PI else phaseget)
                    else phaseget in
    let phaseget := if Rlt_dec sp phaseget then (if Rlt_dec ep phaseget then phaseget - 2 * PI else phaseget)
                    else phaseget in
    Some ((phaseget - sp) * length / (ep - sp), rget, thetaget)
  end.

(** [get_tang(longitudinal)], lane_segment_3d.py 238-239 and 389-391 *)
Definition get_tang (s : segment) (longitudinal : R) : option v3 :=
  match s with
  | Straight _ _ direction _ => Some direction
  | Circular center _ n _ _ _ _ =>
    do outer_center <- get_outer_center s longitudinal; Some (cross n (vsub outer_center center))
  end.

(** [get_start_end_tang()] of circular lanes, lane_segment_3d.py 393-399 *)
Definition get_start_end_tang (s : segment) : option (v3 * v3 * v3 * v3) :=
  do start <- get_outer_center s 0;
  do start_tang <- get_tang s 0;
  do stop <- get_outer_center s (seg_length s);
  do end_tang <- get_tang s (seg_length s);
  Some (start, start_tang, stop, end_tang).

(** [altitude()], lane_segment_3d.py 221-222 and 364-366 *)
Definition altitude (s : segment) : option R :=
  match s with
  | Straight start stop _ _ => Some ((vz start + vz stop) / 2)
  | Circular _ _ _ _ _ _ _ => do t <- get_start_end_tang s; let '(start, _, stop, _) := t in Some ((vz start + vz stop) / 2)
  end.

(** ** The methods inherited from the two-dimensional lanes *)

(** What Python compares the number of targets of [a, b = f()] with: a returned tuple as a list. *)
Definition returned (s : segment) (p : v3) : option (list R) :=
  do c <- local_coordinates s p; let '(l, r, t) := c in Some [l; r; t].

(** [a, b = ...]: [ValueError] unless there are two values *)
Definition unpack2 (l : list R) : option (R * R) := match l with [a; b] => Some (a, b) | _ => None end.

(** [VEHICLE_LENGTH], lane_segment_3d.py 32 *)
Definition VEHICLE_LENGTH : R := 5.

(** [on_lane(position, longitudinal, lateral, margin)], lane_segment_3d.py 110-132; [known] are the optional
    coordinates, given both or not at all *)
Definition on_lane (s : segment) (width : R) (p : v3) (known : option (R * R)) (margin : R) : option Prop :=
  do c <- match known with
          | Some c => Some c
          | None => do t <- returned s p; unpack2 t
          end;
  let (longitudinal, lateral) := c in
  Some (Rabs lateral <= width / 2 + margin
        /\ - VEHICLE_LENGTH <= longitudinal < seg_length s + VEHICLE_LENGTH).

(** [is_reachable_from(position)], lane_segment_3d.py 134-148 *)
Definition is_reachable_from (s : segment) (width : R) (forbidden : bool) (p : v3) : option Prop :=
  if forbidden then Some False
  else
    do t <- returned s p;
    do c <- unpack2 t;
    let (longitudinal, lateral) := c in
    Some (Rabs lateral <= 2 * width /\ 0 <= longitudinal < seg_length s + VEHICLE_LENGTH).

(** [distance(position)], lane_segment_3d.py 157-160 *)
Definition distance (s : segment) (p : v3) : option R :=
  do t <- returned s p;
  do c <- unpack2 t;
  let (l, r) := c in
  Some (Rabs r + Rmax (l - seg_length s) 0 + Rmax (0 - l) 0).

(** ** Lanes: lists of segments *)

(** [Lane_3d.COMPENSATE], lane_3d.py 9 *)
Definition COMPENSATE : R := 1.

(** [is_on], lane_3d.py 31 *)
Definition is_on (longitudinal length : R) : bool :=
  if Rle_dec (0 - COMPENSATE) longitudinal then if Rlt_dec longitudinal length then true else false else false.

(** The loop of [Lane_3d.get_lane_segment], lane_3d.py 29-37.  A segment object is its index in the lane.  The first
    accumulator is (idx, min_lateral), [None] for (-1, inf); the second one is [possible]. *)
Fixpoint find_segment (segs : list segment) (i : nat) (best : option (nat * R)) (possible : list nat) (p : v3)
  : option (option (nat * R) * list nat) :=
  match segs with
  | [] => Some (best, possible)
  | s :: rest =>
    do c <- local_coordinates s p;
    let '(longitudinal, lateral, _) := c in
    if is_on longitudinal (seg_length s) then
      let best' := match best with
                   | None => Some (i, lateral)
                   | Some (_, m) => if Rlt_dec lateral m then Some (i, lateral) else best
                   end in
      find_segment rest (S i) best' (possible ++ [i]) p
    else find_segment rest (S i) best possible p
  end.

(** [Lane_3d.get_lane_segment(position)], lane_3d.py 24-38: the index of the segment, if there is one, and those of
    the possible ones *)
Definition get_lane_segment (lane : list segment) (p : v3) : option (option nat * list nat) :=
  do r <- find_segment lane 0 None [] p;
  Some (match fst r with Some (i, _) => Some i | None => None end, snd r).

(** [Lane_3d.get_l_r_theta(position)], lane_3d.py 70-75; also the second and third components are
    [get_lateral_distance] (60-63) and [get_theta_angle] (65-68).  Without a segment: an [AttributeError]. *)
Definition get_l_r_theta (lane : list segment) (p : v3) : option (R * R * R) :=
  do r <- get_lane_segment lane p;
  do i <- fst r;
  do s <- nth_error lane i;
  local_coordinates s p.

(** [Lane_3d.get_longitudinal_position(position)], lane_3d.py 53-58 *)
Definition get_longitudinal_position (lane : list segment) (p : v3) : option R :=
  do r <- get_lane_segment lane p;
  do i <- fst r;
  do s <- nth_error lane i;
  do c <- local_coordinates s p;
  Some (fold_left (fun acc s' => acc + seg_length s') (firstn i lane) (fst (fst c))).

(** [Lane_3d.get_altitude()], lane_3d.py 46-51; [None]: a division by zero, for a lane without segments *)
Definition get_altitude (lane : list segment) : option R :=
  match lane with
  | [] => None
  | _ => do l <- mapM altitude lane; Some (fold_left Rplus l 0 / INR (length lane))
  end.

(** [_set_longitudinal_start], lane_3d.py 18-22: the starts of the segments in order *)
Fixpoint longitudinal_starts (lane : list segment) (start : R) : list R :=
  match lane with
  | [] => []
  | s :: rest => start :: longitudinal_starts rest (start + seg_length s)
  end.
