(** Queries of a lane segment: verse/map/lane_segment.py 93-153 (AbstractLane), for the segments of Lane.v.

    Simplification: real numbers instead of floating point numbers, as in Lane.v. *)
From Coq Require Import Reals.
From Verif Require Import Angle Lane.
Open Scope R_scope.

(** AbstractLane.VEHICLE_LENGTH, lane_segment.py 24 *)
Definition VEHICLE_LENGTH : R := 5.
(** width_at, lane_segment.py 201-202 and 273-274 *)
Definition width_at (s : segment) (lon : R) : R :=
  match s with Straight _ _ _ _ width => width | Circular _ _ _ _ _ _ width => width end.

(** on_lane, lane_segment.py 93-115; [longitudinal] and [lateral] are optional. *)
Definition on_lane (s : segment) (p : R * R) (longitudinal lateral : option R) (margin : R) : bool :=
  let c := match longitudinal, lateral with
           | Some lon, Some lat => (lon, lat)
           | _, _ => local s (fst p) (snd p)
           end in
  if Rle_dec (Rabs (snd c)) (width_at s (fst c) / 2 + margin) then
    if Rle_dec (- VEHICLE_LENGTH) (fst c) then if Rlt_dec (fst c) (length_of s + VEHICLE_LENGTH) then true else false else false
  else false.

(** is_reachable_from, lane_segment.py 117-131 *)
Definition is_reachable_from (s : segment) (forbidden : bool) (p : R * R) : bool :=
  if forbidden then false
  else let c := local s (fst p) (snd p) in
    if Rle_dec (Rabs (snd c)) (2 * width_at s (fst c)) then
      if Rle_dec 0 (fst c) then if Rlt_dec (fst c) (length_of s + VEHICLE_LENGTH) then true else false else false
    else false.

(** after_end, lane_segment.py 133-138.  [if not longitudinal] also holds of 0. *)
Definition after_end (s : segment) (p : R * R) (longitudinal : option R) : bool :=
  let lon := match longitudinal with
             | Some x => if Req_EM_T x 0 then fst (local s (fst p) (snd p)) else x
             | None => fst (local s (fst p) (snd p))
             end in
  if Rlt_dec (length_of s - VEHICLE_LENGTH / 2) lon then true else false.

(** distance, lane_segment.py 140-143 *)
Definition distance (s : segment) (p : R * R) : R :=
  let c := local s (fst p) (snd p) in
  Rabs (snd c) + Rmax (fst c - length_of s) 0 + Rmax (0 - fst c) 0.

(** distance_with_heading, lane_segment.py 145-153 *)
Definition distance_with_heading (s : segment) (p : R * R) (heading : option R) (heading_weight : R) : R :=
  match heading with
  | None => distance s p
  | Some h =>
    let c := local s (fst p) (snd p) in
    let angle := Rabs (wrap_to_pi (h - heading_at s (fst c))) in
    Rabs (snd c) + Rmax (fst c - length_of s) 0 + Rmax (0 - fst c) 0 + heading_weight * angle
  end.
