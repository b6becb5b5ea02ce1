(** What the queries are about, for LaneQueryProps.v. *)
From Coq Require Import Reals.
From Verif Require Import Angle Lane.
Open Scope R_scope.

(** The centre line of a segment: the straight line, or the arc, from its start to its end. *)
Definition centre_line (s : segment) (q : R * R) : Prop :=
  match s with
  | Straight sx sy ex ey _ => exists u, 0 <= u <= 1 /\ q = (sx + u * (ex - sx), sy + u * (ey - sy))
  | Circular cx cy r ph0 ph1 _ _ =>
    exists u, 0 <= u <= 1 /\ q = (cx + r * cos (ph0 + u * (ph1 - ph0)), cy + r * sin (ph0 + u * (ph1 - ph0)))
  end.
(** Arcs shorter than half a turn. *)
Definition short (s : segment) : Prop :=
  match s with Straight _ _ _ _ _ => True | Circular _ _ r _ _ _ _ => length_of s < PI * r end.
(** Coordinates that arcs can tell apart: less than half a turn from the start, nearer to the arc than the centre is. *)
Definition tellable (s : segment) (lon lat : R) : Prop :=
  match s with Straight _ _ _ _ _ => True | Circular _ _ r _ _ _ _ => - PI * r < lon < PI * r /\ Rabs lat < r end.
(** [q] is on the centre line and a vehicle that follows it moves there with the heading [h]. *)
Definition follows (s : segment) (q : R * R) (h : R) : Prop :=
  exists lon, 0 <= lon <= length_of s /\ q = position s lon 0 /\
    derivable_pt_lim (fun l => fst (position s l 0)) lon (cos h) /\
    derivable_pt_lim (fun l => snd (position s l 0)) lon (sin h).
