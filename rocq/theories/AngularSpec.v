(** What bounds of angles mean, for AngularProps.v. *)
From Coq Require Import Reals List.
From Verif Require Import Angle AngleSpec Angular.
Import ListNotations.
Open Scope R_scope.

(** The angle [x] is, up to whole turns, in one of the intervals. *)
Definition angle_in (l : list (R * R)) (x : R) : Prop := exists y i, same_angle x y /\ In i l /\ fst i <= y <= snd i.

(** The angle [x] is on the way from [lo] to [hi]; [hi < lo] means that the way passes PI. *)
Definition on_arc (lo hi x : R) : Prop :=
  exists y, same_angle x y /\ ((lo <= hi /\ lo <= y <= hi) \/ (hi < lo /\ (lo <= y <= PI \/ - PI <= y <= hi))).

(** The angle [x] is in a bound. *)
Definition in_bound (b : bound) (x : R) : Prop := match b with One lo hi => on_arc lo hi x | Many l => angle_in l x end.

Definition in_rect (r : rect) (x y : R) : Prop := xmin r <= x <= xmax r /\ ymin r <= y <= ymax r.
Definition proper (i : R * R) : Prop := - PI <= fst i /\ fst i <= snd i /\ snd i <= PI.

(** The intervals a bound consists of. *)
Definition piece (b : bound) (i : R * R) : Prop :=
  match b with
  | One lo hi => (lo <= hi /\ i = (lo, hi)) \/ (hi < lo /\ (i = (lo, PI) \/ i = (- PI, hi)))
  | Many l => In i l
  end.
(** Intervals of angles from 0 up, and of angles up to 0. *)
Definition positive (i : R * R) : Prop := 0 <= fst i /\ fst i <= snd i /\ 0 < snd i.
Definition negative (i : R * R) : Prop := fst i < 0 /\ fst i <= snd i /\ snd i <= 0.
Definition no_gap (P : R -> Prop) : Prop := forall x y z, P x -> P z -> x <= y <= z -> P y.

(** Rectangles with ends in order; rectangles with a vertical or horizontal line between them. *)
Definition ordered (r : rect) : Prop := xmin r <= xmax r /\ ymin r <= ymax r.
Definition apart (r1 r2 : rect) : Prop := xmax r1 < xmin r2 \/ xmax r2 < xmin r1 \/ ymax r1 < ymin r2 \/ ymax r2 < ymin r1.
(** [a] is the direction of a vector from the first rectangle to the second. *)
Definition direction (r1 r2 : rect) (a : R) : Prop :=
  exists x1 y1 x2 y2, in_rect r1 x1 y1 /\ in_rect r2 x2 y2 /\ same_angle (arctan2 (y2 - y1) (x2 - x1)) a.
(** The lower left corner of the second is strictly inside the first. *)
Definition corner_inside (r1 r2 : rect) : Prop := xmin r1 < xmin r2 < xmax r1 /\ ymin r1 < ymin r2 < ymax r1.

Definition coordinate (ax : axis) (x y z : R) : R := match ax with AX => x | AY => y | AZ => z end.
(** The coordinate of the point at distance [r], elevation [p] and azimuth [t]. *)
Definition spherical (ax : axis) (r p t : R) : R := match ax with AX => r * (cos p * cos t) | AY => r * (cos p * sin t) | AZ => r * sin p end.
(** [v] is the error in one coordinate when the distance to (x, y, z) is off by up to [eps_r] and both angles by up to [eps]. *)
Definition reading_error (ax : axis) (x y z eps_r eps v : R) : Prop :=
  exists r p t, Rabs (r - sqrt (x ^ 2 + y ^ 2 + z ^ 2)) <= eps_r /\ Rabs (p - arctan2 z (sqrt (x ^ 2 + y ^ 2))) <= eps /\ Rabs (t - arctan2 y x) <= eps /\
    v = spherical ax r p t - coordinate ax x y z.
