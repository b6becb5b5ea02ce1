(** Geometry for PolygonProps.v. *)
From Coq Require Import Reals List.
Open Scope R_scope.

(** The convex hull of a list of points. *)
Inductive hull (P : list (R * R)) : R * R -> Prop :=
| hull_vertex : forall p, In p P -> hull P p
| hull_between : forall p q t, hull P p -> hull P q -> 0 <= t <= 1 ->
    hull P ((1 - t) * fst p + t * fst q, (1 - t) * snd p + t * snd q).

(** The points of the rectangle of this centre, length, width, turned counter-clockwise by [angle] about its centre. *)
Definition in_rect (center : R * R) (length width angle : R) (p : R * R) : Prop :=
  exists u v, - (length / 2) <= u <= length / 2 /\ - (width / 2) <= v <= width / 2 /\
    p = (fst center + (u * cos angle - v * sin angle), snd center + (u * sin angle + v * cos angle)).
