(** Geometry for RayProps.v. *)
From Coq Require Import Reals.
Open Scope R_scope.

(** The point at time [t] on the way from [r] to [q]. *)
Definition on_way (r q : R * R) (t : R) : R * R := (fst r + t * (fst q - fst r), snd r + t * (snd q - snd r)).
(** The points between the corner [a] and its neighbours [b] and [d]. *)
Definition within (a b d p : R * R) : Prop :=
  exists x y, 0 <= x <= 1 /\ 0 <= y <= 1 /\
    p = (fst a + x * (fst b - fst a) + y * (fst d - fst a), snd a + x * (snd b - snd a) + y * (snd d - snd a)).
(** [a], [b], [d] are corners of a rectangle with the right angle at [a] and sides of positive length. *)
Definition right_angled (a b d : R * R) : Prop :=
  (fst b - fst a) * (fst d - fst a) + (snd b - snd a) * (snd d - snd a) = 0 /\ a <> b /\ a <> d.
(** The segment from [r] to [q] lies on the line through the point [p] that is perpendicular to the direction from [a] to [b]. *)
Definition along (r q a b p : R * R) : Prop :=
  (fst q - fst r) * (fst b - fst a) + (snd q - snd r) * (snd b - snd a) = 0 /\
  (fst p - fst r) * (fst b - fst a) + (snd p - snd r) * (snd b - snd a) = 0.
(** The segment runs along none of the sides of the rectangle. *)
Definition not_along (r q a b d : R * R) : Prop :=
  ~ along r q a b a /\ ~ along r q a b b /\ ~ along r q a d a /\ ~ along r q a d d.
Definition len (p q : R * R) : R := sqrt (Rsqr (fst q - fst p) + Rsqr (snd q - snd p)).

(** The disc. *)
Definition in_disc (center : R * R) (radius : R) (p : R * R) : Prop :=
  Rsqr (fst p - fst center) + Rsqr (snd p - snd center) <= Rsqr radius.
(** The inside of the ellipse with the half axes [length] and [width], turned counter-clockwise by [angle] about its centre. *)
Definition in_ellipse (center : R * R) (angle length width : R) (p : R * R) : Prop :=
  exists u v, Rsqr (u / length) + Rsqr (v / width) < 1 /\
    p = (fst center + (u * cos angle - v * sin angle), snd center + (u * sin angle + v * cos angle)).
