(** What three-dimensional lanes should do, in terms of points and distances only. *)
From Coq Require Import Reals.
From Verif Require Import Lane3d.
Open Scope R_scope.

(** The distance of two points. *)
Definition dist (p q : v3) : R :=
  sqrt ((vx p - vx q) * (vx p - vx q) + (vy p - vy q) * (vy p - vy q) + (vz p - vz q) * (vz p - vz q)).

(** The direction from [s] to [e], of length 1. *)
Definition direction (s e : v3) : v3 :=
  V ((vx e - vx s) / dist e s) ((vy e - vy s) / dist e s) ((vz e - vz s) / dist e s).

(** The point at [t] metres from [s] on the line from [s] through [e]. *)
Definition along (s e : v3) (t : R) : v3 :=
  let d := direction s e in V (vx s + t * vx d) (vy s + t * vy d) (vz s + t * vz d).

(** [q] is on the circle around [c] of the given radius in the plane with normal [n]. *)
Definition on_circle (c n : v3) (radius : R) (q : v3) : Prop :=
  dist q c = radius
  /\ vx n * (vx q - vx c) + vy n * (vy q - vy c) + vz n * (vz q - vz c) = 0.

(** [p] turned by the angle [t] about the axis through [c] with direction [n] (of length 1), anticlockwise seen from
    the tip of [n], for [p] in the plane through [c] with normal [n]. *)
Definition turned (c n : v3) (t : R) (p : v3) : v3 :=
  V (vx c + cos t * (vx p - vx c) + sin t * (vy n * (vz p - vz c) - vz n * (vy p - vy c)))
    (vy c + cos t * (vy p - vy c) + sin t * (vz n * (vx p - vx c) - vx n * (vz p - vz c)))
    (vz c + cos t * (vz p - vz c) + sin t * (vx n * (vy p - vy c) - vy n * (vx p - vx c))).

(** How much the angle around a direction [(nx, ny, nz)] is blurred: 0 for horizontal and vertical directions and for
    directions in the plane y = 0, large for directions close to, but not in, that plane. *)
Definition blur (n : v3) : R := if Req_EM_T (vy n) 0 then 0 else Rabs (vx n * vz n / vy n).

(** The point of a circle from which phases are counted: level with the center, to the right of the normal seen from
    above; to the east when the normal is vertical. *)
Definition phase0 (c n : v3) (radius : R) : v3 :=
  let h := sqrt (vx n * vx n + vy n * vy n) in
  if Req_EM_T h 0 then V (vx c + radius) (vy c) (vz c)
  else V (vx c + radius * (vy n / h)) (vy c - radius * (vx n / h)) (vz c).

(** The two phases of an arc are between 0 and a full turn, and the arc has not the length 0: [right] arcs run from the
    first phase up to the second one, the others down to it. *)
Definition proper (sp ep : R) (right : bool) : Prop :=
  0 <= sp <= 2 * PI /\ 0 <= ep <= 2 * PI /\ ~ (right = true /\ sp = 2 * PI /\ ep = 0) /\ ~ (right = false /\ sp = 0 /\ ep = 2 * PI).
