(** What the angle functions are about, for AngleProps.v and LaneProps.v. *)
From Coq Require Import Reals.
Open Scope R_scope.

(** Two numbers are the same angle: they differ by whole turns. *)
Definition same_angle (x y : R) : Prop := exists k : Z, x = y + 2 * PI * IZR k.
