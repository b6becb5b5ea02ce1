(** Angles: verse/utils/utils.py 60-61 and numpy's arctan2.

    Simplification: the numbers are real numbers, not floating point numbers (no rounding, no nan, no signed zero). *)
From Coq Require Import Reals Lra Lia.
Open Scope R_scope.

(** [a % b] for b > 0: Python's and numpy's remainder, which is never negative.  Int_part is the floor. *)
Definition rmod (a b : R) : R := a - b * IZR (Int_part (a / b)).

(** wrap_to_pi, verse/utils/utils.py 60-61 *)
Definition wrap_to_pi (x : R) : R := rmod (x + PI) (2 * PI) - PI.

(** np.arctan2(y, x), used in verse/map/lane_segment.py 184, 266 and verse/automaton/guard.py 625-640 *)
Definition arctan2 (y x : R) : R :=
  if Rlt_dec 0 x then atan (y / x)
  else if Rlt_dec x 0 then (if Rlt_dec y 0 then atan (y / x) - PI else atan (y / x) + PI)
  else if Rlt_dec 0 y then PI / 2 else if Rlt_dec y 0 then - (PI / 2) else 0.

(** np.linalg.norm of a pair *)
Definition norm (x y : R) : R := sqrt (x * x + y * y).
