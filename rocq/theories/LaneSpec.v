(** What lanes are, for LaneProps.v. *)
From Coq Require Import Reals List.
From Verif Require Import Angle AngleSpec Lane.
Import ListNotations.
Open Scope R_scope.

(** The sum of a list of numbers. *)
Fixpoint sum (l : list R) : R := match l with [] => 0 | x :: r => x + sum r end.

(** A segment whose end points differ, or whose radius is positive. *)
Definition proper (s : segment) : Prop :=
  match s with
  | Straight sx sy ex ey _ => (sx, sy) <> (ex, ey)
  | Circular _ _ radius _ _ _ _ => 0 < radius
  end.
Definition straight (s : segment) : Prop := match s with Straight _ _ _ _ _ => True | _ => False end.
Definition start_of (s : segment) : R * R :=
  match s with Straight sx sy _ _ _ => (sx, sy)
             | Circular cx cy r ph0 _ _ _ => (cx + r * cos ph0, cy + r * sin ph0) end.
Definition end_of (s : segment) : R * R :=
  match s with Straight _ _ ex ey _ => (ex, ey)
             | Circular cx cy r _ ph1 _ _ => (cx + r * cos ph1, cy + r * sin ph1) end.
Definition width_of (s : segment) : R := match s with Straight _ _ _ _ wd => wd | Circular _ _ _ _ _ _ wd => wd end.

(** The position is between the start and the end of the segment (or at most 3 before the start, which lanes allow). *)
Definition along (s : segment) (p : R * R) : Prop :=
  -3 <= fst (local s (fst p) (snd p)) < length_of s.
(** ... and moreover not before the start, and inside the width of the segment. *)
Definition on_road (s : segment) (p : R * R) : Prop :=
  0 <= fst (local s (fst p) (snd p)) < length_of s /\ Rabs (snd (local s (fst p) (snd p))) <= width_of s / 2.

(** The position is in the box. *)
Definition in_box (bx by_ : R * R) (p : R * R) : Prop :=
  fst bx <= fst p <= snd bx /\ fst by_ <= snd p <= snd by_.

Definition dot (a b : R * R) : R := fst a * fst b + snd a * snd b.
Definition dist (a b : R * R) : R := sqrt ((fst a - fst b) * (fst a - fst b) + (snd a - snd b) * (snd a - snd b)).
