(** What the lanes of a crossing are, for IntersectionProps.v. *)
From Coq Require Import Ascii String Reals.
From Verif Require Import Base PyText Dict AngleSpec Lane LaneSpec Intersection.
Set Implicit Arguments.
Open Scope nat_scope.

(** The four arms of the crossing, their letters, and the direction in which each leaves it. *)
Inductive arm := North | South | East | West.
Definition letter (a : arm) : word := match a with North => w "N" | South => w "S" | East => w "E" | West => w "W" end.
Definition outward (a : arm) : R * R :=
  match a with North => (0, 1)%R | South => (0, -1)%R | East => (1, 0)%R | West => (-1, 0)%R end.

(** Lane [i] from arm [a] to arm [b], and the change from it to lane [j]. *)
Definition lane_name (a b : arm) (i : nat) : word := letter a ++ letter b ++ w "_" ++ str i.
Definition change_name (a b : arm) (i j : nat) : word := lane_name a b i ++ w "_" ++ str j.

(** A mode whose name begins with "Switch", and one whose name mentions [x]. *)
Definition switching (mode : word) : Prop := exists rest, mode = w "Switch" ++ rest.
Definition mentions (x mode : word) : Prop := exists p q, mode = p ++ x ++ q.

(** A history of requested modes: a request that the map answers with None is not carried out. *)
Fixpoint drive (lanes : nat) (mode lane : word) (requests : list word) : option (word * word) :=
  match requests with
  | [] => Some (mode, lane)
  | m :: rest =>
    match h lanes lane mode m with
    | None => None
    | Some None => drive lanes mode lane rest
    | Some (Some lane') => drive lanes m lane' rest
    end
  end.

Open Scope R_scope.
(** Right-hand traffic: the entry of lane [i] of arm [a] is [off] to the right of somebody coming in, its exit [off] to the
    right of somebody going out; [edge] is the distance from the centre. *)
Definition entry (a : arm) (edge off : R) : R * R := (edge * fst (outward a) - off * snd (outward a), edge * snd (outward a) + off * fst (outward a)).
Definition exit_ (a : arm) (edge off : R) : R * R := (edge * fst (outward a) + off * snd (outward a), edge * snd (outward a) - off * fst (outward a)).

(** The direction of travel at a longitudinal coordinate. *)
Definition heads (s : segment) (lon : R) (d : R * R) : Prop := cos (heading_at s lon) = fst d /\ sin (heading_at s lon) = snd d.
(** The second segment goes on where the first ends, in the same direction. *)
Definition joint (s t : segment) : Prop :=
  position s (length_of s) 0 = position t 0 0 /\ same_angle (heading_at s (length_of s)) (heading_at t 0).
