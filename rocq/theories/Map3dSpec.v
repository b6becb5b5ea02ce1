(** What the three-dimensional example maps promise, for Map3dProps.v. *)
From Coq Require Import Ascii String Reals.
From Verif Require Import Base PyText Dict Lane3d Map3d.
Open Scope R_scope.

(** The maps: their lanes, and how far apart the levels are. *)
Definition maps3 : list (option (dict word (list segment)) * R) := [(m5_lanes, 8); (m6_lanes, 4)].

(** A history of requested modes; a request the map has no entry for ([h_exist]) is not carried out.  [None]: an error. *)
Fixpoint fly (mode lane : word) (requests : list word) : option (word * word) :=
  match requests with
  | [] => Some (mode, lane)
  | r :: rest =>
    if h_exist lane mode r then match h lane mode r with Some lane' => fly r lane' rest | None => None end
    else fly mode lane rest
  end.

(** [p] moved up by [d]. *)
Definition raised (d : R) (p : v3) : v3 := V (vx p) (vy p) (vz p + d).
(** Segment [s] runs exactly [d] above segment [t]: same length, same coordinates. *)
Definition above_by (d : R) (s t : segment) : Prop :=
  seg_length s = seg_length t
  /\ (forall l r a, position s l r a = option_map (raised d) (position t l r a))
  /\ (forall p, local_coordinates s (raised d p) = local_coordinates t p).
(** The same for lanes of as many segments. *)
Definition lane_above_by (d : R) (a b : list segment) : Prop := Forall2 (above_by d) a b.

(** Segment [s] ends in the middle of the start of segment [t], and both run in the same direction there. *)
Definition leads_to (s t : segment) : Prop :=
  exists p a b k, position s (seg_length s) 0 0 = Some p /\ position t 0 0 0 = Some p
  /\ get_tang s (seg_length s) = Some a /\ get_tang t 0 = Some b /\ 0 < k /\ b = V (k * vx a) (k * vy a) (k * vz a).
