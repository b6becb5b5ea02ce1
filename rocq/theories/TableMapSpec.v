(** What the highway maps promise, for TableMapProps.v. *)
From Coq Require Import Ascii String Reals.
From Verif Require Import Base PyText Dict Lane Intersection TableMap.
Set Implicit Arguments.
Open Scope nat_scope.

(** The maps with a table. *)
Definition tables : list tmap := [simple_map3; simple_map4; simple_map6; m1].
Definition is_lane (m : tmap) (x : word) : Prop := In x (map fst (m_lanes m)).

(** A history of requested modes; a request the map has no entry for ([h_exist]) is not carried out.  [None]: an error. *)
Fixpoint tdrive (m : tmap) (mode lane : word) (requests : list word) : option (word * word) :=
  match requests with
  | [] => Some (mode, lane)
  | r :: rest =>
    if h_exist m lane mode r then
      match th m lane mode r with
      | Some (Some lane') => tdrive m r lane' rest
      | Some None => tdrive m mode lane rest
      | None => None
      end
    else tdrive m mode lane rest
  end.

(** Segment [s] runs along [t], the distance [d] to its left: what lies [d] to the left of the middle of [t] is in the middle of
    [s]. *)
Definition left_by (d : R) (s t : segment) : Prop :=
  (forall lon, 0 <= lon <= length_of t -> exists lon', 0 <= lon' <= length_of s /\ position t lon d = position s lon' 0)%R.
(** The same for lanes of as many segments. *)
Definition lane_left_by (d : R) (a b : list segment) : Prop := Forall2 (left_by d) a b.

(** ** SimpleMap4Switch2 *)
(** Lane [i], and the change from lane [i] to lane [j]. *)
Definition lane2 (i : nat) : word := w "T" ++ str i.
Definition change2 (i j : nat) : word := w "M" ++ str i ++ str j.
(** What the four switching modes ask for: the lane to go to, if there is one. *)
Definition wanted (dest : word) (i : nat) : option nat :=
  if word_eqb dest (w "SwitchLeft") then (if 1 <=? i then Some (i - 1) else None)
  else if word_eqb dest (w "SwitchLeft2") then (if 2 <=? i then Some (i - 2) else None)
  else if word_eqb dest (w "SwitchRight") then (if i + 1 <=? 4 then Some (i + 1) else None)
  else if word_eqb dest (w "SwitchRight2") then (if i + 2 <=? 4 then Some (i + 2) else None)
  else None.
Fixpoint drive2 (mode lane : word) (requests : list word) : option (word * word) :=
  match requests with
  | [] => Some (mode, lane)
  | r :: rest =>
    match switch2_h lane mode r with
    | None => None
    | Some None => drive2 mode lane rest
    | Some (Some lane') => drive2 r lane' rest
    end
  end.
