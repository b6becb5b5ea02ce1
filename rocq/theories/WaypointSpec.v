(** What the waypoint planner promises, for WaypointProps.v. *)
From Coq Require Import Ascii String Reals.
From Verif Require Import Base PyText Dict Lane3d Waypoint.
Open Scope R_scope.

(** The waypoints returned to an agent during a history of calls, oldest first. *)
Fixpoint returned_to (agent : word) (cs : list call) (rs : list (option waypoint)) : list waypoint :=
  match cs, rs with
  | c :: cs', r :: rs' =>
    if word_eqb (c_agent c) agent then match r with Some wp => wp :: returned_to agent cs' rs' | None => returned_to agent cs' rs' end
    else returned_to agent cs' rs'
  | _, _ => []
  end.
(** The calls of an agent, and the results of those calls. *)
Definition own_calls (agent : word) (cs : list call) : list call := filter (fun c => word_eqb (c_agent c) agent) cs.
Fixpoint own_results (agent : word) (cs : list call) (rs : list (option waypoint)) : list (option waypoint) :=
  match cs, rs with
  | c :: cs', r :: rs' => if word_eqb (c_agent c) agent then r :: own_results agent cs' rs' else own_results agent cs' rs'
  | _, _ => []
  end.
(** The last of a list. *)
Definition latest {A} (l : list A) : option A := match rev l with [] => None | x :: _ => Some x end.
