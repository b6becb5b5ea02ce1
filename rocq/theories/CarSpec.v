(** What the cars promise, for CarProps.v. *)
From Coq Require Import Ascii String Reals.
From Verif Require Import Base PyText Dict Lane Car TableMap.
Set Implicit Arguments.
Open Scope R_scope.

(** The modes a car knows. *)
Definition known (double : bool) : list word :=
  [w "Normal"; w "Stop"; w "SwitchLeft"; w "SwitchRight"; w "Brake"; w "Accel"] ++ (if double then [w "SwitchLeft2"; w "SwitchRight2"] else []).
(** Speeds of a trace. *)
Definition speed_of (state : list R) : option R := nth_error state 3.
(** The solver solves the last equation of the dynamics exactly: the speed changes by the acceleration times the time; and states
    keep their length. *)
Definition exact_speed (integrate : list R -> R * R -> R -> list R) : Prop :=
  forall state u t v, speed_of state = Some v -> speed_of (integrate state u t) = Some (v + snd u * t).
(** The maps whose lanes are single straight segments. *)
Definition straight_maps : list tmap := [simple_map3; simple_map4; m1].
