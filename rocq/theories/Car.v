(** Cars: verse/agents/example_agent/car_agent.py.

    Simplifications: numbers are real numbers (Angle.v, Lane.v); modes and lanes are given by their names.  [None] is an
    exception. *)
From Coq Require Import Ascii String Reals.
From Verif Require Import Base PyText Dict LaneMap3d Angle Lane.
Set Implicit Arguments.
Open Scope R_scope.

(** [np.clip] *)
Definition clip (x lo hi : R) : R := Rmin (Rmax x lo) hi.

(** The map's answers, verse/map/lane_map.py:61-74 and 95-97 with verse/map/lane.py:16 and 38-57. *)
Definition lanes_t := dict word (list segment).
Definition lane_of (lanes : lanes_t) (name : word) : option (list segment) := dget word_eqb (get_phys_lane name) lanes.
Definition seg_width (s : segment) : R := match s with Straight _ _ _ _ wd => wd | Circular _ _ _ _ _ _ wd => wd end.
Definition lane_width (l : list segment) : option R := match l with s :: _ => Some (seg_width s) | [] => None end.

(** car_agent.py:118-121: [psi] is the heading error. *)
Definition steer (psi d v : R) : R := clip (psi + arctan2 (45 / 100 * d) v) (- (61 / 100)) (61 / 100).

(** car_agent.py:36-48 [NPCAgent.action_handler] *)
Definition npc_action (lanes : lanes_t) (mode : list word) (state : list R) : option (R * R) :=
  match mode, state with
  | _ :: lane_name :: _, x :: y :: theta :: v :: _ =>
    do l <- lane_of lanes lane_name;
    do lat <- get_lateral l x y;
    do heading <- get_heading l x y;
    Some (steer (heading - theta) (- lat) v, 0)
  | _, _ => None
  end.

(** car_agent.py:98-122 [CarAgent.action_handler], and 201-254 the one of [CarAgentSwitch2] ([double]), which has two more modes.
    The state is taken to have four entries; [CarAgentDebounced] passes on the first four and [CarAgentSwitch2] leaves out the
    fifth. *)
Section Action.
  Variables (speed accel : R) (double : bool).
  Definition wish (mode : word) (wd d v : R) : option (R * R) :=
    if word_eqb mode (w "Normal") || word_eqb mode (w "Stop") then Some (d, 0)
    else if word_eqb mode (w "SwitchLeft") then Some (d + wd, 0)
    else if word_eqb mode (w "SwitchRight") then Some (d - wd, 0)
    else if double && word_eqb mode (w "SwitchLeft2") then Some (d + wd * 2, 0)
    else if double && word_eqb mode (w "SwitchRight2") then Some (d - wd * 2, 0)
    else if word_eqb mode (w "Brake") then Some (d, Rmax (- accel) (- v))
    else if word_eqb mode (w "Accel") then Some (d, Rmin accel (speed - v))
    else None.
  Definition car_action (lanes : lanes_t) (mode : list word) (state : list R) : option (R * R) :=
    match mode, state with
    | [vehicle_mode; lane_name], [x; y; theta; v] =>
      do l <- lane_of lanes lane_name;
      do wd <- lane_width l;
      do lat <- get_lateral l x y;
      do da <- wish vehicle_mode wd (- lat) v;
      do heading <- get_heading l x y;
      Some (steer (wrap_to_pi (heading - theta)) (fst da) v, snd da)
    | _, _ => None
    end.
End Action.
(** car_agent.py:195-198 [CarAgentDebounced.action_handler]: the first four entries of any state. *)
Definition debounced_action (speed accel : R) (lanes : lanes_t) (mode : list word) (state : list R) : option (R * R) :=
  car_action speed accel false lanes mode (firstn 4 state).
(** car_agent.py:226-254 [CarAgentSwitch2.action_handler]: states of five entries. *)
Definition switch2_action (speed accel : R) (lanes : lanes_t) (mode : list word) (state : list R) : option (R * R) :=
  match state with [x; y; theta; v; _] => car_action speed accel true lanes mode [x; y; theta; v] | _ => None end.
(** car_agent.py:157-167 [WeirdCarAgent._action_handler], with [gain] 0.2 and [thres] 0.8. *)
Definition weird_action (mode : list word) (state : list R) : option (R * R) :=
  match mode, state with
  | vehicle_mode :: _, _ :: _ :: theta :: _ =>
    if Rlt_dec (8 / 10) (Rabs theta) then Some (0, 0)
    else if word_eqb vehicle_mode (w "SwitchLeft") && (if Rle_dec 0 theta then true else false) then Some (2 / 10, 0)
    else if word_eqb vehicle_mode (w "SwitchRight") && (if Rle_dec theta 0 then true else false) then Some (- (2 / 10), 0)
    else Some (0, 0)
  | _, _ => None
  end.

(** car_agent.py:88-96 [CarAgent.dynamics], 23-34 [NPCAgent.dynamics], 191-193 and 222-224: the derivative; a fifth entry is a
    clock. *)
Definition dynamics (state : list R) (u : R * R) : option (list R) :=
  match state with
  | [_; _; theta; v] => Some [v * cos (theta + fst u); v * sin (theta + fst u); v / (175 / 100) * sin (fst u); snd u]
  | [_; _; theta; v; _] => Some [v * cos (theta + fst u); v * sin (theta + fst u); v / (175 / 100) * sin (fst u); snd u; 1]
  | _ => None
  end.

(** car_agent.py:50-68 and 124-142 [TC_simulate].  [integrate] is scipy's solver for the dynamics with a constant command, run for
    one time step; [act] is the action handler for the mode and map of the call. *)
Section Simulate.
  Variables (act : list R -> option (R * R)) (integrate : list R -> R * R -> R -> list R).
  (** [if init[3] < 0: init[3] = 0] *)
  Definition no_reverse (state : list R) : option (list R) :=
    match state with
    | x :: y :: theta :: v :: rest => Some (x :: y :: theta :: (if Rlt_dec v 0 then 0 else v) :: rest)
    | _ => None
    end.
  Fixpoint rows (dt : R) (n : nat) (i : nat) (init : list R) : option (list (R * list R)) :=
    match n with
    | O => Some []
    | S n' =>
      do u <- act init;
      do st <- no_reverse (integrate init u dt);
      do rest <- rows dt n' (S i) st;
      Some ((dt * (INR i + 1), st) :: rest)
    end.
  (** [int(np.ceil(x))] *)
  Definition ceil (x : R) : Z := (1 - up (- x))%Z.
  Definition tc_simulate (init : list R) (time_bound dt : R) : option (list (R * list R)) :=
    let n := ceil (time_bound / dt) in
    if (n <? 0)%Z then None
    else do r <- rows dt (Z.to_nat n) 0 init; Some ((0, init) :: r).
End Simulate.
