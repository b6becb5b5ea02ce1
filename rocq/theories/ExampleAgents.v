(** Example agents with fixed dynamics: verse/agents/example_agent/origin_agent.py, robot_agent.py, ball_agent.py, line_agent.py
    and ballg_agent.py, and BaseAgent.TC_simulate (verse/agents/base_agent.py).

    Simplifications: numbers are reals; [ode f x h] stands for [r.set_initial_value(x)] and [r.integrate(r.t + h)] of SciPy,
    [odeint f x ts] for its [odeint]; both are None when the dynamics raises.  [rnd] is [round(., 10)] or [np.round(., 8)].
    A state of another length is the ValueError of unpacking it.  All dynamics here ignore the time. *)
From Coq Require Import Ascii String Reals Lra.
From Verif Require Import Base PyText.
Set Implicit Arguments.
Open Scope R_scope.

Notation vec := (list R).
Notation field := (vec -> option vec).

(** ** Dynamics *)
(** origin_agent.py 17-23 *)
Definition vanderpol_dynamics : field := fun s =>
  match s with [x; y] => Some [y; (1 - x ^ 2) * y - x] | _ => None end.
(** origin_agent.py 49-57 *)
Definition thermo_dynamics (rate : R) : field := fun s =>
  match s with [temp; total_time; cycle_time] => Some [temp * rate; 1; 1] | _ => None end.
(** origin_agent.py 59-67 *)
Definition thermo_rate (mode : word) : option R :=
  if word_eqb mode (w "ON") then Some (1 / 10) else if word_eqb mode (w "OFF") then Some (- (1 / 10)) else None.
(** pow(z, -1.5), a ZeroDivisionError at 0 (z is a sum of squares) *)
Definition pow_m32 (z : R) : option R := if Req_EM_T z 0 then None else Some (Rpower z (- (3 / 2))).
(** origin_agent.py 94-115 *)
Definition proxA_dynamics : field := fun s =>
  match s with
  | [xp; yp; xd; yd; total_time; cycle_time] =>
    do q <- pow_m32 (yp ^ 2 + (xp + 42164000) ^ 2);
    Some [xd; yd;
          - (2.89995083970656) * xd - 0.0576765518445905 * xp + 0.00877200894463775 * yd + 0.000200959896519766 * yp
          - (1.43496e18 * xp + 6.050365344e25) * q + 807.153595726846;
          - (0.00875351105536225) * xd - 0.000174031357370456 * xp - 2.90300269286856 * yd - 1.43496e18 * yp * q - 0.0664932019993982 * yp;
          1; 1]
  | _ => None
  end.
(** origin_agent.py 118-139 *)
Definition proxB_dynamics : field := fun s =>
  match s with
  | [xp; yp; xd; yd; total_time; cycle_time] =>
    do q <- pow_m32 (yp ^ 2 + (xp + 42164000) ^ 2);
    Some [xd; yd;
          - (19.2299795908647) * xd - 0.576076729033652 * xp + 0.00876275931760007 * yd + 0.000262486079431672 * yp
          - (1.43496e18 * xp + 6.050365344e25) * q + 807.153595726846;
          - (0.00876276068239993) * xd - 0.000262486080737868 * xp - 19.2299765959399 * yd - 1.43496e18 * yp * q - 0.575980743701182 * yp;
          1; 1]
  | _ => None
  end.
(** origin_agent.py 142-150 *)
Definition passive_dynamics : field := fun s =>
  match s with
  | [xp; yp; xd; yd; total_time; cycle_time] =>
    Some [xd; yd; 0.0000575894721132000 * xp + 0.00876276 * yd; - (0.00876276) * xd; 1; 1]
  | _ => None
  end.
(** origin_agent.py 152-160 *)
Definition craft_dynamics (mode : word) : option field :=
  if word_eqb mode (w "ProxA") then Some proxA_dynamics
  else if word_eqb mode (w "ProxB") then Some proxB_dynamics
  else if word_eqb mode (w "Passive") then Some passive_dynamics else None.
(** robot_agent.py 15-17 *)
Definition robot_dynamics : field := fun _ => Some [1].
(** ball_agent.py 26-33 *)
Definition ball_dynamics : field := fun s => match s with [x; y; vx; vy] => Some [vx; vy; 0; 0] | _ => None end.
(** line_agent.py 25-30 *)
Definition line_dynamics : field := fun s => match s with [x; vx] => Some [vx; 0] | _ => None end.
(** ballg_agent.py 27-35.  The method is static and has three parameters: [dynamics(t, state)] lacks one. *)
Definition ball_g_method (arguments : list (R + vec)) : option vec :=
  match arguments with [_; _; inr [x; y; vx; vy]] => Some [vx; vy; - (9.8); 0] | _ => None end.
Definition ball_g_dynamics (t : R) : field := fun s => ball_g_method [inl t; inr s].

(** ** Simulation *)
(** int(np.ceil(x)) for x >= 0 *)
Definition ceil (x : R) : nat := Z.to_nat (1 - up (- x)).

Section Simulate.
  Variable ode : field -> vec -> R -> option vec.
  Variable odeint : field -> vec -> list R -> option (list vec).
  Variable rnd : R -> R.

  (** The loop shared by the four classes: origin_agent.py 28-40, 72-85, 165-178; robot_agent.py 24-37.
      [dynamics] is computed in every round (the action handler is called there). *)
  Fixpoint rounds (dynamics : option field) (h : R) (ts : list R) (init : vec) : option (list vec) :=
    match ts with
    | [] => Some []
    | t :: ts' =>
      do f <- dynamics;
      do y <- ode f init h;
      do rows <- rounds dynamics h ts' y;
      Some (((t + h) :: y) :: rows)
    end.
  Definition simulate (dynamics : option field) (init : vec) (time_bound h : R) : option (list vec) :=
    do rows <- rounds dynamics h (map (fun i => rnd (INR i * h)) (seq 0 (ceil (time_bound / h)))) init;
    Some ((0 :: init) :: rows).
  (** origin_agent.py 25-40 *)
  Definition vanderpol_simulate := simulate (Some vanderpol_dynamics).
  (** origin_agent.py 69-85; mode[0] of an empty mode is an IndexError *)
  Definition first_mode {A} (g : word -> option A) (mode : list word) : option A := match mode with m :: _ => g m | [] => None end.
  Definition thermo_simulate (mode : list word) := simulate (option_map thermo_dynamics (first_mode thermo_rate mode)).
  (** origin_agent.py 162-178 *)
  Definition craft_simulate (mode : list word) := simulate (first_mode craft_dynamics mode).
  (** robot_agent.py 19-37 *)
  Definition robot_simulate := simulate (Some robot_dynamics).

  (** base_agent.py 67-94: np.arange(0.0, T + h/2, h) has ceil((T + h/2)/h) elements *)
  Definition base_simulate (f : field) (init : vec) (time_horizon h : R) : option (list vec) :=
    let ts := map (fun i => rnd (INR i * h)) (seq 0 (ceil ((time_horizon + h / 2) / h))) in
    do rows <- odeint f init ts;
    Some (map (fun ty => fst ty :: snd ty) (combine ts rows)).
  Definition ball_simulate := base_simulate ball_dynamics.
  Definition line_simulate := base_simulate line_dynamics.
  Definition ball_g_simulate (t : R) := base_simulate (ball_g_dynamics t).
End Simulate.
