(** The rows of [TC_simulate]: verse/agents/base_agent.py and verse/agents/example_agent.

    Simplifications: times are rationals without rounding errors other than the calls of [round]; the
    integrators are parameters ([flow y0 t], or [step] for one call of [integrate]); a state is of any type. *)
From Coq Require Import Qround.
From Verif Require Import Base.
Set Implicit Arguments.
Open Scope nat_scope.

(** Python's and numpy's [round(x, d)]: to the nearest multiple of 10^-d, halves to the even one. *)
Definition zround (q : Q) : Z :=
  let f := Qfloor (q + (1 # 2)) in
  if Qeq_bool (q + (1 # 2)) (inject_Z f) && Z.odd f then (f - 1)%Z else f.
Definition pow10 (d : Z) : Q := inject_Z (10 ^ d).
Definition rnd (d : Z) (q : Q) : Q := (inject_Z (zround (q * pow10 d)) / pow10 d)%Q.

Definition qn (i : nat) : Q := inject_Z (Z.of_nat i).
(** [int(np.ceil(q))], and no rows when it is negative. *)
Definition ceil (q : Q) : nat := Z.to_nat (Qceiling q).

Section Agents.
  Variable S : Type.
  Notation trace := (list (Q * S)).

  (** base_agent.py:89-93: [t = np.round(np.arange(0.0, time_horizon + time_step/2, time_step), 8)]. *)
  Definition base_times (T dt : Q) : list Q := map (fun i => rnd 8 (qn i * dt)) (seq 0 (ceil ((T + dt / 2) / dt))).
  Definition base_trace (flow : S -> Q -> S) (y0 : S) (T dt : Q) : trace := map (fun t => (t, flow y0 t)) (base_times T dt).

  (** car_agent.py:48-68 (NPCAgent) and 121-141 (CarAgent): the preset times are overwritten in the loop. *)
  Fixpoint car_rows (step : S -> S) (dt : Q) (s : S) (n i : nat) : trace :=
    match n with
    | 0 => []
    | Datatypes.S n' => let s' := step s in (dt * qn (i + 1), s')%Q :: car_rows step dt s' n' (i + 1)
    end.
  Definition car_trace (step : S -> S) (y0 : S) (T dt : Q) : trace := (0%Q, y0) :: car_rows step dt y0 (ceil (T / dt)) 0.

  (** origin_agent.py:28-40, 72-85, 165-177 and robot_agent.py:24-37. *)
  Fixpoint origin_rows (step : S -> S) (dt : Q) (s : S) (n i : nat) : trace :=
    match n with
    | 0 => []
    | Datatypes.S n' => let s' := step s in (rnd 10 (qn i * dt) + dt, s')%Q :: origin_rows step dt s' n' (i + 1)
    end.
  Definition origin_trace (step : S -> S) (y0 : S) (T dt : Q) : trace := (0%Q, y0) :: origin_rows step dt y0 (ceil (T / dt)) 0.

  (** sign_agent.py:11-15. *)
  Definition sign_trace (y0 : S) (T dt : Q) : trace :=
    (0%Q, y0) :: map (fun i => (qn i * dt + dt, y0)%Q) (seq 0 (ceil (T / dt))).

  (** quadrotor_agent.py:111-171, the loop of [runModel] from row [i]; [arrived i] is [action_handler(...) == 1]
      in turn [i], and [df] whether the previous turn found 1. *)
  Section Quadrotor.
    Variable step : nat -> S -> S.
    Variable arrived : nat -> bool.
    Variables (bound dt : Q).
    Fixpoint model_rows (fuel : nat) (t : Q) (df : bool) (s : S) (i : nat) : option trace :=
      if negb (Qle_bool bound t) || negb df then
        match fuel with
        | 0 => None
        | Datatypes.S fuel' =>
          let s' := step i s in
          let t' := (t + dt)%Q in
          if Qle_bool 0 (rnd 4 (t' - bound - dt)) then Some []
          else do rest <- model_rows fuel' t' (arrived i) s' (i + 1); Some ((t', s') :: rest)
        end
      else Some [].
    Definition run_model (fuel : nat) (s : S) : option trace := do rows <- model_rows fuel 0 false s 0; Some ((0%Q, s) :: rows).
  End Quadrotor.

  (** quadrotor_agent.py:173-244, the loop of [TC_simulate]; segment [j] has its own dynamics. *)
  Variable step : nat -> nat -> S -> S.
  Variable arrived : nat -> nat -> bool.
  Fixpoint quad_rows (fuel : nat) (limit T dt tend : Q) (s : S) (j : nat) : option trace :=
    if Qle_bool T tend then Some []
    else match fuel with
         | 0 => None
         | Datatypes.S fuel' =>
           let b := if Qle_bool limit (T - tend) then limit else (T - tend)%Q in
           do tr <- run_model (step j) (arrived j) b dt fuel' s;
           let tr' := map (fun p => (rnd 4 (fst p + tend), snd p)) tr in
           do last <- nth_error (rev tr') 0;
           do first <- nth_error tr' 0;
           do rest <- quad_rows fuel' limit T dt (fst last) (snd last) (j + 1);
           Some ((if Qeq_bool (rnd 4 (fst first)) 0 then tr' else tl tr') ++ rest)
         end.
  Definition quad_trace (fuel : nat) (limit : Q) (y0 : S) (T dt : Q) : option trace := quad_rows fuel limit T dt 0 y0 0.
End Agents.
