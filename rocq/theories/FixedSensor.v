(** Sensors of the examples: verse/sensor/example_sensor/thermo_sensor.py, craft_sensor.py, quadrotor_sensor.py,
    single_sensor.py.

    Not modelled: [FakeSensor4] (single_sensor.py 161-179), which takes no argument [simulate] and expects states without static
    variables, so that the library cannot call it; [CraftStarSensor], whose indexing [np.array(state)[:, 1:7]] of a time and a
    star raises in verification. *)
From Coq Require Import Ascii String.
From Verif Require Import Base Dict PyText Sensor.
Set Implicit Arguments.
Open Scope nat_scope.

(** A sensor with fixed names: those of the continuous and of the discrete variables. *)
Record fixed := mk_fixed { f_cont : list word; f_disc : list word }.
(** thermo_sensor.py 18-19, craft_sensor.py 18-19, quadrotor_sensor.py 18-19 *)
Definition thermo : fixed := mk_fixed [w "temp"; w "total_time"; w "cycle_time"] [w "thermo_mode"].
Definition craft : fixed := mk_fixed [w "xp"; w "yp"; w "xd"; w "yd"; w "total_time"; w "cycle_time"] [w "craft_mode"].
Definition quadrotor : fixed :=
  mk_fixed [w "x"; w "y"; w "z"; w "vx"; w "vy"; w "vz"; w "waypoint_index"; w "done_flag"] [w "craft_mode"; w "lane_mode"].

(** state[1:k+1], thermo_sensor.py 18, 32 *)
Definition cut2 {V} (k : nat) (state : list V) : option (list V) := Some (firstn k (tl state)).
(** np.transpose(np.array(state)[:, 1:k+1]) and the assertion on its length, thermo_sensor.py 24-25, 38-39 *)
Definition cut3 {V} (k : nat) (rows : list (list V)) : option (list (list V)) :=
  do cols <- values3 rows;
  let cut := firstn k cols in
  if length cut =? k then Some cut else None.

Section Sense.
  Variables St V D : Type.
  Variable values : St -> option (list V).
  Variable f : fixed.
  (** thermo_sensor.py 16-41 and the loops 50-61; the static variables are dropped. *)
  Definition fixed1 (me : nat) (vw : views V D) (p : nat * astate St D) : option (views V D) :=
    let '(aid, (st, mode, static)) := p in
    do vals <- values st;
    if aid =? me then Some (sets (fst vw) (w "ego") (f_cont f) vals, sets (snd vw) (w "ego") (f_disc f) mode)
    else do c <- adds (fst vw) (w "others") (f_cont f) vals;
         do d <- adds (snd vw) (w "others") (f_disc f) mode;
         Some (c, d).
  (** thermo_sensor.py 45-62; None for an empty state_dict is the IndexError of line 49. *)
  Definition fixed_sense (me : nat) (states : dict nat (astate St D)) : option (dict word (entry V) * dict word (entry D) * dict word nat) :=
    match states with
    | [] => None
    | _ => do vw <- fold_opt (fixed1 me) states ([], []);
           Some (fst vw, snd vw, [(w "others", length states - 1)])
    end.
End Sense.
Definition fixed_simulate {V D} (f : fixed) := fixed_sense (St := list V) (V := V) (D := D) (cut2 (length (f_cont f))) f.
Definition fixed_verify {V D} (f : fixed) := fixed_sense (St := list (list V)) (V := list V) (D := D) (cut3 (length (f_cont f))) f.

(** SingleSensor.sense with simulate = False, single_sensor.py 93-132: the others are set, not added.  A missing type raises
    (lines 105, 124).  With simulate = True (lines 60-92) it is [sense values2]. *)
Section Single.
  Variables St V D : Type.
  Variable values : St -> option (list V).
  Definition single1 (args : list arg) (defs : dict word sdef) (me : nat) (vw : views V D) (p : nat * astate St D) : option (views V D) :=
    let '(aid, (st, mode, static)) := p in
    do nt <- (if aid =? me then option_map (pair (w "ego")) (ego_type args) else other_arg args);
    do sd <- dget word_eqb (snd nt) defs; do vals <- values st;
    Some (sets (fst vw) (fst nt) (s_cont sd) vals,
          sets (sets (snd vw) (fst nt) (s_disc sd) mode) (fst nt) (s_stat sd) static).
  Definition single_sense (args : list arg) (defs : dict word sdef) (me : nat) (states : dict nat (astate St D)) : option (dict word (entry V) * dict word (entry D) * dict word nat) :=
    match states with
    | [] => None
    | _ => do vw <- fold_opt (single1 args defs me) states ([], []);
           Some (fst vw, snd vw, [(w "others", length states - 1)])
    end.
End Single.
