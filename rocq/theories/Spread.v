(** Diameters of simulations and of tubes of boxes: verse/utils/star_diams.py, lines 71-86 and 116-171 (stars are in StarDiam.v).

    Numbers are rationals and times are exact.  Python's [hash] of strings is a parameter.  An exception is [None]. *)
From Coq Require Import Ascii String Qround.
From Verif Require Import Base Dict PyText Tree StarDiam FixedPoints.
Set Implicit Arguments.
Open Scope nat_scope.

(** [sep.join(l)] *)
Fixpoint join_with (sep : word) (l : list word) : word :=
  match l with [] => [] | [a] => a | a :: l' => a ++ sep ++ join_with sep l' end.

(** A node of a simulation: the modes of the agents (in dictionary order) and their traces, rows of a time and a state. *)
Record simnode := mksim { sn_mode : dict word (list word); sn_trace : dict word (list vec) }.

Section Hash.
  Variable hash : word -> Z.

  (** star_diams.py:125-127 *)
  Definition comp_modes (n : simnode) : word := join_with (w " | ") (map (fun kv => concat (snd kv)) (sn_mode n)).
  (** [str(hist)] *)
  Definition str_hist (hist : option Z) : word := match hist with None => w "None" | Some h => decz h end.
  (** star_diams.py:128 *)
  Definition new_hist (hist : option Z) (n : simnode) : Z := hash (str_hist hist ++ comp_modes n).

  (** star_diams.py:133-140: one state per time, the agents' states one after the other *)
  Definition add_row (temp : dict Q vec) (time_state : vec) : option (dict Q vec) :=
    match time_state with
    | [] => None
    | t :: state => Some (dalter Qeq_bool (fun o => match o with None => state | Some l => l ++ state end) t temp)
    end.
  Fixpoint add_rows (temp : dict Q vec) (rows : list vec) : option (dict Q vec) :=
    match rows with [] => Some temp | r :: rows' => do temp' <- add_row temp r; add_rows temp' rows' end.
  Fixpoint add_agents (temp : dict Q vec) (agents : dict word (list vec)) : option (dict Q vec) :=
    match agents with [] => Some temp | kv :: rest => do temp' <- add_rows temp (snd kv); add_agents temp' rest end.

  Notation histories := (dict Z (dict Q (list vec))).
  (** star_diams.py:130-131 *)
  Definition ensure (key : Z) (d : histories) : histories := dalter Z.eqb (fun o => match o with Some m => m | None => [] end) key d.
  (** star_diams.py:143-145; the key is there *)
  Definition record_state (key : Z) (d : histories) (ts : Q * vec) : histories :=
    dalter Z.eqb (fun o => dappend Qeq_bool (fst ts) (snd ts) (match o with Some m => m | None => [] end)) key d.
  (** The loop of star_diams.py:121-148.  It runs once per node; [fuel] bounds it. *)
  Fixpoint walk (fuel : nat) (queue : list (tree simnode * option Z)) (d : histories) : option histories :=
    match queue with
    | [] => Some d
    | (cur, hist) :: q =>
      match fuel with
      | 0 => None
      | S f =>
        let key := new_hist hist (content cur) in
        do temp <- add_agents [] (sn_trace (content cur));
        walk f (q ++ map (fun kid => (kid, Some key)) (child cur)) (fold_left (record_state key) temp (ensure key d))
      end
    end.
  (** star_diams.py:116-150; a simulation is given by its root *)
  Fixpoint sim_loop (sim_traces : list (tree simnode)) (d : histories) : option histories :=
    match sim_traces with [] => Some d | t :: ts => do d' <- walk (size t) [(t, None)] d; sim_loop ts d' end.
  Definition sim_traces_to_dict_composed (sim_traces : list (tree simnode)) : option histories := sim_loop sim_traces [].

  (** [states_array.min(axis=0)] and [max]: column by column *)
  Definition columns (f : Q -> Q -> Q) (first : vec) (rest : list vec) : vec := fold_left (zipw f) rest first.
  (** star_diams.py:162-169; [max] of nothing is an exception *)
  Definition time_diameter (states : list vec) : option (list Q) :=
    match states with
    | [] => None
    | s0 :: _ =>
      let max_dim := fold_left (fun m s => Nat.max m (length s)) states 0 in
      match filter (fun s => length s =? max_dim) states with
      | [] => Some []
      | f :: rest => Some [manhattan (columns Qmin f rest) (columns Qmax f rest)]
      end
    end.
  (** star_diams.py:152-171 *)
  Definition sim_traces_to_diameters (sim_traces : list (tree simnode)) : option (list Q) :=
    do d <- sim_traces_to_dict_composed sim_traces;
    do ds <- mapM time_diameter (flat_map (fun km => map snd (snd km)) d);
    Some (concat ds).
End Hash.

(** [np.linspace(0, time_horizon, int(time_horizon / time_step) + 1)] *)
Definition linspace (time_horizon time_step : Q) : list Q :=
  let n := Z.to_nat (Qfloor (time_horizon / time_step)) in
  map (fun i => if n =? 0 then 0 else inject_Z (Z.of_nat i) * time_horizon / inject_Z (Z.of_nat n))%Q (seq 0 (n + 1)).
(** star_diams.py:81-83 *)
Fixpoint node_diameters (reach_tubes : list (option (list row))) : option (list Q) :=
  match reach_tubes with
  | [] => Some []
  | None :: rest => node_diameters rest
  | Some rows :: rest => do a <- nth_error rows 0; do b <- nth_error rows 1; do ds <- node_diameters rest; Some (manhattan a b :: ds)
  end.
(** star_diams.py:78-85 *)
Definition rect_step (t : ftree) (time_step a b : Q) : option (list Q) :=
  do reach_tubes <- reach_at_fix t (Some (a - time_step * (5 # 100), b + time_step * (5 # 100))%Q);
  do curr_diam <- node_diameters reach_tubes;
  Some (match curr_diam with [] => [] | x :: rest => [max_of x rest] end).
(** [time_step_diameter_rect], star_diams.py:74-86 *)
Definition time_step_diameter_rect (t : ftree) (time_horizon time_step : Q) : option (list Q) :=
  let ts := linspace time_horizon time_step in
  do ds <- mapM (fun i => rect_step t time_step (nth i ts 0%Q) (nth (i + 1) ts 0%Q)) (seq 0 (length ts - 1));
  Some (concat ds).
