(** Specification vocabulary for starting analyses (C99, C100). *)
From Coq Require Import Ascii String.
From Verif Require Import Base PyText Dict LaneMap3d Scenario ScenarioSpec Runs.
Set Implicit Arguments.
Open Scope nat_scope.

(** Coordinate [i] of a corner; a corner with one coordinate has it everywhere. *)
Definition corner (l : list Q) (i : nat) : option Q := match l with [a] => Some a | _ => nth_error l i end.
Definition between (a b x : Q) : Prop := (a <= x <= b \/ b <= x <= a)%Q.

(** A point of the set with the given corners. *)
Definition in_set (v : list (list cell)) (p : list Q) : Prop :=
  exists lo hi rest, v = map Num lo :: map Num hi :: rest /\
    (length lo = length hi -> length p = length lo) /\
    forall i x, nth_error p i = Some x -> exists a b, corner lo i = Some a /\ corner hi i = Some b /\ between a b x.

Definition known (s : state) (id : word) : Prop := In id (map fst (agent_dict s)).

(** The parts of a root node other than the initial states: those of the scenario, at time 0. *)
Definition settings (s : state) (r : root) : Prop :=
  r_agents r = map fst (agent_dict s) /\ r_height r = 0 /\ r_time r = 0%Q /\ r_id r = 0 /\
  (forall id, known s id -> exists m ns u,
     stored_mode s id = Some m /\ dget word_eqb id (r_mode r) = Some m /\
     stored_static s id = Some (map Name ns) /\ dget word_eqb id (r_static r) = Some ns /\
     stored_uncertain s id = Some u /\ dget word_eqb id (r_uncertain r) = Some u).

(** A simulation that starts, for every agent of the scenario and for no other, at a point of its initial set. *)
Definition starts_in (s : state) (r : root) : Prop :=
  settings s r /\ r_type r = SimTrace /\
  (forall id, known s id -> exists v p, stored_init s id = Some v /\ dget word_eqb id (r_init r) = Some (Point p) /\ in_set v p) /\
  (forall id, ~ known s id -> dget word_eqb id (r_init r) = None).

(** A verification that starts from every agent's initial set. *)
Definition starts_from (s : state) (r : root) : Prop :=
  settings s r /\ r_type r = ReachTube /\
  (forall id, known s id -> exists v, stored_init s id = Some v /\ dget word_eqb id (r_init r) = Some (Boxes [v])) /\
  (forall id, ~ known s id -> dget word_eqb id (r_init r) = None).

(** The same initial conditions, seen by what is held for each agent. *)
Definition same_conditions (s1 s2 : state) : Prop :=
  forall id, stored_init s1 id = stored_init s2 id /\ stored_mode s1 id = stored_mode s2 id /\
             stored_static s1 id = stored_static s2 id /\ stored_uncertain s1 id = stored_uncertain s2 id.
Definition same_start (r1 r2 : root) : Prop :=
  forall id, dget word_eqb id (r_init r1) = dget word_eqb id (r_init r2) /\
             dget word_eqb id (r_mode r1) = dget word_eqb id (r_mode r2) /\
             dget word_eqb id (r_static r1) = dget word_eqb id (r_static r2) /\
             dget word_eqb id (r_uncertain r1) = dget word_eqb id (r_uncertain r2).

(** An agent's references are to lists that exist. *)
Definition refs_ok (h : heap) (ag : agent) : Prop :=
  outer_ok h (init_cont ag) /\ flat_ok h (static_parameters ag) /\ outer_ok h (uncertain_parameters ag).

Section Spec.
  Variables rng tree engine args : Type.
  Variable seeded : Z -> rng.
  Variable draw : rng -> Q * rng.
  Variable fresh_engine : engine.
  Variable analyse : kind -> args -> engine -> root -> nat -> list tree -> option tree * engine.

  (** What can be read off a tree: which analysis made it, with which arguments, its root node, and the run number
      its cache entries carry. *)
  Record info := mkinfo { i_kind : kind; i_args : args; i_root : root; i_num : nat }.

  Notation scen := (scen rng tree engine).
  Notation do_call := (do_call seeded draw fresh_engine analyse).
  Notation call := (call args).

  (** The user passes lists that exist. *)
  Definition legal (sc : scen) (c : call) : Prop :=
    let h := hp (st sc) in
    match c with
    | CAdd _ ag => refs_ok h ag
    | CSet _ id o m x u | CAgent _ id o m x u => o < length (outer h) /\ flat_ok h x /\ outer_ok h u
    | CNewOuter _ rows => Forall (fun a => a < length (inner h)) rows
    | _ => True
    end.

  (** A program of such calls, from a new scenario; the log has each call with the trees it finished and whether it
      returned normally. *)
  Inductive played : list (call * list tree * bool) -> scen -> Prop :=
  | played_new h g : wf h -> played [] (new_scen tree fresh_engine h g)
  | played_call log sc c ts ok sc' : played log sc -> legal sc c -> do_call sc c = (ts, ok, sc') ->
      played (log ++ [(c, ts, ok)]) sc'.

  (** The trees finished since the last [cleanup_cache], in order. *)
  Fixpoint finished (so_far : list tree) (log : list (call * list tree * bool)) : list tree :=
    match log with
    | [] => so_far
    | (CClean _, _, _) :: log' => finished [] log'
    | (_, ts, _) :: log' => finished (so_far ++ ts) log'
    end.
End Spec.
