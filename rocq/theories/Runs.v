(** Starting analyses: verse/scenario/scenario.py [_get_init_from_agent], [simulate], [simulate_multi],
    [simulate_simple], [verify], [verify_partitioned], [cleanup_cache], verse/utils/utils.py [sample_rect],
    verse/analysis/analysis_tree.py [root_from_inits] and the setters of verse/agents/base_agent.py, over the
    scenario of [Scenario].

    Simplifications: numpy's global generator is a state [rng] with [seeded] (np.random.seed) and [draw] (one
    number of [0, 1)), and [uniform] is exact rational arithmetic.  The simulator and the verifier with their
    caches are one opaque state [engine]; an analysis ([analyse]) may raise, and otherwise returns a tree.  Static
    parameters that are [Name]s stand for enum members; anything else has no [.name] and raises.  Modes are names
    already.  [update_config] and the Ray start-up are left out. *)
From Coq Require Import Ascii String.
From Verif Require Import Base PyText Dict LaneMap3d Scenario ScenarioSpec.
Set Implicit Arguments.
Open Scope nat_scope.

(** Which analysis, and what it starts from: a point for a simulation, a list holding one box for a verification. *)
Inductive kind := Simulate | SimulateSimple | Verify | VerifyPartitioned.
Inductive initial := Point (p : list Q) | Boxes (l : list (list (list cell))).
Inductive node_type := SimTrace | ReachTube.

(** The root node, analysis_tree.py:122-146. *)
Record root := mkroot {
  r_init : dict word initial;
  r_mode : dict word (list word);
  r_static : dict word (list word);
  r_uncertain : dict word (list (list cell));
  r_agents : list word;                      (** the keys of root.agent *)
  r_type : node_type;
  r_height : nat;
  r_time : Q;
  r_id : nat }.

(** [BaseAgent.set_initial], base_agent.py:43-61: copies of what is given, None where nothing is. *)
Definition copy_flat_opt (h : heap) (o : option nat) : option (heap * option nat) :=
  match o with
  | None => Some (h, None)
  | Some x => do r <- deepcopy_flat h x; Some (fst r, Some (snd r))
  end.
Definition agent_set_initial (s : state) (id : word) (o : nat) (mode : list word) (static uncertain : option nat) : option state :=
  do ag <- dget word_eqb id (agent_dict s);
  do c <- deepcopy (hp s) o;
  do st <- copy_flat_opt (fst c) static;
  do un <- copy_opt (fst st) uncertain;
  Some (mkstate (fst un) (put id (with_initial ag (snd c) mode (snd st) (snd un)) (agent_dict s))
          (init_dict s) (init_mode_dict s) (static_dict s) (uncertain_param_dict s) (map_lanes s)).

(** [_get_init_from_agent], scenario.py:206-220: agents without an initial set get the one they were given
    themselves; an exception of [set_init_single] ends the loop. *)
Fixpoint fill_loop (ids : list word) (s : state) : state * bool :=
  match ids with
  | [] => (s, true)
  | id :: ids' =>
    if dmem word_eqb id (init_dict s) then fill_loop ids' s else
    match dget word_eqb id (agent_dict s) with
    | None => (s, false)
    | Some ag =>
      match init_cont ag, init_disc ag with
      | Some o, Some m =>
        let (s', ok) := set_init_single s id o m (static_parameters ag) (uncertain_parameters ag) in
        if ok then fill_loop ids' s' else (s', false)
      | _, _ => fill_loop ids' s
      end
    end
  end.
Definition get_init_from_agent (s : state) : state * bool := fill_loop (map fst (agent_dict s)) s.

Section Runs.
  Variables rng tree engine args : Type.
  Variable seeded : Z -> rng.
  Variable draw : rng -> Q * rng.
  Variable fresh_engine : engine.
  Variable analyse : kind -> args -> engine -> root -> nat -> list tree -> option tree * engine.

  (** numpy broadcasting of the two corner rows in [np.random.uniform(rect[0], rect[1])]. *)
  Definition broadcast (lo hi : list Q) : option (list (Q * Q)) :=
    if length lo =? length hi then Some (combine lo hi)
    else match lo, hi with
         | [a], _ => Some (map (fun b => (a, b)) hi)
         | _, [b] => Some (map (fun a => (a, b)) lo)
         | _, _ => None
         end.
  Fixpoint uniform (l : list (Q * Q)) (g : rng) : list Q * rng :=
    match l with
    | [] => ([], g)
    | (a, b) :: l' =>
      let (u, g1) := draw g in
      let (r, g2) := uniform l' g1 in
      ((a + (b - a) * u)%Q :: r, g2)
    end.
  Definition number (c : cell) : option Q := match c with Num q => Some q | Name _ => None end.

  (** Seeds numpy accepts: 0 <= seed < 2^32. *)
  Definition seed_ok (z : Z) : bool := ((0 <=? z) && (z <? 2 ^ 32))%Z.

  (** [sample_rect], utils.py:416-422. *)
  Definition sample_rect (rect : list (list cell)) (seed : option Z) (g : rng) : option (list Q) * rng :=
    let g0 := match seed with
              | Some z => if seed_ok z then Some (seeded z) else None
              | None => Some g
              end in
    match g0 with
    | None => (None, g)
    | Some g1 =>
      match nth_error rect 0, nth_error rect 1 with
      | Some r0, Some r1 =>
        match mapM number r0, mapM number r1 with
        | Some lo, Some hi =>
          match broadcast lo hi with
          | Some l => let (p, g2) := uniform l g1 in (Some p, g2)
          | None => (None, g1)
          end
        | _, _ => (None, g1)
        end
      | _, _ => (None, g1)
      end
    end.

  (** [{aid: sample_rect(init, seed) for aid, init in self.init_dict.items()}], scenario.py:237. *)
  Fixpoint sample_all (h : heap) (d : dict word nat) (seed : option Z) (g : rng) : option (dict word initial) * rng :=
    match d with
    | [] => (Some [], g)
    | (id, o) :: d' =>
      match read h o with
      | None => (None, g)
      | Some rect =>
        match sample_rect rect seed g with
        | (None, g1) => (None, g1)
        | (Some p, g1) =>
          match sample_all h d' seed g1 with
          | (Some r, g2) => (Some ((id, Point p) :: r), g2)
          | (None, g2) => (None, g2)
          end
        end
      end
    end.

  (** [{aid: [init] for aid, init in self.init_dict.items()}], scenario.py:342-346. *)
  Definition boxes_all (h : heap) (d : dict word nat) : option (dict word initial) :=
    mapM (fun e => do v <- read h (snd e); Some (fst e, Boxes [v])) d.

  (** [[elem.name for elem in modes]], scenario.py:242. *)
  Definition name_of (c : cell) : option word := match c with Name n => Some n | Num _ => None end.
  Definition statics (s : state) : option (dict word (list word)) :=
    mapM (fun e => do l <- nth_error (inner (hp s)) (snd e); do ns <- mapM name_of l; Some (fst e, ns)) (static_dict s).
  Definition uncertains (s : state) : option (dict word (list (list cell))) :=
    mapM (fun e => do v <- read (hp s) (snd e); Some (fst e, v)) (uncertain_param_dict s).

  (** [root_from_inits], analysis_tree.py:122-146, as called in scenario.py:236-247 and 341-356. *)
  Definition root_from_inits (s : state) (init : dict word initial) (ty : node_type) : option root :=
    do sp <- statics s;
    do up <- uncertains s;
    Some (mkroot init (init_mode_dict s) sp up (map fst (agent_dict s)) ty 0 0 0).

  (** [Scenario] with the runs made so far, its engines and the generator. *)
  Record scen := mkscen { st : state; past_runs : list tree; eng : engine; gen : rng }.

  Definition type_of (k : kind) : node_type :=
    match k with Simulate | SimulateSimple => SimTrace | Verify | VerifyPartitioned => ReachTube end.

  (** The analysis itself and [self.past_runs.append(tree)], scenario.py:248-261: the tree, if none is raised. *)
  Definition run (k : kind) (a : args) (sc : scen) (init : dict word initial) : option tree * scen :=
    match root_from_inits (st sc) init (type_of k) with
    | None => (None, sc)
    | Some r =>
      match analyse k a (eng sc) r (length (past_runs sc)) (past_runs sc) with
      | (Some t, e) => (Some t, mkscen (st sc) (past_runs sc ++ [t]) e (gen sc))
      | (None, e) => (None, mkscen (st sc) (past_runs sc) e (gen sc))
      end
    end.

  (** [_get_init_from_agent] and [_check_init] at the start of the simulation calls, scenario.py:234-235. *)
  Definition prepare (sc : scen) : scen * bool :=
    let (s, ok) := get_init_from_agent (st sc) in
    (mkscen s (past_runs sc) (eng sc) (gen sc), ok && check_init s).

  (** [simulate], scenario.py:222-261, and [simulate_simple], 303-335, which differ in the analysis only. *)
  Definition simulate (k : kind) (a : args) (seed : option Z) (sc : scen) : option tree * scen :=
    let (sc1, ok) := prepare sc in
    if ok then
      match sample_all (hp (st sc1)) (init_dict (st sc1)) seed (gen sc1) with
      | (None, g) => (None, mkscen (st sc1) (past_runs sc1) (eng sc1) g)
      | (Some init, g) => run k a (mkscen (st sc1) (past_runs sc1) (eng sc1) g) init
      end
    else (None, sc1).

  (** The loop of [simulate_multi] over seeds, scenario.py:272-273: the trees finished, and whether all were. *)
  Fixpoint multi_loop (a : args) (seeds : list (option Z)) (sc : scen) : list tree * bool * scen :=
    match seeds with
    | [] => ([], true, sc)
    | x :: seeds' =>
      match simulate Simulate a x sc with
      | (None, sc1) => ([], false, sc1)
      | (Some t, sc1) => let '(ts, ok, sc2) := multi_loop a seeds' sc1 in (t :: ts, ok, sc2)
      end
    end.
  (** The loop over given initial states, scenario.py:275-300. *)
  Fixpoint given_loop (a : args) (l : list (dict word (list Q))) (sc : scen) : list tree * bool * scen :=
    match l with
    | [] => ([], true, sc)
    | d :: l' =>
      match run Simulate a sc (map (fun e => (fst e, Point (snd e))) d) with
      | (None, sc1) => ([], false, sc1)
      | (Some t, sc1) => let '(ts, ok, sc2) := given_loop a l' sc1 in (t :: ts, ok, sc2)
      end
    end.

  (** [simulate_multi], scenario.py:263-301. *)
  Definition simulate_multi (a : args) (given : option (list (dict word (list Q)))) (seed : option Z) (num_sims : nat)
      (sc : scen) : list tree * bool * scen :=
    let (sc1, ok) := prepare sc in
    if ok then
      match given with
      | None => multi_loop a (map (fun i => match seed with Some z => Some (z + Z.of_nat i)%Z | None => None end) (seq 0 num_sims)) sc1
      | Some l => given_loop a l sc1
      end
    else ([], false, sc1).

  (** [verify], scenario.py:337-372, and [verify_partitioned], 374-421. *)
  Definition verify (k : kind) (a : args) (sc : scen) : option tree * scen :=
    if check_init (st sc) then
      match boxes_all (hp (st sc)) (init_dict (st sc)) with
      | None => (None, sc)
      | Some init => run k a sc init
      end
    else (None, sc).

  (** [cleanup_cache], scenario.py:70-73. *)
  Definition cleanup_cache (sc : scen) : scen := mkscen (st sc) [] fresh_engine (gen sc).

  (** A call of the user's program: on the scenario, on one of its agents, or making a list. *)
  Inductive call :=
  | CMap (lanes : list word)
  | CAdd (ag : agent)
  | CSet (id : word) (o : nat) (mode : list word) (static uncertain : option nat)
  | CAgent (id : word) (o : nat) (mode : list word) (static uncertain : option nat)
  | CNewInner (l : list cell)
  | CNewOuter (rows : list nat)
  | CSimulate (a : args) (seed : option Z)
  | CSimple (a : args) (seed : option Z)
  | CMulti (a : args) (given : option (list (dict word (list Q)))) (seed : option Z) (num_sims : nat)
  | CVerify (a : args)
  | CPartitioned (a : args)
  | CClean.

  Definition on_state (sc : scen) (s : state) : scen := mkscen s (past_runs sc) (eng sc) (gen sc).
  Definition single (r : option tree * scen) : list tree * bool * scen :=
    match r with (Some t, sc) => ([t], true, sc) | (None, sc) => ([], false, sc) end.
  Definition heap_step (s : state) (h : heap) : state :=
    mkstate h (agent_dict s) (init_dict s) (init_mode_dict s) (static_dict s) (uncertain_param_dict s) (map_lanes s).

  (** The trees a call finished, whether it returned normally, and the scenario afterwards. *)
  Definition do_call (sc : scen) (c : call) : list tree * bool * scen :=
    match c with
    | CMap lanes => ([], true, on_state sc (set_map (st sc) lanes))
    | CAdd ag => match add_agent (st sc) ag with Some s => ([], true, on_state sc s) | None => ([], false, sc) end
    | CSet id o m x u => let (s, ok) := set_init_single (st sc) id o m x u in ([], ok, on_state sc s)
    | CAgent id o m x u =>
      match agent_set_initial (st sc) id o m x u with Some s => ([], true, on_state sc s) | None => ([], false, sc) end
    | CNewInner l => ([], true, on_state sc (heap_step (st sc) (fst (new_inner (hp (st sc)) l))))
    | CNewOuter rows => ([], true, on_state sc (heap_step (st sc) (fst (new_outer (hp (st sc)) rows))))
    | CSimulate a seed => single (simulate Simulate a seed sc)
    | CSimple a seed => single (simulate SimulateSimple a seed sc)
    | CMulti a given seed n => simulate_multi a given seed n sc
    | CVerify a => single (verify Verify a sc)
    | CPartitioned a => single (verify VerifyPartitioned a sc)
    | CClean => ([], true, cleanup_cache sc)
    end.

  Definition new_scen (h : heap) (g : rng) : scen := mkscen (new_scenario h) [] fresh_engine g.
End Runs.
