(** Setting up a scenario: verse/scenario/scenario.py [add_agent], [set_map], [set_init_single], [set_init],
    [_check_init], and the setters of verse/agents/base_agent.py, over a heap of mutable Python lists.

    Simplifications: the heap has two kinds of lists, [inner] lists of numbers or names, and [outer] lists of
    references to inner lists; initial sets and uncertain parameters are outer lists, static parameters are
    inner lists.  Modes are tuples of names (immutable).  Of an agent's decision logic only the mode lists, the
    first state definition's variable counts and whether it equals the empty logic are kept.  A reference
    outside the heap does not exist in Python; operations on one return [None].  [set_init]'s prints are left
    out. *)
From Coq Require Import Ascii String.
From Verif Require Import Base PyText Dict LaneMap3d.
Set Implicit Arguments.
Open Scope nat_scope.

Inductive cell := Num (q : Q) | Name (s : word).

Record heap := mkheap { inner : list (list cell); outer : list (list nat) }.

Definition new_inner (h : heap) (l : list cell) : heap * nat :=
  (mkheap (inner h ++ [l]) (outer h), length (inner h)).
Definition new_outer (h : heap) (rows : list nat) : heap * nat :=
  (mkheap (inner h) (outer h ++ [rows]), length (outer h)).

(** The rows of [copy.deepcopy(l)]: an inner list met before is not copied again ([memo]). *)
Fixpoint copy_rows (memo : dict nat nat) (rows : list nat) (inn : list (list cell)) : option (list nat * list (list cell)) :=
  match rows with
  | [] => Some ([], inn)
  | a :: rows' =>
    match dget Nat.eqb a memo with
    | Some b => do r <- copy_rows memo rows' inn; Some (b :: fst r, snd r)
    | None =>
      do l <- nth_error inn a;
      do r <- copy_rows ((a, length inn) :: memo) rows' (inn ++ [l]);
      Some (length inn :: fst r, snd r)
    end
  end.

(** [copy.deepcopy] of an outer list, and of an inner one. *)
Definition deepcopy (h : heap) (o : nat) : option (heap * nat) :=
  do rows <- nth_error (outer h) o;
  do r <- copy_rows [] rows (inner h);
  Some (new_outer (mkheap (snd r) (outer h)) (fst r)).
Definition deepcopy_flat (h : heap) (a : nat) : option (heap * nat) :=
  do l <- nth_error (inner h) a; Some (new_inner h l).

(** [BaseAgent], base_agent.py:33-41, and the parts of its decision logic that set-up looks at. *)
Record agent := mkagent {
  aid : word;
  has_logic : bool;                         (** decision_logic != decision_logic.empty() *)
  first_def : option (nat * nat);           (** lengths of .cont and .disc of the first state definition *)
  mode_defs : dict word (list word);        (** decision_logic.mode_defs[...].modes *)
  init_cont : option nat;
  init_disc : option (list word);
  static_parameters : option nat;
  uncertain_parameters : option nat }.

Definition with_modes (ag : agent) (d : dict word (list word)) : agent :=
  mkagent (aid ag) (has_logic ag) (first_def ag) d (init_cont ag) (init_disc ag) (static_parameters ag) (uncertain_parameters ag).
Definition with_initial (ag : agent) (i : nat) (m : list word) (s u : option nat) : agent :=
  mkagent (aid ag) (has_logic ag) (first_def ag) (mode_defs ag) (Some i) (Some m) s u.

(** [Scenario], scenario.py:55-68, with the heap. *)
Record state := mkstate {
  hp : heap;
  agent_dict : dict word agent;
  init_dict : dict word nat;
  init_mode_dict : dict word (list word);
  static_dict : dict word nat;
  uncertain_param_dict : dict word nat;
  map_lanes : option (list word) }.         (** keys of map.lane_dict; None is map = None *)

Definition Track : word := w "TrackMode".

(** One turn of [_update_agent_lane_mode], scenario.py:113-119. *)
Definition update_lane (d : dict word (list word)) (lane : word) : dict word (list word) :=
  match dget word_eqb Track d with
  | Some ms => if existsb (word_eqb lane) ms then d else dset word_eqb Track (ms ++ [lane]) d
  | None => d
  end.
(** [_update_agent_lane_mode], scenario.py:113-119. *)
Definition update_agent_lane_mode (ag : agent) (lanes : list word) : agent :=
  with_modes ag (fold_left update_lane lanes (mode_defs ag)).

Definition put {V} (k : word) (v : V) (d : dict word V) : dict word V := dset word_eqb k v d.

(** Copy of an optional list: [if hasattr(...) and ... is not None: d[id] = deepcopy(...)], else nothing. *)
Definition copy_opt (h : heap) (o : option nat) : option (heap * option nat) :=
  match o with
  | None => Some (h, None)
  | Some x => do r <- deepcopy h x; Some (fst r, Some (snd r))
  end.

(** [self.static_dict[agent.id] = deepcopy(static_parameters)], else [[]], scenario.py:103-106. *)
Definition copy_flat_or_empty (h : heap) (o : option nat) : option (heap * nat) :=
  match o with
  | None => Some (new_inner h [])
  | Some x => deepcopy_flat h x
  end.
(** scenario.py:107-110. *)
Definition copy_or_empty (h : heap) (o : option nat) : option (heap * nat) :=
  match o with
  | None => Some (new_outer h [])
  | Some x => deepcopy h x
  end.

(** [add_agent], scenario.py:92-110. *)
Definition add_agent (s : state) (ag0 : agent) : option state :=
  let ag := match map_lanes s with Some lanes => update_agent_lane_mode ag0 lanes | None => ag0 end in
  do c <- copy_opt (hp s) (init_cont ag);
  do st <- copy_flat_or_empty (fst c) (static_parameters ag);
  do un <- copy_or_empty (fst st) (uncertain_parameters ag);
  Some (mkstate (fst un)
          (put (aid ag) ag (agent_dict s))
          (match snd c with Some o => put (aid ag) o (init_dict s) | None => init_dict s end)
          (match init_disc ag with Some m => put (aid ag) m (init_mode_dict s) | None => init_mode_dict s end)
          (put (aid ag) (snd st) (static_dict s))
          (put (aid ag) (snd un) (uncertain_param_dict s))
          (map_lanes s)).

(** [set_map], scenario.py:84-90. *)
Definition set_map (s : state) (lanes : list word) : state :=
  mkstate (hp s) (map (fun e => (fst e, update_agent_lane_mode (snd e) lanes)) (agent_dict s))
    (init_dict s) (init_mode_dict s) (static_dict s) (uncertain_param_dict s) (Some lanes).

(** The assertions of [set_init_single], scenario.py:128-144. *)
Definition init_accepted (h : heap) (ag : agent) (rows : list nat) (mode : list word) : bool :=
  ((length rows =? 1) || (length rows =? 2)) &&
  (if has_logic ag then
     match first_def ag with
     | Some (nc, nd) =>
       forallb (fun a => match nth_error (inner h) a with Some l => length l =? nc | None => false end) rows &&
       (length mode =? nd)
     | None => false                        (** [list(...)[0]]: IndexError *)
     end
   else true).

(** [if static:] – the argument is given and not empty. *)
Definition truthy {A} (store : list (list A)) (o : option nat) : option nat :=
  match o with
  | Some a => match nth_error store a with Some (_ :: _) => Some a | _ => None end
  | None => None
  end.

(** scenario.py:145-160, after the assertions. *)
Definition store_init (s : state) (id : word) (ag : agent) (o : nat) (rows : list nat) (mode : list word)
    (static uncertain : option nat) : option state :=
  (* if len(init) == 1: init = init + init *)
  let (h0, i) := if length rows =? 1 then new_outer (hp s) (rows ++ rows) else (hp s, o) in
  do c <- deepcopy h0 i;                              (* self.init_dict[agent_id] = deepcopy(init) *)
  do a <- deepcopy (fst c) i;                         (* agent.set_initial(init, init_mode) *)
  (* if static: two copies, else [] *)
  do st <- match truthy (inner (fst a)) static with
           | Some x => do p <- deepcopy_flat (fst a) x; do q <- deepcopy_flat (fst p) x; Some (fst q, snd p, Some (snd q))
           | None => let (h, p) := new_inner (fst a) [] in Some (h, p, None)
           end;
  let h2 := fst (fst st) in
  (* if uncertain_param: two copies, else [] *)
  do un <- match truthy (outer h2) uncertain with
           | Some x => do p <- deepcopy h2 x; do q <- deepcopy (fst p) x; Some (fst q, snd p, Some (snd q))
           | None => let (h, p) := new_outer h2 [] in Some (h, p, None)
           end;
  Some (mkstate (fst (fst un))
          (put id (with_initial ag (snd a) mode (snd st) (snd un)) (agent_dict s))
          (put id (snd c) (init_dict s))
          (put id mode (init_mode_dict s))
          (put id (snd (fst st)) (static_dict s))
          (put id (snd (fst un)) (uncertain_param_dict s))
          (map_lanes s)).

(** [set_init_single], scenario.py:124-160: the state afterwards, and whether it returned normally. *)
Definition set_init_single (s : state) (id : word) (o : nat) (mode : list word) (static uncertain : option nat) : state * bool :=
  match dget word_eqb id (agent_dict s), nth_error (outer (hp s)) o with
  | Some ag, Some rows =>
    if init_accepted (hp s) ag rows mode then
      match store_init s id ag o rows mode static uncertain with
      | Some s' => (s', true)
      | None => (s, false)
      end
    else (s, false)
  | _, _ => (s, false)
  end.

(** The loop of [set_init], scenario.py:188-192: an exception ends it, earlier agents stay set. *)
Fixpoint set_init_loop (s : state) (l : list (word * (nat * list word * option nat * option nat))) : state * bool :=
  match l with
  | [] => (s, true)
  | (id, (o, m, st, un)) :: l' =>
    let (s', ok) := set_init_single s id o m st un in
    if ok then set_init_loop s' l' else (s', false)
  end.

(** [set_init], scenario.py:166-192. *)
Definition set_init (s : state) (inits : list nat) (modes : list (list word)) (statics uncertains : list (option nat)) : state * bool :=
  let n := length (agent_dict s) in
  if (length inits =? n) && (length modes =? n) &&
     ((length statics =? n) || (length statics =? 0)) && ((length uncertains =? n) || (length uncertains =? 0)) then
    let statics := if length statics =? 0 then repeat None n else statics in
    let uncertains := if length uncertains =? 0 then repeat None n else uncertains in
    set_init_loop s (combine (map fst (agent_dict s)) (combine (combine (combine inits modes) statics) uncertains))
  else (s, false).

(** [_check_init], scenario.py:194-204: the assertions before simulate and verify. *)
Definition check_init (s : state) : bool :=
  forallb (fun e => dmem word_eqb (fst e) (init_dict s) && dmem word_eqb (fst e) (init_mode_dict s)
                    && dmem word_eqb (fst e) (static_dict s) && dmem word_eqb (fst e) (uncertain_param_dict s)) (agent_dict s).

(** [Scenario()], scenario.py:55-68: no agents, an empty map. *)
Definition new_scenario (h : heap) : state := mkstate h [] [] [] [] [] (Some []).
