(** Lane coordinates in guards when reachable sets are star sets: verse/automaton/guard.py:150-180
    [get_agent_variable_indices], 355-596 [evaluate_guard_hybrid] with [stars].

    A coordinate is computed from the bounds of the two variables over the agent's star; the position of a variable among the
    coordinates of the star is looked up in lists of names made from the dictionary. *)
From Coq Require Import Ascii String.
From Verif Require Import Base Dict PyText Guard Sensor Star StarReset StarGuard.
Set Implicit Arguments.
Open Scope nat_scope.

(** verse/automaton/guard.py:152-157: the agents of the dictionary, except lists of agents.  [symbols] (line 378) has the
    variables in the order of the dictionary, once for each underscored name. *)
Definition index_agents (cd : sdict) : list word :=
  fold_left (fun ags kv => match snd kv with
                           | One _ => if existsb (word_eqb (before_dot (fst kv))) ags then ags else ags ++ [before_dot (fst kv)]
                           | Many _ => ags
                           end) cd [].

(** verse/automaton/guard.py:158-173: the names of an agent's variables, in the order that is taken for the order of the
    coordinates of its star. *)
Definition agent_variables (cd : sdict) (agent : word) : option (list word) :=
  if negb (existsb (Ascii.eqb "_"%char) agent) then Some (filter (occurs agent) (map fst cd))
  else fold_opt (fun vs kv => match snd kv with
                              | One _ => do a <- after_dot (fst kv);
                                         let v := agent ++ w "." ++ before_dot a in
                                         Some (if existsb (word_eqb v) vs then vs else vs ++ [v])
                              | Many _ => Some vs
                              end) cd [].
(** [get_agent_variable_indices] *)
Definition variable_indices (cd : sdict) : option (list (list word)) := mapM (agent_variables cd) (index_agents cd).

(** [list.index] *)
Fixpoint position (x : word) (l : list word) : option nat :=
  match l with
  | [] => None
  | y :: l' => if word_eqb x y then Some 0 else option_map S (position x l')
  end.
(** verse/automaton/guard.py:447-452: the last list with the variable counts. *)
Definition index_of (avs : list (list word)) (x : word) : option nat :=
  fold_left (fun i l => match position x l with Some j => Some j | None => i end) avs None.

Section Lane.
  Variable linprog : bool -> vec -> list vec -> vec -> lp.
  Variable call : word -> list dval -> option dval.
  Variable dd : dict word word.
  Variable phys : word -> word.
  (** The interval computed for a coordinate from two intervals (verse/automaton/guard.py:457-475, 525-552). *)
  Variable coord_set : bool -> word -> Q * Q -> Q * Q -> option (Q * Q).
  Variable solve : list word -> form -> list lin -> verdict.

  (** An entry of the dictionary together with its name; the entries the code makes up have none. *)
  Notation named := (option word * entry star)%type.

  (** verse/automaton/guard.py:444-453: the bounds of a variable.  A list of stars has no [get_max_min].  A variable the code made
      up as the argument of a coordinate is an error in the model (in the code its index is -1). *)
  Definition bounds_in (avs : list (list word)) (v : named) : option (Q * Q) :=
    match v with
    | (Some x, One s) => do i <- index_of avs x; get_max_min linprog s i
    | _ => None
    end.
  (** verse/automaton/guard.py:454-481: the coordinate becomes a star in one dimension. *)
  Definition lane_star (avs : list (list word)) (lat : bool) (lane : word) (x y : named) : option named :=
    do bx <- bounds_in avs x;
    do by_ <- bounds_in avs y;
    do iv <- coord_set lat lane bx by_;
    do s <- rect_to_star [fst iv] [snd iv];
    Some (None, One s).

  Definition with_names (cd : sdict) : dict word named := map (fun kv => (fst kv, (Some (fst kv), snd kv))) cd.
  Definition without_names (cd : dict word named) : sdict := map (fun kv => (fst kv, snd (snd kv))) cd.

  (** verse/analysis/verifier.py:1036-1041, then 1155-1168, for any guard. *)
  Definition lane_check (cd : sdict) (e : gex) : option (bool * bool) :=
    do p <- disc call dd e;
    if truthy (fst p) then
      do avs <- variable_indices cd;
      do r <- hyb dd phys (lane_star avs) (with_names cd) (snd p);
      if truthy (hr_val r) then star_cont solve (without_names (hr_cd r)) (hr_new r) else Some (false, false)
    else Some (false, false).
End Lane.
