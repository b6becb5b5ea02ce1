(** Running a controller directly: verse/analysis/simulator.py [pack_env], [convertStrToEnum], [convertEnumToStr],
    [disc_field] and the body of the loop over the agents in [get_transition_simulate_simple].

    A Python namespace is a dictionary from field names to values.  The controller is any function of its arguments;
    it is assumed to leave them unchanged (the usual [output = copy.deepcopy(ego)]).  An exception is [None]. *)
From Coq Require Import Ascii String.
From Verif Require Import Base Dict PyText Sensor.
Set Implicit Arguments.
Open Scope nat_scope.

(** Numbers, strings, members of an enumeration, lists. *)
Inductive pyval := Num (q : Q) | Str (s : word) | Mem (cls s : word) | Lst (l : list pyval).
Notation ns := (dict word pyval).

(** LambdaArg, parser/parser.py 197-201, and StateDef, parser/parser.py 55-63 (the types of static variables are not used). *)
Record larg := mk_larg { l_name : word; l_typ : option word; l_list : bool }.
Record fdef := mk_fdef { f_vars : sdef; f_types : list word }.
Definition to_arg (a : larg) : arg := mk_arg (l_name a) (l_typ a).

(** What a controller returns: a namespace; a failed assertion with its arguments; or another exception. *)
Inductive outcome := Ret (n : ns) | Failed (label : option word) | Raises.
(** An argument of the controller: the map, a namespace, a list of namespaces. *)
Inductive argval := AMap | ANs (n : ns) | AList (l : list ns).

(** An agent: the arguments, state types and enumerations of its controller file, the controller, and whether the
    parser found a path in it. *)
Record cagent := mk_cagent {
  c_args : list larg;
  c_defs : dict word fdef;
  c_enums : dict word (list word);
  c_logic : list argval -> outcome;
  c_paths : bool }.

(** [k1, k2 = k.split(".")], simulator.py 50; [None] unless there is exactly one dot. *)
Fixpoint split_dot (k : word) : option (word * word) :=
  match k with
  | [] => None
  | c :: r =>
    if Ascii.eqb c "."%char then if existsb (Ascii.eqb "."%char) r then None else Some ([], r)
    else do p <- split_dot r; Some (c :: fst p, snd p)
  end.

(** A sensed entry as a Python value. *)
Definition value_of (e : entry pyval) : pyval := match e with One v => v | Many l => Lst l end.

(** The loop of simulator.py 48-51: [packed[k1][k2] = v]. *)
Definition pack1 (d : dict word ns) (kv : word * entry pyval) : option (dict word ns) :=
  do p <- split_dot (fst kv);
  Some (dalter word_eqb (fun o => dset word_eqb (snd p) (value_of (snd kv)) (match o with Some n => n | None => [] end)) (fst p) d).
Definition pack (cont disc : dict word (entry pyval)) : option (dict word ns) :=
  do d <- fold_opt pack1 cont []; fold_opt pack1 disc d.

(** [zip] of the columns as rows: as many as the shortest column has. *)
Fixpoint zip_rows {A} (n : nat) (cols : list (list A)) : list (list A) :=
  match n with
  | 0 => []
  | S n' => match mapM (fun c : list A => hd_error c) cols with Some r => r :: zip_rows n' (map (@tl A) cols) | None => [] end
  end.
Definition zip_cols {A} (cols : list (list A)) : list (list A) :=
  match cols with [] => [] | c :: _ => zip_rows (length c) cols end.
Definition as_list (v : pyval) : option (list pyval) := match v with Lst l => Some l | _ => None end.

(** pack_env, simulator.py 43-73: the value of an argument in [env]; [None] is a missing key or an exception. *)
Definition env_of (packed : dict word ns) (a : larg) : option argval :=
  if occurs (w "map") (l_name a) then Some AMap
  else match dget word_eqb (l_name a) packed with
       | Some n =>
         if l_list a
         then do cols <- mapM (fun kv => as_list (snd kv)) n;
              Some (AList (map (fun r => combine (map fst n) r) (zip_cols cols)))
         else Some (ANs n)
       | None => if l_list a then Some (AList []) else None
       end.
(** [packed[EGO]], simulator.py 52; [packed] is a defaultdict. *)
Definition ego_of (packed : dict word ns) : ns := match dget word_eqb (w "ego") packed with Some n => n | None => [] end.

Definition index_of (l : list word) (x : word) : option nat :=
  (fix go l i := match l with [] => None | y :: r => if word_eqb x y then Some i else go r (S i) end) l 0.

(** convertStrToEnum, simulator.py 148-157: one field, through all state types; [None]: no such enumeration or member. *)
Definition convert1 (enums : dict word (list word)) (x : word) (v : pyval) (d : fdef) : option pyval :=
  match index_of (s_disc (f_vars d)) x with
  | None => Some v
  | Some i =>
    do cls <- nth_error (f_types d) i;
    do ms <- dget word_eqb cls enums;
    match v with Str s => if existsb (word_eqb s) ms then Some (Mem cls s) else None | _ => None end
  end.
Definition convert (defs : dict word fdef) (enums : dict word (list word)) (n : ns) : option ns :=
  mapM (fun kv => do v <- fold_opt (fun v d => convert1 enums (fst kv) v d) (map snd defs) (snd kv); Some (fst kv, v)) n.

(** convertEnumToStr, simulator.py 160-166. *)
Definition to_str (v : pyval) : pyval := match v with Mem _ s => Str s | _ => v end.
(** disc_field, simulator.py 169-174. *)
Definition disc_field (defs : dict word fdef) (x : word) : bool :=
  existsb (fun d => existsb (word_eqb x) (s_disc (f_vars (snd d)))) defs.

(** Equality of values and namespaces ([env[EGO] != output], simulator.py 852). *)
Fixpoint val_eqb (a b : pyval) : bool :=
  match a, b with
  | Num p, Num q => Qeq_bool p q
  | Str s, Str t => word_eqb s t
  | Mem c s, Mem c' s' => word_eqb c c' && word_eqb s s'
  | Lst l, Lst m => (fix go l m := match l, m with [], [] => true | x :: l', y :: m' => val_eqb x y && go l' m' | _, _ => false end) l m
  | _, _ => false
  end.
Definition ns_eqb (a b : ns) : bool :=
  (length a =? length b) &&
  forallb (fun kv => match dget word_eqb (fst kv) b with Some v => val_eqb (snd kv) v | None => false end) a.

(** The state of an agent at a row: the row (time first), the mode and the static parameters. *)
Notation cstate := (astate (list pyval) pyval).

(** The arguments of the call, simulator.py 823-845: the sensed values are packed, the strings of discrete variables
    turned into members of their enumerations.  The first component is [env[EGO]] after that.  (The attributes of
    a map object are assumed not to be named like discrete variables.) *)
Definition controller_args (ag : cagent) (me : nat) (states : dict nat cstate) : option (ns * list argval) :=
  do vw <- sense (@values2 pyval) (map to_arg (c_args ag)) (map (fun p => (fst p, f_vars (snd p))) (c_defs ag)) me states;
  do packed <- pack (fst (fst vw)) (snd (fst vw));
  let conv := convert (c_defs ag) (c_enums ag) in
  do ego' <- (if existsb (fun a => word_eqb (l_name a) (w "ego")) (c_args ag) then conv (ego_of packed) else Some (ego_of packed));
  do l <- mapM (fun a =>
      if word_eqb (l_name a) (w "ego") then Some (ANs ego')
      else do v <- env_of packed a;
           match v with
           | AMap => Some AMap
           | ANs n => do n' <- conv n; Some (ANs n')
           | AList ns => do ns' <- mapM conv ns; Some (AList ns')
           end) (c_args ag);
  Some (ego', l).

(** What an agent does in a state. *)
Inductive reaction := Stay | Move (dest next : list pyval) | Fail (label : word).

(** Destination and next initial state from the returned namespace, simulator.py 854-861. *)
Definition split_output (ag : cagent) (ego out : ns) : option (list pyval * list pyval) :=
  do vs <- mapM (fun kv => do v <- dget word_eqb (fst kv) out; Some (fst kv, to_str v)) ego;
  Some (map snd (filter (fun kv => disc_field (c_defs ag) (fst kv)) vs),
        map snd (filter (fun kv => negb (disc_field (c_defs ag) (fst kv))) vs)).

(** The body of the loop over the agents, simulator.py 816-869.  A failed assertion without a label raises (868). *)
Definition react (ag : cagent) (me : nat) (states : dict nat cstate) : option reaction :=
  do p <- controller_args ag me states;
  match c_logic ag (snd p) with
  | Ret out =>
    if ns_eqb (fst p) out then Some Stay
    else do r <- split_output ag (fst p) out; Some (Move (fst r) (snd r))
  | Failed (Some l) => Some (Fail l)
  | Failed None => None
  | Raises => None
  end.

(** The agents looked at: [agent_guard_dict], simulator.py 789-804. *)
Definition watched (ag : cagent) : bool :=
  match c_args ag with [] => false | _ => c_paths ag end.
