(** What a controller should be given, for SimpleEnvProps.v. *)
From Coq Require Import Ascii String.
From Verif Require Import Base Dict PyText Sensor SensorSpec SimpleEnv.
Set Implicit Arguments.
Open Scope nat_scope.

(** The names of all variables of a state type. *)
Definition names (d : fdef) : list word := s_cont (f_vars d) ++ s_disc (f_vars d) ++ s_stat (f_vars d).

(** An agent as its controller should see it: each continuous variable has the number in the agent's state (after the
    time), each discrete one the member of its enumeration, each static one its parameter. *)
Definition member (t : word) (v : pyval) : pyval := match v with Str s => Mem t s | _ => v end.
Definition seen (d : fdef) (a : cstate) : ns :=
  combine (s_cont (f_vars d)) (tl (fst (fst a))) ++
  combine (s_disc (f_vars d)) (zipw member (f_types d) (snd (fst a))) ++
  combine (s_stat (f_vars d)) (snd a).

(** The agent's values fit the state type: enough of them, and each mode a member of the enumeration declared for it. *)
Definition well_typed (enums : dict word (list word)) (d : fdef) (a : cstate) : Prop :=
  length (s_cont (f_vars d)) <= length (tl (fst (fst a))) /\
  length (s_disc (f_vars d)) <= length (snd (fst a)) /\
  length (s_stat (f_vars d)) <= length (snd a) /\
  length (f_types d) = length (s_disc (f_vars d)) /\
  forall j t, nth_error (f_types d) j = Some t ->
    exists s ms, nth_error (snd (fst a)) j = Some (Str s) /\ dget word_eqb t enums = Some ms /\ In s ms.

(** State type [t] is declared as [d], its variables have different names without dots, and no other state type has a
    discrete variable with one of these names. *)
Definition declared (defs : dict word fdef) (t : word) (d : fdef) : Prop :=
  NoDup (names d) /\ (forall x, In x (names d) -> ~ In "."%char x) /\
  exists l1 l2, defs = l1 ++ (t, d) :: l2 /\
    forall t' d' x, In (t', d') (l1 ++ l2) -> t' <> t /\ (In x (names d) -> ~ In x (s_disc (f_vars d'))).

(** The arguments of the call: the ego agent, the map, and for any other argument the list [rest]. *)
Definition call (ag : cagent) (ego : ns) (rest : list ns) : list argval :=
  map (fun a => if word_eqb (l_name a) (w "ego") then ANs ego else if occurs (w "map") (l_name a) then AMap else AList rest) (c_args ag).

(** Agent [me] of the scenario [states], of state type [d], can run its controller: its argument "ego" has that type, the
    type is declared properly and the agent's values fit it. *)
Definition has_ego (ag : cagent) (me : nat) (states : dict nat cstate) (t : word) (d : fdef) (own : cstate) : Prop :=
  NoDup (map fst states) /\ dget Nat.eqb me states = Some own /\ ego_type (map to_arg (c_args ag)) = Some t /\
  declared (c_defs ag) t d /\ well_typed (c_enums ag) d own /\ names d <> [].
(** ... its list argument for the other agents is [name], of a type [od] that all of them fit; all its other arguments are
    "ego" and maps. *)
Definition has_others (ag : cagent) (me : nat) (states : dict nat cstate) (name t : word) (d : fdef) : Prop :=
  other_arg (map to_arg (c_args ag)) = Some (name, t) /\ ~ In "."%char name /\ declared (c_defs ag) t d /\ names d <> [] /\
  (forall a, In a (others me states) -> well_typed (c_enums ag) d a) /\
  (forall a, In a (c_args ag) -> l_name a = w "ego" \/ occurs (w "map") (l_name a) = true \/ l_name a = name /\ l_list a = true).
(** ... or it has only "ego" and maps. *)
Definition no_others (ag : cagent) : Prop :=
  forall a, In a (c_args ag) -> l_name a = w "ego" \/ occurs (w "map") (l_name a) = true.

(** Equal values and namespaces. *)
Inductive same_val : pyval -> pyval -> Prop :=
| same_num p q : (p == q)%Q -> same_val (Num p) (Num q)
| same_str s : same_val (Str s) (Str s)
| same_mem c s : same_val (Mem c s) (Mem c s)
| same_lst l m : Forall2 same_val l m -> same_val (Lst l) (Lst m).
Definition same_ns (a b : ns) : Prop :=
  forall x, match dget word_eqb x a, dget word_eqb x b with
            | Some u, Some v => same_val u v | None, None => True | _, _ => False end.
(** The field [x] of [out] is [v], members of enumerations by name. *)
Definition has_field (out : ns) (x : word) (v : pyval) : Prop :=
  exists u, dget word_eqb x out = Some u /\ v = match u with Mem _ s => Str s | _ => u end.

(** The controller of agent [me], whose state is [own] of type [d], is to be called with the namespaces [rest] for the
    other agents. *)
Definition can_call (ag : cagent) (me : nat) (states : dict nat cstate) (d : fdef) (own : cstate) (rest : list ns) : Prop :=
  (exists t, has_ego ag me states t d own) /\
  (no_others ag /\ rest = [] \/ exists name t od, has_others ag me states name t od /\ rest = map (seen od) (others me states)).

(** Every field named like a discrete variable of some state type is a member of the enumeration declared for it. *)
Definition membered (ag : cagent) (n : ns) : Prop :=
  forall x v t d, In (x, v) n -> In (t, d) (c_defs ag) -> In x (s_disc (f_vars d)) ->
  exists j c s ms, nth_error (s_disc (f_vars d)) j = Some x /\ nth_error (f_types d) j = Some c /\
    v = Mem c s /\ dget word_eqb c (c_enums ag) = Some ms /\ In s ms.
