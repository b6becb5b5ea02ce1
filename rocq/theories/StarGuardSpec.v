(** Specification vocabulary for StarGuardProps.v: agents whose states are in star sets. *)
From Coq Require Import Ascii String.
From Verif Require Import Base Dict PyText Guard GuardSpec Sensor SensorSpec Star StarSpec StarReset StarResetSpec StarGuard.
Set Implicit Arguments.
Open Scope nat_scope.

(** An agent with its set of states: the names of its state variables, in the order of the star's coordinates. *)
Record part := mk_part { p_agent : word; p_star : star; p_names : list word }.

(** What an agent knows: itself and the other agents, which are the list [oth] for its decision logic. *)
Record world := mk_world { ego_vars : list word; ego_star : star; oth : word; oth_vars : list word; oth_stars : list star }.
Definition other_agent (W : world) (i : nat) : word := oth W ++ w "_" ++ dec i.
Definition parts (W : world) : list part :=
  mk_part (w "ego") (ego_star W) (map ego_name (ego_vars W)) ::
  map (fun p => mk_part (other_agent W (fst p)) (snd p) (map (item_name (oth W) (fst p)) (oth_vars W))) (combine (seq 0 (length (oth_stars W))) (oth_stars W)).

(** [s] gives every agent a state in its star. *)
Definition in_world (W : world) (s : word -> Q) : Prop := forall p, In p (parts W) -> in_star (p_star p) (map s (p_names p)).
Definition names_of (W : world) : list word := flat_map p_names (parts W).

(** The dictionary the code makes of it: the star of the ego under each of its variables, in order; the list of the other
    stars under each variable of the list, in order; and stars of other agents under names of their variables. *)
Definition list_names (W : world) : list word := map (fun x => oth W ++ w "." ++ x) (oth_vars W).
Record sensed (W : world) (cd : sdict) : Prop := {
  se_nodup : NoDup (map fst cd);
  se_ego : filter (fun k => existsb (word_eqb k) (map ego_name (ego_vars W))) (map fst cd) = map ego_name (ego_vars W);
  se_list : map fst (filter (fun kv => match snd kv with Many _ => true | One _ => false end) cd) = if oth_stars W then [] else list_names W;
  se_one : forall k S, In (k, One S) cd -> exists p, In p (parts W) /\ In k (p_names p) /\ S = p_star p }.

(** Names: variables without dots, which stay different when dots become underscores and from the solver's coefficients;
    nothing but the ego has "ego" in its name; nothing is named like the variables the code makes up. *)
Record names_fit (W : world) (dd : dict word word) : Prop := {
  nf_dots : forall x, In x (oth W :: ego_vars W ++ oth_vars W) -> ~ In "."%char x;
  nf_dd : forall k, In k (map fst dd) -> dotted k;
  nf_nodup : NoDup (map under (names_of W ++ list_names W ++ map fst dd));
  nf_ego : forall k, In k (map under (flat_map p_names (tl (parts W)) ++ list_names W)) -> occurs (w "ego") k = false;
  nf_tmp : forall p, In p (parts W) -> occurs (w "tmp_variable") (p_agent p) = false;
  nf_alpha : forall p j, In p (parts W) -> ~ In (alpha_name (p_agent p) j) (map under (names_of W)) }.

(** The stars have the agents' dimensions. *)
Definition shapes (W : world) : Prop := forall p, In p (parts W) -> wf_star (p_star p) /\ dim (p_star p) = length (p_names p).

(** Values of solver variables that satisfy a constraint; a solver whose answers are right. *)
Definition lin_holds (m : word -> Q) (l : lin) : Prop :=
  match l with
  | LEq c row xs y => (c + inner row (map m xs) == m y)%Q
  | LLe row xs b => (inner row (map m xs) <= b)%Q
  end.
Definition star_solver_right (of_q : Q -> Q) (n_neg : Q -> Q) (n_bin : binop -> Q -> Q -> Q) (n_cmp : cmpop -> Q -> Q -> bool)
  (solve : list word -> form -> list lin -> verdict) : Prop :=
  forall keys f ls,
    match solve keys f ls with
    | Sat => exists m, Forall (lin_holds m) ls /\ holds of_q n_neg n_bin n_cmp keys m f = Some true
    | Unsat => forall m, Forall (lin_holds m) ls -> holds of_q n_neg n_bin n_cmp keys m f <> Some true
    | Unknown => True
    end.

(** The names under which the dictionary has a star. *)
Definition one_names (cd : sdict) : list word :=
  map fst (filter (fun kv => match snd kv with One _ => true | Many _ => false end) cd).

(** Some any/all in the guard goes over the list [iter] and reads attribute [a] of the iteration variable. *)
Fixpoint reads_item (e : gex) (iter a : word) : Prop :=
  match e with
  | GNeg b | GNot b => reads_item b iter a
  | GBin _ l r | GCmp _ l r => reads_item l iter a \/ reads_item r iter a
  | GBoolOp _ es => (fix any l := match l with [] => False | b :: l' => reads_item b iter a \/ any l' end) es
  | GRed _ body x it => it = iter /\ In (RAttr x a) (refs body)
  | _ => False
  end.

(** The agents of a scenario with star states (time and star): [me] with variables [vars], the others with [ovars] as [name]. *)
Definition world_of {D} (me : nat) (states : dict nat (astate (Q * star) D)) (vars : list word) (name : word) (ovars : list word) : option world :=
  option_map (fun own => mk_world vars (snd (fst (fst own))) name ovars (map (fun a => snd (fst (fst a))) (others me states)))
    (dget Nat.eqb me states).
(** The agent has as many mode values and fixed values as its state type. *)
Definition enough {D} (sd : sdef) (a : astate (Q * star) D) : Prop := length (s_disc sd) <= length (mode_of a) /\ length (s_stat sd) <= length (stat_of a).
