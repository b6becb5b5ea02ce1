(** Specification vocabulary for scenario set-up (C55, C56). *)
From Coq Require Import Ascii String.
From Verif Require Import Base PyText Dict Scenario.
Set Implicit Arguments.
Open Scope nat_scope.

(** The value of an outer list, as the caller or the scenario sees it now. *)
Definition read (h : heap) (o : nat) : option (list (list cell)) :=
  do rows <- nth_error (outer h) o; mapM (nth_error (inner h)) rows.
Definition read_flat (h : heap) (a : nat) : option (list cell) := nth_error (inner h) a.

(** What the scenario holds for an agent now. *)
Definition stored_init (s : state) (id : word) : option (list (list cell)) :=
  do o <- dget word_eqb id (init_dict s); read (hp s) o.
Definition stored_mode (s : state) (id : word) : option (list word) := dget word_eqb id (init_mode_dict s).
Definition stored_static (s : state) (id : word) : option (list cell) :=
  do a <- dget word_eqb id (static_dict s); read_flat (hp s) a.
Definition stored_uncertain (s : state) (id : word) : option (list (list cell)) :=
  do o <- dget word_eqb id (uncertain_param_dict s); read (hp s) o.

(** No list refers to a list that does not exist. *)
Definition wf (h : heap) : Prop := Forall (Forall (fun a => a < length (inner h))) (outer h).

Definition flat_ok (h : heap) (o : option nat) : Prop := match o with Some a => a < length (inner h) | None => True end.
Definition outer_ok (h : heap) (o : option nat) : Prop := match o with Some a => a < length (outer h) | None => True end.

(** A single point stands for the box with both corners there. *)
Definition as_box (v : list (list cell)) : list (list cell) := match v with [p] => [p; p] | _ => v end.

(** When the documentation says a call is accepted: the agent exists, one or two points are given, and – for an
    agent with decision logic – they have as many coordinates as it has continuous variables, and the mode as
    many components as it has discrete ones. *)
Definition acceptable (s : state) (id : word) (v : list (list cell)) (mode : list word) : Prop :=
  exists ag, dget word_eqb id (agent_dict s) = Some ag /\ (length v = 1 \/ length v = 2) /\
    (has_logic ag = true -> exists nc nd, first_def ag = Some (nc, nd) /\
       Forall (fun p => length p = nc) v /\ length mode = nd).

(** ** Histories: the user's program between and around the calls
    [EInner a l] is any in-place change of an inner list (item assignment, append, clear, sort ...), [EOuter] of
    an outer one; the user may also create lists. *)
Inductive event :=
| EMap (lanes : list word)
| EAdd (ag : agent)
| ESet (id : word) (o : nat) (mode : list word) (static uncertain : option nat)
| EInner (a : nat) (l : list cell)
| EOuter (o : nat) (rows : list nat)
| ENewInner (l : list cell)
| ENewOuter (rows : list nat).

(** A state of the history: the scenario, the addresses of lists that calls of the scenario created, and what
    was last handed in for each agent. *)
Record config := mkconfig {
  st : state;
  own_in : list nat;
  own_out : list nat;
  given : word -> option (list (list cell));
  given_static : word -> option (list cell);
  given_uncertain : word -> option (list (list cell)) }.

Definition upd {V} (f : word -> V) (k : word) (v : V) : word -> V := fun x => if word_eqb x k then v else f x.

(** The addresses created between two heaps. *)
Definition created {A} (l l' : list A) : list nat := seq (length l) (length l' - length l).

Definition or_nil {A} (o : option (list A)) : option (list A) := match o with Some l => Some l | None => Some [] end.

(** The user changes only lists that the scenario's calls did not create, passes existing lists, and does not
    write references to lists that do not exist. *)
Inductive step (c : config) : event -> config -> Prop :=
| step_map lanes :
    step c (EMap lanes) (mkconfig (set_map (st c) lanes) (own_in c) (own_out c) (given c) (given_static c) (given_uncertain c))
| step_add ag s' :
    outer_ok (hp (st c)) (init_cont ag) -> flat_ok (hp (st c)) (static_parameters ag) ->
    outer_ok (hp (st c)) (uncertain_parameters ag) ->
    add_agent (st c) ag = Some s' ->
    step c (EAdd ag) (mkconfig s'
      (own_in c ++ created (inner (hp (st c))) (inner (hp s')))
      (own_out c ++ created (outer (hp (st c))) (outer (hp s')))
      (match init_cont ag with Some o => upd (given c) (aid ag) (read (hp (st c)) o) | None => given c end)
      (upd (given_static c) (aid ag) (or_nil (do a <- static_parameters ag; read_flat (hp (st c)) a)))
      (upd (given_uncertain c) (aid ag) (or_nil (do o <- uncertain_parameters ag; read (hp (st c)) o))))
| step_set_ok id o mode static uncertain s' :
    o < length (outer (hp (st c))) -> flat_ok (hp (st c)) static -> outer_ok (hp (st c)) uncertain ->
    set_init_single (st c) id o mode static uncertain = (s', true) ->
    step c (ESet id o mode static uncertain) (mkconfig s'
      (own_in c ++ created (inner (hp (st c))) (inner (hp s')))
      (own_out c ++ created (outer (hp (st c))) (outer (hp s')))
      (upd (given c) id (do v <- read (hp (st c)) o; Some (as_box v)))
      (upd (given_static c) id (or_nil (do a <- static; read_flat (hp (st c)) a)))
      (upd (given_uncertain c) id (or_nil (do u <- uncertain; read (hp (st c)) u))))
| step_set_fail id o mode static uncertain s' :
    o < length (outer (hp (st c))) -> flat_ok (hp (st c)) static -> outer_ok (hp (st c)) uncertain ->
    set_init_single (st c) id o mode static uncertain = (s', false) ->
    step c (ESet id o mode static uncertain) (mkconfig s'
      (own_in c ++ created (inner (hp (st c))) (inner (hp s')))
      (own_out c ++ created (outer (hp (st c))) (outer (hp s')))
      (given c) (given_static c) (given_uncertain c))
| step_inner a l inn : ~ In a (own_in c) -> a < length (inner (hp (st c))) ->
    inn = set_nth a l (inner (hp (st c))) ->
    step c (EInner a l) (mkconfig
      (mkstate (mkheap inn (outer (hp (st c)))) (agent_dict (st c)) (init_dict (st c)) (init_mode_dict (st c))
         (static_dict (st c)) (uncertain_param_dict (st c)) (map_lanes (st c)))
      (own_in c) (own_out c) (given c) (given_static c) (given_uncertain c))
| step_outer o rows out : ~ In o (own_out c) -> o < length (outer (hp (st c))) ->
    Forall (fun a => a < length (inner (hp (st c)))) rows ->
    out = set_nth o rows (outer (hp (st c))) ->
    step c (EOuter o rows) (mkconfig
      (mkstate (mkheap (inner (hp (st c))) out) (agent_dict (st c)) (init_dict (st c)) (init_mode_dict (st c))
         (static_dict (st c)) (uncertain_param_dict (st c)) (map_lanes (st c)))
      (own_in c) (own_out c) (given c) (given_static c) (given_uncertain c))
| step_new_inner l :
    step c (ENewInner l) (mkconfig
      (mkstate (fst (new_inner (hp (st c)) l)) (agent_dict (st c)) (init_dict (st c)) (init_mode_dict (st c))
         (static_dict (st c)) (uncertain_param_dict (st c)) (map_lanes (st c)))
      (own_in c) (own_out c) (given c) (given_static c) (given_uncertain c))
| step_new_outer rows :
    Forall (fun a => a < length (inner (hp (st c)))) rows ->
    step c (ENewOuter rows) (mkconfig
      (mkstate (fst (new_outer (hp (st c)) rows)) (agent_dict (st c)) (init_dict (st c)) (init_mode_dict (st c))
         (static_dict (st c)) (uncertain_param_dict (st c)) (map_lanes (st c)))
      (own_in c) (own_out c) (given c) (given_static c) (given_uncertain c)).

Inductive history (c : config) : list event -> config -> Prop :=
| hist_nil : history c [] c
| hist_snoc evs e c1 c2 : history c evs c1 -> step c1 e c2 -> history c (evs ++ [e]) c2.

(** A new scenario in a program that already has some lists. *)
Definition start (h : heap) : config :=
  mkconfig (new_scenario h) [] [] (fun _ => None) (fun _ => None) (fun _ => None).
