(** What an agent should see, for SensorProps.v. *)
From Coq Require Import Ascii String.
From Verif Require Import Base Dict PyText Sensor.
Set Implicit Arguments.
Open Scope nat_scope.

(** The agents other than [me], in the order of the scenario. *)
Definition others {S} (me : nat) (states : dict nat S) : list S :=
  map snd (filter (fun p => negb (fst p =? me)) states).

(** Dictionary [d] binds every variable of the list [names] of object [thing] by [bound], given its position. *)
Definition binds {V} (d : dict word (entry V)) (thing : word) (names : list word) (bound : nat -> entry V -> Prop) : Prop :=
  forall j x, nth_error names j = Some x -> exists e, dget word_eqb (thing ++ w "." ++ x) d = Some e /\ bound j e.
(** ... to the value of agent [a] at that position *)
Definition is_value {S V} (get : S -> list V) (a : S) (j : nat) (e : entry V) : Prop :=
  exists v, e = One v /\ nth_error (get a) j = Some v.
(** ... to the list of the values of the agents [l] at that position, agent by agent. *)
Definition are_values {S V} (get : S -> list V) (l : list S) (j : nat) (e : entry V) : Prop :=
  exists vs, e = Many vs /\ Forall2 (fun a v => nth_error (get a) j = Some v) l vs.
(** Nothing else is bound. *)
Definition binds_only {V} (d : dict word (entry V)) (l : list (word * list word)) : Prop :=
  forall k, dget word_eqb k d <> None -> exists thing names x, In (thing, names) l /\ In x names /\ k = thing ++ w "." ++ x.

(** The values of an agent: continuous (through [values], see Sensor.v), discrete and static. *)
Section Agent.
  Variables St V D : Type.
  Variable values : St -> option (list V).
  Definition cont_of (a : astate St D) : list V := match values (fst (fst a)) with Some l => l | None => [] end.
  Definition mode_of (a : astate St D) : list D := snd (fst a).
  Definition stat_of (a : astate St D) : list D := snd a.
  (** The agent has as many values as the state type has variables. *)
  Definition fits (sd : sdef) (a : astate St D) : Prop :=
    values (fst (fst a)) <> None /\ length (s_cont sd) <= length (cont_of a) /\
    length (s_disc sd) <= length (mode_of a) /\ length (s_stat sd) <= length (stat_of a).
End Agent.
Arguments mode_of {St D}.
Arguments stat_of {St D}.
