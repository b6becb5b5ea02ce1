(** What a run of simulate_simple should be, for SimpleSimProps.v. *)
From Coq Require Import Ascii String.
From Verif Require Import Base Dict PyText Sensor Round SimpleEnv SimpleSim.
Set Implicit Arguments.
Open Scope nat_scope.

Section Spec.
  Variable agents : list cagent.
  Variable statics : list (list pyval).
  Variable trace_of : nat -> list pyval -> list pyval -> Q -> option (list vec).
  Variable horizon : Q.
  Variable max_height : option nat.

  (** The time left at a node, rounded to ten digits. *)
  Definition time_left (nd : cnode) : Q := py_round 10 (horizon - k_start nd).
  (** Nodes that are not simulated: at the depth limit, or without time left. *)
  Definition over (nd : cnode) : Prop := (exists h, max_height = Some h /\ h <= S (k_height nd)) \/ (time_left nd <= 0)%Q.

  (** [trs] are the trajectories of all agents from the node's initial states, its start time added to the times. *)
  Definition later (t : Q) (row : vec) : vec := match row with [] => [] | x :: r => (x + t)%Q :: r end.
  Definition simulated (nd : cnode) (trs : list (list vec)) : Prop :=
    length trs = length agents /\
    forall a, a < length agents -> exists m i t, nth_error (k_mode nd) a = Some m /\ nth_error (k_init nd) a = Some i /\
      trace_of a m i (time_left nd) = Some t /\ nth_error trs a = Some (map (later (k_start nd)) t).

  (** The states of all agents at row [i]. *)
  Definition states_of (trs : list (list vec)) (ms : list (list pyval)) (i : nat) (st : dict nat cstate) : Prop :=
    length st = length agents /\
    forall a, a < length agents -> exists t r m s, nth_error trs a = Some t /\ nth_error t i = Some r /\ nth_error ms a = Some m /\
      nth_error statics a = Some s /\ nth_error st a = Some (a, (map Num r, m, s)).

  (** What the controller of agent [a] does at row [i] (see SimpleEnvProps.v for [react]); agents without a path in
      their decision logic are not asked. *)
  Definition does (trs : list (list vec)) (ms : list (list pyval)) (i a : nat) (r : reaction) : Prop :=
    exists ag st, nth_error agents a = Some ag /\ watched ag = true /\ states_of trs ms i st /\ react ag a st = Some r.
  (** No controller does anything before row [n]. *)
  Definition calm (trs : list (list vec)) (ms : list (list pyval)) (n : nat) : Prop :=
    forall i a r, i < n -> does trs ms i a r -> r = Stay.

  (** Node [ch] continues node [nd] from row [n]: it starts at the time of that row; the agents that move start from
      their new mode and state, the others from their state at that row. *)
  Definition continues (nd : cnode) (trs : list (list vec)) (n : nat) (ch : cnode) : Prop :=
    k_height ch = S (k_height nd) /\
    (exists tr row t, nth_error trs 0 = Some tr /\ nth_error tr n = Some row /\ nth_error row 0 = Some t /\ k_start ch = py_round 10 t) /\
    length (k_init ch) = length agents /\ length (k_mode ch) = length (k_mode nd) /\
    forall a, a < length agents ->
      (forall d s, does trs (k_mode nd) n a (Move d s) -> nth_error (k_mode ch) a = Some d /\ nth_error (k_init ch) a = Some s) /\
      ((forall d s, ~ does trs (k_mode nd) n a (Move d s)) -> nth_error (k_mode ch) a = nth_error (k_mode nd) a /\
         exists tr row, nth_error trs a = Some tr /\ nth_error tr n = Some row /\ nth_error (k_init ch) a = Some (map Num (tl row))).

  (** Node [nd], with number [k], and its successor if there is one. *)
  Definition node_ok (k : nat) (nd : cnode) (next : option cnode) : Prop :=
    k_child nd = match next with Some _ => [S k] | None => [] end /\
    (over nd /\ next = None /\ k_hits nd = Some [] \/
     ~ over nd /\ exists trs tr0, simulated nd trs /\ nth_error trs 0 = Some tr0 /\ 0 < length tr0 /\
       (calm trs (k_mode nd) (length tr0) /\ k_trace nd = map Some trs /\ k_hits nd = None /\ next = None \/
        exists n, n < length tr0 /\ calm trs (k_mode nd) n /\ k_trace nd = map (fun t => Some (firstn (n + 1) t)) trs /\
          ((exists a l, does trs (k_mode nd) n a (Fail l)) /\ next = None /\
             (exists hs, k_hits nd = Some hs /\ forall a l, In (a, l) hs <-> does trs (k_mode nd) n a (Fail l)) \/
           (forall a l, ~ does trs (k_mode nd) n a (Fail l)) /\ (exists a d s, does trs (k_mode nd) n a (Move d s)) /\
             k_hits nd = None /\ exists ch, next = Some ch /\ continues nd trs n ch))).

  (** No controller changes anything in the very first row of node [nd]. *)
  Definition settled (nd : cnode) : Prop :=
    forall trs a d s, simulated nd trs -> ~ does trs (k_mode nd) 0 a (Move d s).
  (** Controllers come to rest: after every first transition at a row of a node, the node that continues it is settled. *)
  Definition comes_to_rest : Prop :=
    forall nd trs n ch, simulated nd trs -> calm trs (k_mode nd) n -> (exists a d s, does trs (k_mode nd) n a (Move d s)) ->
      continues nd trs n ch -> settled ch.
  (** Trajectories start at time 0, and later rows have a time of at least [dt]. *)
  Definition rows_from (dt : Q) : Prop :=
    forall a m i T t j x r, trace_of a m i T = Some t -> nth_error t j = Some (x :: r) -> ((0 <= x)%Q /\ (0 < j -> (dt <= x)%Q)).
End Spec.
