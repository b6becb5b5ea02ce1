(** The work lists of verify and simulate: verse/analysis/verifier.py [compute_full_reachtube], [proc_result] and
    verse/analysis/simulator.py [simulate], [proc_result].

    The content of a node and the step that expands it are parameters (Step.v has the verification step).
    Python's node objects live in a heap, a list indexed by address.  Which results [ray.wait] returns first,
    and whether a node is processed locally, is left open: the loop is a relation between states.  An
    exception in a step ends the run: there is no next state. *)
From Verif Require Import Base Round.
Set Implicit Arguments.
Open Scope nat_scope.

Section Scheduler.
  Variables content trace hits : Type.
  Variable height : content -> nat.
  Variable begin : content -> Q.          (** [node.start_time] *)
  Variable max_height : option nat.       (** [None] is infinity *)
  Variable horizon : Q.
  Variable parallel : bool.
  Variable ahead : nat.                   (** [parallel_ver_ahead] / [parallel_sim_ahead] *)
  (** [true]: the loop of the verifier; [false]: that of the simulator. *)
  Variable verifying : bool.
  (** Children, trace and assertion hits of a node. *)
  Variable expand : content -> option (list content * trace * hits).

  (** A node object; [o_id = None] is the -1 of a fresh child, [o_trace = None] one that was not processed,
      [o_hits = None] the empty [assert_hits] of a new node. *)
  Record obj := mk_obj { o_content : content; o_id : option nat; o_trace : option trace; o_hits : option hits; o_child : list nat }.

  (** The heap, [self.nodes], the queue (address, [later]), and [self.result_refs].  [popped] and [finished] are
      not in the code: they record the nodes taken from the queue and those whose result was processed. *)
  Record state := mk_state { objs : list obj; nodes : list nat; queue : list (nat * nat); refs : list nat;
                             popped : list nat; finished : list nat }.

  (** verse/analysis/verifier.py:801-808, verse/analysis/simulator.py:429-436. *)
  Definition skip (c : content) : bool :=
    match max_height with Some h => h - 1 <=? height c | None => false end ||
    Qle_bool (py_round 10 (horizon - begin c)) 0.

  (** verse/analysis/verifier.py:718 and 721; the simulator has no such test. *)
  Definition extends (c : content) : bool :=
    negb verifying || match max_height with Some h => height c <=? h | None => true end.

  (** [queue.sort(key=lambda p: p[1:])], stable; [later] is 0 or 1. *)
  Definition sort_queue (q : list (nat * nat)) : list (nat * nat) :=
    filter (fun p => snd p =? 0) q ++ filter (fun p => negb (snd p =? 0)) q.

  (** verse/analysis/verifier.py:696-722 and verse/analysis/simulator.py:352-366, [proc_result]: the result of node
      [id] is stored, the children get ids and are queued.  The assertion hits are stored by the verifier's
      [proc_result]; in the simulator only a step that ran locally, on the same object, has stored them. *)
  Definition proc (st : state) (id : nat) (local : bool) (cs : list content) (tr : trace) (h : hits) : option state :=
    do a <- nth_error (nodes st) id;
    do o <- nth_error (objs st) a;
    do la <- nth_error (nodes st) (length (nodes st) - 1);
    do lo <- nth_error (objs st) la;
    do last_id <- o_id lo;
    let n := length (objs st) in
    let kids := seq n (length cs) in
    let new := map (fun p => mk_obj (snd p) (Some (fst p + 1 + last_id)) None None []) (combine (seq 0 (length cs)) cs) in
    let done := mk_obj (o_content o) (o_id o) (Some tr) (if verifying || local then Some h else o_hits o) kids in
    Some {| objs := set_nth a done (objs st) ++ new;
            nodes := if extends (o_content o) then nodes st ++ kids else nodes st;
            queue := sort_queue (queue st ++ (if extends (o_content o)
                       then map (fun p => (snd p, if fst p =? 0 then 0 else 1)) (combine (seq 0 (length cs)) kids) else []));
            refs := refs st; popped := popped st; finished := finished st ++ [a] |}.

  (** [queue.pop(0)] returned [a] and left [q]. *)
  Definition pop (st : state) (a : nat) (q : list (nat * nat)) : state :=
    {| objs := objs st; nodes := nodes st; queue := q; refs := refs st; popped := popped st ++ [a]; finished := finished st |}.
  Definition with_refs (st : state) (l : list nat) : state :=
    {| objs := objs st; nodes := nodes st; queue := queue st; refs := l; popped := popped st; finished := finished st |}.

  (** A finished task: any one of [result_refs] (verse/analysis/verifier.py:898-919, simulator.py:487-491). *)
  Inductive wait : state -> state -> Prop :=
  | Wait st l1 a l2 o id cs tr h st' :
      refs st = l1 ++ a :: l2 -> nth_error (objs st) a = Some o -> o_id o = Some id ->
      expand (o_content o) = Some (cs, tr, h) ->
      proc (with_refs st (l1 ++ l2)) id false cs tr h = Some st' ->
      wait st st'.

  (** The end of an iteration: wait if enough tasks are in flight. *)
  Inductive settle : state -> state -> Prop :=
  | Settle_go st : length (refs st) < ahead -> settle st st
  | Settle_wait st st' : ahead <= length (refs st) -> wait st st' -> settle st st'.

  (** One iteration of the loop (verse/analysis/verifier.py:795-919, verse/analysis/simulator.py:425-491). *)
  Inductive tick : state -> state -> Prop :=
  | Tick_skip st a l q o :
      queue st = (a, l) :: q -> nth_error (objs st) a = Some o -> skip (o_content o) = true ->
      tick st (pop st a q)
  | Tick_local st a l q o id cs tr h st1 st2 :
      queue st = (a, l) :: q -> nth_error (objs st) a = Some o -> skip (o_content o) = false -> o_id o = Some id ->
      expand (o_content o) = Some (cs, tr, h) ->
      proc (pop st a q) id true cs tr h = Some st1 ->
      settle st1 st2 -> tick st st2
  | Tick_remote st a l q o st2 :
      parallel = true ->
      queue st = (a, l) :: q -> nth_error (objs st) a = Some o -> skip (o_content o) = false ->
      settle (with_refs (pop st a q) (refs st ++ [a])) st2 -> tick st st2
  | Tick_wait st st2 : queue st = [] -> refs st <> [] -> wait st st2 -> tick st st2.

  Inductive run : state -> state -> Prop :=
  | Run_refl st : run st st
  | Run_step st1 st2 st3 : run st1 st2 -> tick st2 st3 -> run st1 st3.

  (** verse/analysis/verifier.py:776-778: the start, with the root created by [root_from_inits] (id 0). *)
  Definition initial (c : content) : state :=
    {| objs := [mk_obj c (Some 0) None None []]; nodes := [0]; queue := [(0, 0)]; refs := []; popped := []; finished := [] |}.

  (** The loop has ended. *)
  Definition final (st : state) : Prop := queue st = [] /\ refs st = [].
End Scheduler.
