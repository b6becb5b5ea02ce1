(** [simulate_simple]: verse/analysis/simulator.py [simulate_simple] and [get_transition_simulate_simple].

    Agents are numbered by their position in [node.agent].  [TC_simulate] is a parameter.  Python's node objects live in
    a list indexed by address.  An exception is [None] in a step and [Raised] in a run. *)
From Coq Require Import Ascii String.
From Verif Require Import Base Dict PyText Sensor Round Step SimpleEnv.
Set Implicit Arguments.
Open Scope nat_scope.

(** A node, analysis_tree.py 91-119.  [None] in [k_trace] is an agent without an entry; [k_hits] is [assert_hits]: the empty
    dictionary of a new node, or None or a dictionary after a step. *)
Record cnode := mk_cnode {
  k_trace : list (option (list vec));
  k_init : list (list pyval);
  k_mode : list (list pyval);
  k_start : Q;
  k_height : nat;
  k_hits : option (dict nat word);
  k_child : list nat }.

(** How a run ends: all nodes processed, an exception, or not within the given number of iterations. *)
Inductive ending := Done (objs : list cnode) | Raised | Running.

(** A transition: agent, destination, next initial state (the list of paths is empty), simulator.py 862. *)
Notation cmove := (nat * (list pyval * list pyval))%type.

Section Simple.
  Variable agents : list cagent.
  Variable statics : list (list pyval).
  Variable trace_of : nat -> list pyval -> list pyval -> Q -> option (list vec).
  Variable horizon : Q.
  Variable max_height : option nat.

  (** [state_dict] at a row, simulator.py 809-811. *)
  Definition states_at (trs : list (list vec)) (ms : list (list pyval)) (i : nat) : option (dict nat cstate) :=
    mapM (fun a => do t <- nth_error trs a; do r <- nth_error t i; do m <- nth_error ms a; do s <- nth_error statics a;
                   Some (a, (map Num r, m, s))) (seq 0 (length agents)).

  (** All agents at one row, simulator.py 812-870: assertion hits and satisfied guards. *)
  Definition look_at (trs : list (list vec)) (ms : list (list pyval)) (i : nat) : option (dict nat word * list cmove) :=
    do st <- states_at trs ms i;
    fold_opt (fun acc a =>
      do ag <- nth_error agents a;
      if watched ag then
        do r <- react ag a st;
        Some (match r with
              | Stay => acc
              | Move d s => (fst acc, snd acc ++ [(a, (d, s))])
              | Fail l => (fst acc ++ [(a, l)], snd acc)
              end)
      else Some acc) (seq 0 (length agents)) ([], []).

  (** The loop over the rows, simulator.py 808-878.  Without a row [idx] is unbound. *)
  Fixpoint scan_rows (trs : list (list vec)) (ms : list (list pyval)) (idxs : list nat) : option (option (dict nat word) * list cmove * nat) :=
    match idxs with
    | [] => None
    | i :: idxs' =>
      do l <- look_at trs ms i;
      match fst l, snd l, idxs' with
      | _ :: _, _, _ => Some (Some (fst l), snd l, i)
      | [], [], _ :: _ => scan_rows trs ms idxs'
      | [], _, _ => Some (None, snd l, i)
      end
    end.

  (** simulator.py 876-879: [transitions[agent_idx].append(...)]. *)
  Definition group (l : list cmove) : dict nat (list cmove) := fold_left (fun d m => dappend Nat.eqb (fst m) m d) l [].

  (** The child for a combination of transitions, simulator.py 584-617. *)
  Definition simple_child (nd : cnode) (cut : list (list vec)) (comb : list cmove) : option cnode :=
    do t0 <- nth_error cut 0; do row0 <- nth_error t0 0; do time <- nth_error row0 0;
    let moved a := dget Nat.eqb a comb in
    do inits <- mapM (fun a => match moved a with
                               | Some p => Some (snd p)
                               | None => do c <- nth_error cut a; do r <- nth_error c 0; Some (map Num (tl r)) end) (seq 0 (length cut));
    Some {| k_trace := map (fun p => match moved (fst p) with Some _ => None | None => Some (snd p) end) (combine (seq 0 (length cut)) cut);
            k_init := inits;
            k_mode := fold_left (fun ms t => set_nth (fst t) (fst (snd t)) ms) comb (k_mode nd);
            k_start := py_round 10 time;
            k_height := S (k_height nd);
            k_hits := Some [];
            k_child := [] |}.

  (** The traces of all agents, simulator.py 537-547; [trace[:, 0] += node.start_time]. *)
  Definition simple_traces (nd : cnode) (remain : Q) : option (list (list vec)) :=
    mapM (fun a => do m <- nth_error (k_mode nd) a; do i <- nth_error (k_init nd) a; do t <- trace_of a m i remain;
                   Some (map (shift_row (k_start nd)) t)) (seq 0 (length agents)).

  (** A node that is processed, simulator.py 537-617: its trace, hits and children. *)
  Definition simple_step (nd : cnode) (remain : Q) : option (list (list vec) * option (dict nat word) * list cnode) :=
    do trs <- simple_traces nd remain;
    do t0 <- nth_error trs 0;
    do r <- scan_rows trs (k_mode nd) (seq 0 (length t0));
    let '(hits, moves, i) := r in
    let cut := map (firstn (i + 1)) trs in
    match hits, moves with
    | Some h, _ => Some (cut, Some h, [])
    | None, [] => Some (trs, None, [])
    | None, _ =>
      do cs <- mapM (simple_child nd (map (skipn i) trs)) (product (map snd (group moves)));
      Some (cut, None, cs)
    end.

  (** simulator.py 519-536: nodes that are not processed. *)
  Definition left_alone (nd : cnode) : bool :=
    match max_height with Some h => h - 1 <=? k_height nd | None => false end ||
    Qle_bool (py_round 10 (horizon - k_start nd)) 0.

  (** The work list, simulator.py 513-624; [fuel] bounds the iterations. *)
  Fixpoint work (fuel : nat) (objs : list cnode) (queue : list nat) : ending :=
    match queue with
    | [] => Done objs
    | a :: q =>
      match fuel with
      | 0 => Running
      | S f =>
        match nth_error objs a with
        | None => Raised
        | Some nd =>
          if left_alone nd then work f objs q
          else match simple_step nd (py_round 10 (horizon - k_start nd)) with
               | None => Raised
               | Some (tr, h, cs) =>
                 let kids := seq (length objs) (length cs) in
                 let nd' := mk_cnode (map Some tr) (k_init nd) (k_mode nd) (k_start nd) (k_height nd) h kids in
                 work f (set_nth a nd' objs ++ cs) (q ++ kids)
               end
        end
      end
    end.

  (** The root, analysis_tree.py 121-146, and simulate_simple, simulator.py 500-628. *)
  Definition simple_root (inits modes : list (list pyval)) : cnode :=
    mk_cnode (map (fun _ => None) inits) inits modes (py_round 10 0) 0 (Some []) [].
  Definition simulate_simple (fuel : nat) (inits modes : list (list pyval)) : ending := work fuel [simple_root inits modes] [0].
End Simple.
