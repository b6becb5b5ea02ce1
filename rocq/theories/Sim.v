(** One simulation step: verse/analysis/simulator.py [check_sim_transitions], [get_transition_simulate] and
    [simulate_one], without the incremental mode ([cache] empty).

    Agents are numbered by their position in [node.agent]; a dictionary over the agents is a list.  What the
    sensor and [eval] answer for an expression in the joint state of all agents is given by functions; an
    exception is [None]. *)
From Coq Require Import Ascii String.
From Verif Require Import Base Dict PyText Utils Scan Step Round.
Set Implicit Arguments.
Open Scope nat_scope.

(** The value of the right-hand side of an assignment. *)
Inductive value := VNum (q : Q) | VName (n : word).

(** A trace: rows of time and state. *)
Notation strace := (list vec).

(** The parts of a node that a step reads; [None] in [s_trace] is an agent without an entry in [node.trace]. *)
Record snode := mk_snode {
  s_trace : list (option strace);
  s_init : list vec;
  s_mode : list mode;
  s_start : Q;
  s_height : nat }.

Record sresult := mk_sresult {
  sr_child : list snode;
  sr_trace : list strace;
  sr_asserts : option (dict nat (list word)) }.

Section Sim.
  Variables path cond : Type.
  Variable pvar : path -> word.

  (** An agent: its decision logic, and the names of the discrete and continuous variables of its own type. *)
  Record sagent := { sa_logic : dlogic path cond; sa_disc : list word; sa_cont : list word }.
  Variable agents : list sagent.

  (** Expressions in the joint mode and the joint state of all agents (time excluded), for an agent. *)
  Variable e_cond : list mode -> list vec -> nat -> cond -> option bool.
  Variable e_path : list mode -> list vec -> nat -> path -> option bool.
  Variable e_val : list mode -> list vec -> nat -> path -> option value.
  Variable maph : option word -> option mode -> option mode -> option word.
  (** [TC_simulate] of an agent. *)
  Variable trace_of : nat -> mode -> vec -> Q -> option strace.

  (** A transition: agent, destination, next initial state, paths. *)
  Record strans := mk_strans { st_agent : nat; st_dest : mode; st_init : vec; st_paths : list path }.

  (** verse/analysis/simulator.py:87-93: labels of the failing assertions. *)
  Definition failing (ms : list mode) (js : list vec) (a : nat) (lg : dlogic path cond) : option (list word) :=
    do l <- filterM (fun x => do p <- e_cond ms js a (snd (fst x)); if p then do c <- e_cond ms js a (snd x); Some (negb c) else Some false) (d_asserts lg);
    Some (map (fun x => fst (fst x)) l).

  (** verse/analysis/simulator.py:97-105, [all_resets]. *)
  Definition resets_at (ms : list mode) (js : list vec) (a : nat) (ps : list path) : option (dict word (list path)) :=
    fold_left (fun acc p => do d <- acc; do b <- e_path ms js a p; Some (if b : bool then dappend word_eqb (pvar p) p d else d)) ps (Some []).

  (** verse/analysis/simulator.py:118-129: one assignment of a combination.  The destination is kept as pairs of a
      mode and the path that set it.  (A mode assigned to a continuous variable or a number to a mode is
      treated as an error.) *)
  Definition assign (ms : list mode) (js : list vec) (a : nat) (ag : sagent) (acc : list (word * option path) * vec) (p : path)
    : option (list (word * option path) * vec) :=
    do v <- e_val ms js a p;
    if occurs (w "mode") (pvar p) then
      do k <- index_of_word (sa_disc ag) (pvar p);
      match v with
      | VName n => if k <? length (fst acc) then Some (set_nth k (n, Some p) (fst acc), snd acc) else None
      | VNum _ => None
      end
    else
      do k <- index_of_word (sa_cont ag) (pvar p);
      match v with
      | VNum q => if k <? length (snd acc) then Some (fst acc, set_nth k q (snd acc)) else None
      | VName _ => None
      end.

  (** verse/analysis/simulator.py:113-146: the transition of one combination.  [possible_dest] has one element per
      position, so there is exactly one destination. *)
  Definition trans_of (ms : list mode) (js : list vec) (a : nat) (ag : sagent) (m : mode) (s : vec) (pos : list path) : option strans :=
    do r <- fold_left (fun acc p => do x <- acc; assign ms js a ag x p) pos (Some (map (fun n => (n, None)) m, s));
    Some (mk_strans a (map fst (fst r)) (snd r) (somes (map snd (fst r)))).

  (** verse/analysis/simulator.py:78-147, [check_sim_transitions]. *)
  Definition check_transitions (ms : list mode) (js : list vec) (a : nat) (ag : sagent) : option (list word + list strans) :=
    do m <- nth_error ms a;
    do s <- nth_error js a;
    do fs <- failing ms js a (sa_logic ag);
    match fs with
    | _ :: _ => Some (inl fs)
    | [] =>
      do d <- resets_at ms js a (d_paths (sa_logic ag));
      do ts <- mapM (trans_of ms js a ag m s) (combos d);
      Some (inr ts)
    end.

  (** verse/analysis/simulator.py:689-703, the agents in [agent_guard_dict]: those with at least one path. *)
  Definition guarded (ag : sagent) : bool :=
    has_args (sa_logic ag) && match d_paths (sa_logic ag) with [] => false | _ => true end.

  (** verse/analysis/simulator.py:714-717: the joint state at a row. *)
  Definition joint (trs : list strace) (i : nat) : option (list vec) :=
    mapM (fun tr => do r <- nth_error tr i; Some (tl r)) trs.

  (** verse/analysis/simulator.py:712-741: all agents at one row; failing assertions and satisfied guards. *)
  Definition look_agent (trs : list strace) (ms : list mode) (i : nat) (acc : dict nat (list word) * list strans) (a : nat)
    : option (dict nat (list word) * list strans) :=
    do ag <- nth_error agents a;
    if guarded ag then
      do js <- joint trs i;
      do r <- check_transitions ms js a ag;
      match r with
      | inl ls => Some (fst acc ++ [(a, ls)], snd acc)
      | inr ts => Some (fst acc, snd acc ++ ts)
      end
    else Some acc.
  Definition look (trs : list strace) (ms : list mode) (i : nat) : option (dict nat (list word) * list strans) :=
    fold_left (fun acc a => do x <- acc; look_agent trs ms i x a) (seq 0 (length agents)) (Some ([], [])).

  (** verse/analysis/simulator.py:748-761, the map filter. *)
  Definition allowed (ms : list mode) (t : strans) : option bool :=
    do ag <- nth_error agents (st_agent t);
    do m <- nth_error ms (st_agent t);
    Some (map_allows maph (d_types (sa_logic ag)) m (st_dest t)).

  (** verse/analysis/simulator.py:748-770 and 774. *)
  Definition keep_allowed (ms : list mode) (ts : list strans) : option (dict nat (list strans)) :=
    do l <- filterM (allowed ms) ts;
    Some (map (fun p => (fst p, dedup mode_eqb st_dest (snd p)))
              (fold_left (fun d t => dappend Nat.eqb (st_agent t) t d) l [])).

  (** verse/analysis/simulator.py:708-773, the loop over the rows.  An empty trace leaves [idx] unbound. *)
  Fixpoint rows (trs : list strace) (ms : list mode) (idxs : list nat)
    : option ((dict nat (list word) * nat) + (dict nat (list strans) * nat)) :=
    match idxs with
    | [] => None
    | i :: idxs' =>
      do r <- look trs ms i;
      match fst r, snd r with
      | _ :: _, _ => Some (inl (fst r, i))
      | [], _ :: _ => do d <- keep_allowed ms (snd r); Some (inr (d, i))
      | [], [] => match idxs' with [] => Some (inr ([], i)) | _ => rows trs ms idxs' end
      end
    end.

  (** verse/analysis/simulator.py:623-775, [get_transition_simulate]. *)
  Definition get_transition_simulate (trs : list strace) (ms : list mode)
    : option ((dict nat (list word) * nat) + (dict nat (list strans) * nat)) :=
    do t0 <- nth_error trs 0; rows trs ms (seq 0 (length t0)).

  (** verse/analysis/simulator.py:215-229. *)
  Definition sfill (nd : snode) (remain : Q) : option (list strace) :=
    mapM (fun a =>
      do t <- nth_error (s_trace nd) a;
      match t with
      | Some t => Some t
      | None =>
        do m <- nth_error (s_mode nd) a;
        do i <- nth_error (s_init nd) a;
        do t <- trace_of a m i remain;
        Some (map (shift_row (s_start nd)) t)
      end) (seq 0 (length agents)).

  Variable digits : nat.                 (** [ndigits] of the nodes *)

  (** verse/analysis/simulator.py:317-346, the child for a combination of transitions.  A destination is never [None]
      here. *)
  Definition schild (nd : snode) (cut : list strace) (comb : list strans) : option snode :=
    do t0 <- nth_error cut 0;
    do row0 <- nth_error t0 0;
    do time <- nth_error row0 0;
    let moved a := find (fun t => st_agent t =? a) comb in
    do inits <- mapM (fun a => match moved a with
                               | Some t => Some (st_init t)
                               | None => do c <- nth_error cut a; do r <- nth_error c 0; Some (tl r) end) (seq 0 (length cut));
    Some {| s_trace := map (fun p => match moved (fst p) with Some _ => None | None => Some (snd p) end) (combine (seq 0 (length cut)) cut);
            s_init := inits;
            s_mode := fold_left (fun ms t => set_nth (st_agent t) (st_dest t) ms) comb (s_mode nd);
            s_start := py_round digits time;
            s_height := S (s_height nd) |}.

  (** verse/analysis/simulator.py:198-350, [simulate_one]; [unsafe] is [config.unsafe_continue]. *)
  Definition simulate_one (unsafe : bool) (nd : snode) (remain : Q) : option sresult :=
    do trs <- sfill nd remain;
    do r <- get_transition_simulate trs (s_mode nd);
    match r with
    | inl (asr, i) =>
      Some {| sr_child := []; sr_trace := if unsafe then trs else map (firstn i) trs; sr_asserts := Some asr |}
    | inr (d, i) =>
      match d with
      | [] => Some {| sr_child := []; sr_trace := trs; sr_asserts := None |}
      | _ =>
        do cs <- mapM (schild nd (map (skipn i) trs)) (product (map snd d));
        Some {| sr_child := cs; sr_trace := map (firstn (i + 1)) trs; sr_asserts := None |}
      end
    end.
End Sim.
