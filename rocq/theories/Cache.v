(** The caches of incremental analysis: verse/analysis/incremental.py.

    Agent names, mode names, and the parts of paths that are only compared for equality are interned as numbers.  The
    objects stored in a cache (tubes, segments) are shared and updated in place, so the caches hold addresses and the
    objects live in a heap (a list, addresses are positions). *)
From Verif Require Import Base Dict Utils.
From Coq Require Import Qabs.
Set Implicit Arguments.
Open Scope nat_scope.

(** verse/analysis/dryvr.py:19 [_EPSILON] = 1e-6 *)
Definition eps : Q := 1 # 1000000.

(** The nested [IntervalTree]s: an interval [begin, end) with its data, which is the next level or a stored object.  The
    library keeps a set of intervals; the model keeps them in insertion order and leaves the order in which a set is
    iterated open ([iter] below).  The library drops an interval that is already present with equal data; only a
    one-variable cache can meet that, and the model keeps both. *)
Inductive itree : Type := Leaf (a : nat) | Level (es : list (Q * Q * itree)).
Notation entry := (Q * Q * itree)%type.

(** The key [(agent_id,) + tuple(mode)]. *)
Notation key := (list nat).
Definition key_eqb : key -> key -> bool := list_eqb Nat.eqb.
Notation cache := (dict key (list entry)).

(** [self.cache[key]] of a defaultdict followed by the insertion of new intervals. *)
Definition insert (k : key) (es : list entry) (c : cache) : cache :=
  dalter key_eqb (fun o => match o with Some l => l ++ es | None => es end) k c.

(** The loop of [add_segment] (186-200), [TubeCache.add_tube] (277-286) and [ReachTubeCache.add_tube] (325-339): one fresh
    level per variable.  The result is the interval put in the given tree and whether the call finishes: an empty or
    inverted interval makes the library raise after the outer levels were put in, and no variables at all raise "???". *)
Fixpoint chain (ivs : list (Q * Q)) (a : nat) : list entry * bool :=
  match ivs with
  | [] => ([], false)
  | (b, e) :: rest =>
    if Qle_bool e b then ([], false)
    else match rest with
         | [] => ([(b, e, Leaf a)], true)
         | _ => let '(sub, ok) := chain rest a in ([(b, e, Level sub)], ok)
         end
  end.

(** The answer of a query: nothing found, an object, or an exception. *)
Inductive answer : Type := Miss | Hit (a : nat) | Raise.

(** [zip( *init)] for [init = [lows, highs]]; zip stops at the shorter. *)
Definition pairs (lo hi : vec) : list (Q * Q) := combine lo hi.

(** ** Tubes *)
(** incremental.py:277-284 intervals [low, high + 1e-6) *)
Definition tube_ivs (lo hi : vec) : list (Q * Q) := map (fun p => (fst p, (snd p + eps)%Q)) (pairs lo hi).

Section Tubes.
  (** The order in which a set of intervals is iterated. *)
  Variable iter : list entry -> list entry.

  (** incremental.py:296-298 [t for t in tree[low : high + eps] if t.begin <= low and high <= t.end]: the library returns
      the intervals that overlap [low, high + eps), none if that is empty. *)
  Definition accepts (q : Q * Q) (e : entry) : bool :=
    let '(low, high) := q in let '(b, en, _) := e in
    negb (Qle_bool (high + eps) low) && (negb (Qle_bool (high + eps) b) && negb (Qle_bool en low)) && (Qle_bool b low && Qle_bool high en).

  (** incremental.py:301 [min(entries, key=lambda e: low - e.begin + e.end - high)]: the first of the least ones. *)
  Definition slack (q : Q * Q) (e : entry) : Q := (fst q - fst (fst e) + snd (fst e) - snd q)%Q.
  Fixpoint least (q : Q * Q) (best : entry) (es : list entry) : entry :=
    match es with [] => best | e :: es' => least q (if Qle_bool (slack q best) (slack q e) then best else e) es' end.

  (** incremental.py:295-303, the descent of [TubeCache.check_hit]. *)
  Fixpoint descend (q : list (Q * Q)) (t : itree) : answer :=
    match q, t with
    | [], Leaf a => Hit a
    | [], Level _ => Raise
    | _ :: _, Leaf _ => Raise
    | p :: q', Level es =>
      match iter (filter (accepts p) es) with
      | [] => Miss
      | e :: es' => descend q' (snd (least p e es'))
      end
    end.

  (** incremental.py:288-303 [TubeCache.check_hit] *)
  Definition tube_hit (c : cache) (agent : nat) (mode : list nat) (lo hi : vec) : answer :=
    match dget key_eqb (agent :: mode) c with
    | None => Miss
    | Some es => descend (pairs lo hi) (Level es)
    end.

  (** incremental.py:267-286 [TubeCache.add_tube]: the new cache (also when the call raises) and whether it finished. *)
  Definition tube_add (c : cache) (agent : nat) (mode : list nat) (lo hi : vec) (a : nat) : cache * bool :=
    let '(es, ok) := chain (tube_ivs lo hi) a in (insert (agent :: mode) es c, ok).
End Tubes.

(** One insertion: agent, mode, box, address of the tube. *)
Record store := mk_store { s_agent : nat; s_mode : list nat; s_lo : vec; s_hi : vec; s_addr : nat }.
(** A history of insertions, each of which may raise. *)
Definition tube_history (l : list store) : cache :=
  fold_left (fun c s => fst (tube_add c (s_agent s) (s_mode s) (s_lo s) (s_hi s) (s_addr s))) l [].

(** ** Transitions stored with a segment *)
(** incremental.py:230-241 and 341-355 [query_cont]: all stored objects below the accepted intervals, in iteration order.
    [None]: an object met before the last variable, a level met at the last one, or no variable. *)
Section Query.
  Variable iter : list entry -> list entry.
  Variable X : Type.
  Variable accept : X -> entry -> bool.
  Definition leaf (t : itree) : option nat := match t with Leaf a => Some a | Level _ => None end.
  Fixpoint query (q : list X) (t : itree) : option (list nat) :=
    match q, t with
    | x :: q', Level es =>
      let next := map snd (iter (filter (accept x) es)) in
      match q' with
      | [] => mapM leaf next
      | _ => do r <- mapM (query q') next; Some (concat r)
      end
    | _, _ => None
    end.

  (** [sorted([(e, -num(e)) for e in entries], key=lambda p: p[1])[0][0]]: the first with the greatest number. *)
  Fixpoint most (num : nat -> nat) (best : nat) (l : list nat) : nat :=
    match l with [] => best | a :: l' => most num (if num best <? num a then a else best) l' end.

  (** incremental.py:243-260 and 357-378 [check_hit]: [num a] counts the transitions of the object at [a] that suit the
      query and is [None] if that raises. *)
  Definition trans_hit (c : cache) (agent : nat) (mode : list nat) (q : list X) (num : nat -> option nat) : answer :=
    match dget key_eqb (agent :: mode) c with
    | None => Miss
    | Some es =>
      match query q (Level es) with
      | None => Raise
      | Some l =>
        match mapM num l with
        | None => Raise
        | Some _ => match l with [] => Miss | a :: l' => Hit (most (fun a => match num a with Some n => n | None => 0 end) a l') end
        end
      end
    end.
End Query.

(** ** Simulation segments *)
(** incremental.py:16-22 [CachedTransition]; [disc], [cont] and the paths only matter for equality. *)
Record ctrans := mk_ctrans { t_inits : dict nat vec; t_at : nat; t_disc : list nat; t_cont : vec }.
(** incremental.py:25-30 [CachedSegment], without the assertion labels and node ids. *)
Record segment := mk_segment { g_trace : list vec; g_trans : list ctrans }.

(** incremental.py:136-138 [sim_trans_suit]: zip stops at the shorter; different sets of agents raise. *)
Definition close (x y : Q) : bool := negb (Qle_bool eps (Qabs (x - y))).
Definition same_keys {V W : Type} (a : dict nat V) (b : dict nat W) : bool :=
  forallb (fun p => existsb (Nat.eqb (fst p)) (map fst b)) a && forallb (fun p => existsb (Nat.eqb (fst p)) (map fst a)) b.
Definition sim_trans_suit (a b : dict nat vec) : option bool :=
  if same_keys a b then
    do l <- mapM (fun p => do bv <- dget Nat.eqb (fst p) b; Some (forallb (fun xy => close (fst xy) (snd xy)) (combine (snd p) bv))) a;
    Some (forallb (fun x => x) l)
  else None.
Definition count_suit {T : Type} (suit : T -> option bool) (ts : list T) : option nat :=
  do l <- mapM suit ts; Some (length (filter (fun x => x) l)).

(** incremental.py:186-199 intervals [val - eps, val + eps) *)
Definition sim_ivs (init : vec) : list (Q * Q) := map (fun v => ((v - eps)%Q, (v + eps)%Q)) init.
(** [tree[x]]: intervals with begin <= x < end. *)
Definition at_point (x : Q) (e : entry) : bool := let '(b, en, _) := e in Qle_bool b x && negb (Qle_bool en x).

Record sim_cache := mk_sim { sc_index : cache; sc_heap : list segment }.

Section Sim.
  Variable iter : list entry -> list entry.

  (** incremental.py:254-255 [num_trans_suit] *)
  Definition sim_num (h : list segment) (inits : dict nat vec) (a : nat) : option nat :=
    do s <- nth_error h a; count_suit (fun t => sim_trans_suit (t_inits t) inits) (g_trans s).
  Definition sim_hit (c : sim_cache) (agent : nat) (mode : list nat) (init : vec) (inits : dict nat vec) : answer :=
    trans_hit iter at_point (sc_index c) agent mode init (sim_num (sc_heap c) inits).

  (** One update of [proc_result]; [u_trans] is what [convert_sim_trans] (101-110) makes of the transitions. *)
  Record update := mk_update { u_new : bool; u_agent : nat; u_mode : list nat; u_inits : dict nat vec; u_trace : list vec; u_trans : list ctrans }.

  (** [dedup(cached.transitions, lambda i: (i.disc, i.cont, i.inits))]; Python ignores the order of a dictionary, the model
      compares it (all inits list the agents in the same order). *)
  Definition trans_key_eqb (x y : list nat * vec * dict nat vec) : bool :=
    let '(d, c, i) := x in let '(d', c', i') := y in
    list_eqb Nat.eqb d d' && list_eqb Qeq_bool c c' && list_eqb (fun p q => Nat.eqb (fst p) (fst q) && list_eqb Qeq_bool (snd p) (snd q)) i i'.
  Definition dedup_trans : list ctrans -> list ctrans := dedup trans_key_eqb (fun t => (t_disc t, t_cont t, t_inits t)).

  (** verse/analysis/simulator.py:366-391, the cache updates of [proc_result]: look the node's state up; store a new segment
      if it was new and is still missing, otherwise extend the transitions of the one found.  [None]: an exception. *)
  Definition sim_update (c : sim_cache) (u : update) : option sim_cache :=
    do init <- dget Nat.eqb (u_agent u) (u_inits u);
    match sim_hit c (u_agent u) (u_mode u) init (u_inits u) with
    | Raise => None
    | Miss =>
      if u_new u then
        let a := length (sc_heap c) in
        let '(es, ok) := chain (sim_ivs init) a in
        if ok then Some (mk_sim (insert (u_agent u :: u_mode u) es (sc_index c)) (sc_heap c ++ [mk_segment (u_trace u) (u_trans u)])) else None
      else None
    | Hit a =>
      do s <- nth_error (sc_heap c) a;
      Some (mk_sim (sc_index c) (set_nth a (mk_segment (g_trace s) (dedup_trans (g_trans s ++ u_trans u))) (sc_heap c)))
    end.

  (** All updates of a history of runs. *)
  Fixpoint sim_updates (c : sim_cache) (l : list update) : option sim_cache :=
    match l with [] => Some c | u :: l' => do c' <- sim_update c u; sim_updates c' l' end.

  (** verse/analysis/simulator.py:214-227, where an agent's trace in a node comes from: the cache, or a simulation for the
      remaining time whose times are shifted to the node's start. *)
  Variable simulate : list nat -> vec -> Q -> list vec.
  Definition shift (t0 : Q) (tr : list vec) : list vec := map (fun r => match r with t :: s => (t + t0)%Q :: s | [] => [] end) tr.
  Definition node_trace (c : sim_cache) (agent : nat) (mode : list nat) (inits : dict nat vec) (start remain : Q) : option (list vec) :=
    do init <- dget Nat.eqb agent inits;
    match sim_hit c agent mode init inits with
    | Raise => None
    | Hit a => do s <- nth_error (sc_heap c) a; Some (g_trace s)
    | Miss => Some (shift start (simulate mode init remain))
    end.
End Sim.

(** ** Reachability transitions *)
(** incremental.py:33-41 [CachedReachTrans]: the initial sets of the node, as (lows, highs) lists. *)
Record rtrans := mk_rtrans { r_inits : dict nat (list (vec * vec)); r_dest : list nat }.
(** incremental.py:141-154 [reach_trans_suit] *)
Definition box_suits (a b : vec * vec) : bool :=
  forallb (fun p => let '((al, ah), (bl, bh)) := p in Qle_bool al bl && Qle_bool bh ah) (combine (pairs (fst a) (snd a)) (pairs (fst b) (snd b))).
Definition reach_trans_suit (a b : dict nat (list (vec * vec))) : option bool :=
  if same_keys a b then
    do l <- mapM (fun p => do bv <- dget Nat.eqb (fst p) b; Some (forallb (fun xy => box_suits (fst xy) (snd xy)) (combine (snd p) bv))) a;
    Some (forallb (fun x => x) l)
  else None.
Definition reach_num (h : list (list rtrans)) (inits : dict nat (list (vec * vec))) (a : nat) : option nat :=
  do ts <- nth_error h a; count_suit (fun t => reach_trans_suit (r_inits t) inits) ts.
(** incremental.py:357-378 [ReachTubeCache.check_hit]; the intervals are inserted as for tubes. *)
Definition reach_hit (iter : list entry -> list entry) (c : cache) (h : list (list rtrans)) (agent : nat) (mode : list nat) (lo hi : vec)
  (inits : dict nat (list (vec * vec))) : answer :=
  trans_hit iter accepts c agent mode (pairs lo hi) (reach_num h inits).

(** ** Changed decision logic *)
(** verse/parser/parser.py:298-310 [ModePath]; its parts are interned, [ir_eq] (363-367) is equality of the dumps. *)
Record mpath := mk_mpath { m_cond : nat; m_cond_veri : nat; m_var : nat; m_val : nat; m_val_veri : nat }.
(** [ModePath.__eq__] *)
Definition mpath_eqb (p q : mpath) : bool := Nat.eqb (m_cond p) (m_cond q) && Nat.eqb (m_val p) (m_val q).

(** incremental.py:69-73 [group_by_var] *)
Definition group_by_var (ps : list mpath) : dict nat (list mpath) := fold_left (fun d p => dappend Nat.eqb (m_var p) p d) ps [].

(** incremental.py:80-87 for one variable: removed, added and reset-changed paths.  [None]: more new paths than old ones
    ([old] is None, so [old.cond_veri] raises). *)
Fixpoint diff_paths (old new : list mpath) : option (list mpath * list mpath * list mpath) :=
  match old, new with
  | [], [] => Some ([], [], [])
  | [], _ :: _ => None
  | o :: old', [] => do r <- diff_paths old' []; let '(rm, ad, ch) := r in Some (o :: rm, ad, ch)
  | o :: old', n :: new' =>
    do r <- diff_paths old' new';
    let '(rm, ad, ch) := r in
    if negb (Nat.eqb (m_cond_veri o) (m_cond_veri n)) then Some (o :: rm, n :: ad, ch)
    else if negb (Nat.eqb (m_val_veri o) (m_val_veri n)) then Some (rm, ad, n :: ch)
    else Some (rm, ad, ch)
  end.

(** incremental.py:75-87 for one agent. *)
Definition diff_agent (old new : list mpath) : option (list mpath * list mpath * list mpath) :=
  let go := group_by_var old in
  let gn := group_by_var new in
  if same_keys go gn then
    do l <- mapM (fun p => do n <- dget Nat.eqb (fst p) gn; diff_paths (snd p) n) go;
    Some (flat_map (fun x => fst (fst x)) l, flat_map (fun x => snd (fst x)) l, flat_map snd l)
  else None.

(** A cached transition with the paths that produced it, and the stored result of its reset. *)
Record ptrans := mk_ptrans { q_paths : list mpath; q_result : nat }.

(** incremental.py:89-94: whether one of the paths was removed, and the paths with their new values.  Each transition has
    its own copies of its paths (the code deep-copies the segment, which keeps sharing inside it). *)
Definition new_val (ch : list mpath) (p : mpath) : mpath :=
  fold_left (fun p c => if Nat.eqb (m_cond p) (m_cond c) then mk_mpath (m_cond p) (m_cond_veri p) (m_var p) (m_val c) (m_val_veri p) else p) ch p.
Definition was_removed (rm : list mpath) (ts : list ptrans) : bool :=
  existsb (fun t => existsb (fun p => existsb (mpath_eqb p) rm) (q_paths t)) ts.
Definition refresh (ch : list mpath) (ts : list ptrans) : list ptrans := map (fun t => mk_ptrans (map (new_val ch) (q_paths t)) (q_result t)) ts.

(** incremental.py:51-98 [to_simulate]: [old] and [new] give each agent's arguments and paths, [cached] the transitions of the
    segment found for each agent.  Result: the transitions to reuse and the paths to check.  [None]: an exception. *)
Section ToSimulate.
  Variables old new : dict nat (list nat * list mpath).
  Fixpoint to_simulate_loop (cached : dict nat (list ptrans)) : option (dict nat (list ptrans) * list (nat * mpath)) :=
    match cached with
    | [] => Some ([], [])
    | (a, ts) :: rest =>
      match ts with
      | [] => do r <- to_simulate_loop rest; Some ((a, ts) :: fst r, snd r)
      | _ =>
        do o <- dget Nat.eqb a old;
        do n <- dget Nat.eqb a new;
        if negb (list_eqb Nat.eqb (fst o) (fst n)) then None else
        do d <- diff_agent (snd o) (snd n);
        let '(rm, ad, ch) := d in
        do r <- to_simulate_loop rest;
        Some (if was_removed rm ts then fst r else (a, refresh ch ts) :: fst r, map (pair a) ad ++ snd r)
      end
    end.
  Definition to_simulate (cached : dict nat (list ptrans)) : option (dict nat (list ptrans) * list (nat * mpath)) :=
    if same_keys old new then to_simulate_loop cached else None.
End ToSimulate.
