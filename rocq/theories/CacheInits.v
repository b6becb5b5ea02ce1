(** The reports of the caches of incremental analysis: [get_cached_inits] and [iter_tree] of verse/analysis/incremental.py. *)
From Verif Require Import Base Dict Utils Cache.
Set Implicit Arguments.
Open Scope nat_scope.

(** A row of the report: mode, initial state, the numbers of the cached transitions and the length of the trace.  The set of
    node ids is left out, as in [segment]. *)
Record row := mk_row { w_mode : list nat; w_init : vec; w_trans : list nat; w_len : nat }.

(** incremental.py:206 and 218 [(i.begin + i.end) / 2] *)
Definition mid (e : entry) : Q := ((fst (fst e) + snd (fst e)) / 2)%Q.

Section Report.
  (** The order in which a set of intervals is iterated, and [sorted]: tuples of equal modes and states are compared by their
      sets and lists, which is not a total order, so the order is left open. *)
  Variable iter : list entry -> list entry.
  Variable sort : list row -> list row.

  Section Iter.
    (** What is read of a stored object at the last level. *)
    Variable X : Type.
    Variable read : nat -> option X.
    (** incremental.py:202-221 and 380-395 [iter_tree].  [None]: a level read as an object, or an object iterated. *)
    Fixpoint iter_tree (depth : nat) (es : list entry) : option (list (vec * X)) :=
      match depth with
      | 0 => mapM (fun e => do a <- leaf (snd e); do x <- read a; Some ([mid e], x)) (iter es)
      | S d =>
        do ls <- mapM (fun e => match snd e with
                                | Leaf _ => None
                                | Level sub => do r <- iter_tree d sub; Some (map (fun s => (mid e :: fst s, snd s)) r)
                                end) (iter es);
        Some (concat ls)
      end.
    (** incremental.py:224-226 [inits[key[0]].extend(...)] of a defaultdict. *)
    Fixpoint extend {Y} (f : list nat -> vec -> X -> Y) (n : nat) (items : cache) (d : dict nat (list Y)) : option (dict nat (list Y)) :=
      match items with
      | [] => Some d
      | (k, es) :: items' =>
        match k with
        | [] => None
        | ag :: md =>
          do r <- iter_tree n es;
          extend f n items' (dalter Nat.eqb (fun o => match o with Some l => l | None => [] end ++ map (fun s => f md (fst s) (snd s)) r) ag d)
        end
      end.
  End Iter.

  (** incremental.py:207-211 [(i.data.node_ids, [t.transition for t in i.data.transitions], len(i.data.trace))] *)
  Definition read_segment (h : list segment) (a : nat) : option (list nat * nat) :=
    do s <- nth_error h a; Some (map t_at (g_trans s), length (g_trace s)).
  (** incremental.py:223-228 [SimTraceCache.get_cached_inits] *)
  Definition sim_inits (c : sim_cache) (n : nat) : option (dict nat (list row)) :=
    do d <- extend (read_segment (sc_heap c)) (fun md v x => mk_row md v (fst x) (snd x)) n (sc_index c) [];
    Some (map (fun kv => (fst kv, sort (snd kv))) d).

  (** incremental.py:386 [i.data.run_num, i.data.node_id]: a [CachedRTTrans] (44-48) has neither of the two. *)
  Definition read_trans (a : nat) : option (list nat * nat) := None.
  (** incremental.py:397-402 [ReachTubeCache.get_cached_inits] *)
  Definition reach_inits (c : cache) (n : nat) : option (dict nat (list row)) :=
    extend read_trans (fun md v x => mk_row md v (fst x) (snd x)) n c [].
End Report.
