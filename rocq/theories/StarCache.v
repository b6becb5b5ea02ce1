(** Incremental verification with star sets: the lookup of cached tubes and the tube of a node. *)
From Verif Require Import Base Star Overlay.
Open Scope nat_scope.

Section StarCache.
  (** Stars, tubes, [StarSet.combine_stars] and [calc_reach_tube], which may raise. *)
  Variables star tube : Type.
  Variable combine_stars : list star -> option star.
  Variable calc_reach_tube : star -> option tube.

  (** incremental.py:288-303 [TubeCache.check_hit] for a star: [known] says whether the cache has an entry for the agent
      and the mode.  If so zip of its rows raises, as a star is not iterable. *)
  Definition check_hit_star (known : bool) (init : star) : option (option tube) := if known then None else Some None.
  (** verifier.py:85-94: [np.array] of a star has no dimension, so that two of them raise an IndexError; the list of a
      single one is the star itself. *)
  Definition combined_rect (rect_seg : list star) : option star := match rect_seg with [s] => Some s | _ => None end.

  (** verifier.py:66-124 [check_cache_bloated_tube_stars]: the tube, the segments that are missing, and the numbers of hits
      and misses.  A cached tube is overlaid with the one before, but [check_hit_star] never gives one: that part is not
      modelled, and the None below stands for it. *)
  Fixpoint check_loop (incremental known : bool) (L : nat) (inits : list star) (idxs : list nat) (missing : list nat) (hits : nat * nat)
    : option (option tube * list nat * (nat * nat)) :=
    match idxs with
    | [] => Some (None, missing, hits)
    | k :: idxs' =>
      do r <- combined_rect (firstn L (skipn k inits));
      if incremental then
        do c <- check_hit_star known r;
        match c with
        | Some _ => None
        | None => check_loop incremental known L inits idxs' (missing ++ [k]) (fst hits, snd hits + 1)
        end
      else check_loop incremental known L inits idxs' (missing ++ [k]) hits
    end.
  Definition check_cache_stars (incremental known : bool) (L : nat) (inits : list star) (hits : nat * nat) :=
    do idxs <- seg_starts (length inits) L; check_loop incremental known L inits idxs [] hits.

  (** verifier.py:126-236 [calculate_full_bloated_tube_stars]: [last] is [reach_tube], unbound (None) before the first
      segment.  With [incremental] line 216 reads [combined_rect] and [cur_bloated_tube], which are never assigned: the
      assignments are comments or in a branch that is not taken. *)
  Fixpoint tube_loop (incremental : bool) (L : nat) (inits : list star) (idxs : list nat) (last : option tube) : option tube :=
    match idxs with
    | [] => last
    | k :: idxs' =>
      let rect_seg := firstn L (skipn k inits) in
      do s0 <- nth_error inits 0;
      do s <- (if 1 <? length rect_seg then combine_stars rect_seg else Some s0);
      do r <- calc_reach_tube s;
      if incremental then None else tube_loop incremental L inits idxs' (Some r)
    end.
  Definition tube_stars (incremental : bool) (info : option tube * list nat) (L : nat) (inits : list star) : option tube :=
    do idxs <- (if incremental then Some (snd info) else seg_starts (length inits) L); tube_loop incremental L inits idxs None.

  (** verifier.py:829-838 and 404-413: the tube of an agent at a node, with the numbers of hits and misses.  In an
      incremental verification the cache is asked first. *)
  Definition node_tube (incremental known : bool) (L : nat) (inits : list star) (hits : nat * nat) : option (tube * (nat * nat)) :=
    if incremental then
      do c <- check_cache_stars true known L inits hits;
      do t <- tube_stars true (fst c) L inits; Some (t, snd c)
    else do t <- tube_stars false (None, []) L inits; Some (t, hits).
End StarCache.
