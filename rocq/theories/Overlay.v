(** Tubes for a list of initial sets: verse/analysis/verifier.py, [check_cache_bloated_tube] and
    [calculate_full_bloated_tube_simple].

    A tube is a list of rows, lower and upper corners alternating, column 0 being time.  numpy arrays
    are shared, and the code updates them in place, so tubes live in a heap (a list, addresses are
    positions) and the functions return the new heap. *)
From Verif Require Import Base Boxes.
Set Implicit Arguments.
Open Scope nat_scope.

Notation tube := (list vec).
Notation heap := (list tube).

(** One row of [res_tube[...,1:] = np.minimum(res_tube[...,1:], cur[...,1:])] (and [maximum]):
    column 0 is left alone. *)
Definition overlay_row (f : Q -> Q -> Q) (r c : vec) : vec :=
  match r, c with
  | t :: r', _ :: c' => t :: zipw f r' c'
  | _, _ => r
  end.

(** verse/analysis/verifier.py:287-294 and 369-376: rows [0,2,4..] get the minimum, rows [1,3,5..] the
    maximum.  Different numbers of rows are a ValueError in numpy (the broadcast of a one-row array is
    not modelled), and so is an odd number of rows here (the engines always return pairs of rows). *)
Fixpoint overlay_rows (res cur : tube) : option tube :=
  match res, cur with
  | [], [] => Some []
  | l :: h :: res', cl :: ch :: cur' =>
    do r <- overlay_rows res' cur';
    Some (overlay_row Qmin l cl :: overlay_row Qmax h ch :: r)
  | _, _ => None
  end.

(** Python's [l[:m]] for an integer [m], possibly negative. *)
Definition slice_to {A : Type} (m : Z) (l : list A) : list A :=
  if (m <? 0)%Z then firstn (Z.to_nat (Z.of_nat (length l) + m)) l else firstn (Z.to_nat m) l.

(** [cur = cur[: tube_length - 2k]] followed by the two assignments to [res[2k:]]. *)
Definition overlay (tube_length : nat) (k : nat) (res cur : tube) : option tube :=
  do r <- overlay_rows (skipn (2 * k) res) (slice_to (Z.of_nat tube_length - 2 * Z.of_nat k) cur);
  Some (firstn (2 * k) res ++ r).

(** [range(0, len(initial_set), combine_seg_length)]; a zero step is a ValueError. *)
Definition seg_starts (len L : nat) : option (list nat) :=
  match L with
  | 0 => None
  | _ => Some (map (fun i => i * L) (seq 0 ((len + (L - 1)) / L)))
  end.

(** verse/analysis/verifier.py:256-265 and 339-348: hull of one segment of the initial sets. *)
Definition seg_hull (inits : list box) (L k : nat) : option box := combine_all (firstn L (skipn k inits)).

Section WithEngine.
  (** [calc_bloated_tube] for the node's mode, remaining time and time step. *)
  Variable engine : box -> tube.

  (** Result of the loop: the heap, the address of [res_tube], and the cache updates
      [(combined_rect, address of the tube)]. *)
  Definition calc_state : Type := heap * option nat * list (box * nat).

  (** verse/analysis/verifier.py:338-376, the loop over the missing segments.  The freshly computed
      array is also the one put into [cache_tube_updates] (line 361), so it is allocated once and
      shared.  [brk] is the [break] of line 366-367. *)
  Fixpoint calc_loop (inits : list box) (L : nat) (segs : list nat) (st : calc_state) : option calc_state :=
    match segs with
    | [] => Some st
    | k :: segs' =>
      do b <- seg_hull inits L k;
      let '(h, res, upd) := st in
      let a := length h in
      let h1 := h ++ [engine b] in
      let upd1 := upd ++ [(b, a)] in
      match res with
      | None => calc_loop inits L segs' (h1, Some a, upd1)
      | Some r =>
        do rt <- nth_error h1 r;
        if length rt <=? 2 * k then Some (h1, res, upd1)
        else
          do rt' <- overlay (length rt) k rt (engine b);
          calc_loop inits L segs' (set_nth r rt' h1, res, upd1)
      end
    end.

  (** verse/analysis/verifier.py:298-377, [calculate_full_bloated_tube_simple]: [cached] is the cached tube
      (an address) and the list of missing segments; the result is a copy of the final array.
      [None]: no initial set at all ([None.tolist()]) or a shape error. *)
  Definition calc_full (h : heap) (cached : option nat) (missing : list nat) (inits : list box) (L : nat)
    : option (heap * tube * list (box * nat)) :=
    do st <- calc_loop inits L missing (h, cached, []);
    let '(h', res, upd) := st in
    do a <- res;
    do t <- nth_error h' a;
    Some (h', t, upd).

  (** The non-incremental call: every segment is missing (line 330). *)
  Definition calc_full_plain (inits : list box) (L : nat) : option tube :=
    do segs <- seg_starts (length inits) L;
    do r <- calc_full [] None segs inits L;
    let '(_, t, _) := r in Some t.

  (** [self.cache.check_hit(agent_id, mode_label, combined_rect)]: the address of the cached array. *)
  Variable lookup : box -> option nat.

  (** verse/analysis/verifier.py:255-294, the loop of [check_cache_bloated_tube].  [tube_length] is fixed when
      the first cached tube is found (line 284). *)
  Fixpoint check_loop (inits : list box) (L : nat) (segs : list nat) (h : heap) (res : option (nat * nat))
           (missing : list nat) : option (heap * option nat * list nat) :=
    match segs with
    | [] => Some (h, option_map fst res, missing)
    | k :: segs' =>
      do b <- seg_hull inits L k;
      match lookup b with
      | None => check_loop inits L segs' h res (missing ++ [k])
      | Some c =>
        do ct <- nth_error h c;
        match res with
        | None => check_loop inits L segs' h (Some (c, length ct)) missing
        | Some (r, tlen) =>
          do rt <- nth_error h r;
          do rt' <- overlay tlen k rt ct;
          check_loop inits L segs' (set_nth r rt' h) res missing
        end
      end
    end.

  (** The incremental path: verse/analysis/verifier.py:845-848 followed by 413-430. *)
  Definition calc_full_incremental (h : heap) (inits : list box) (L : nat)
    : option (heap * tube * list (box * nat)) :=
    do segs <- seg_starts (length inits) L;
    do r <- check_loop inits L segs h None [];
    let '(h1, cached, missing) := r in
    calc_full h1 cached missing inits L.
End WithEngine.
