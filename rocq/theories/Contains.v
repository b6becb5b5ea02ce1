(** AnalysisTree.contains and is_equal: verse/analysis/analysis_tree.py 318-450, 525-530. *)
From Verif Require Import Base Dict Round Tree.
From Coq Require Import Qminmax.
Set Implicit Arguments.
Open Scope nat_scope.

(** ** portion.Interval
    The library is modelled by its specification for closed rational bounds: a finite union of closed intervals, kept as
    a list in which intervals that meet have been merged. *)
Notation atom := (Q * Q)%type.
Notation iset := (list (Q * Q)).
(** portion.closed: empty if the bounds are the wrong way round. *)
Definition closed (lo hi : Q) : iset := if Qle_bool lo hi then [(lo, hi)] else [].
Fixpoint ins (x : atom) (l : iset) : iset :=
  match l with
  | [] => [x]
  | y :: r =>
    if Qlt_le_dec (snd x) (fst y) then x :: y :: r
    else if Qlt_le_dec (snd y) (fst x) then y :: ins x r
    else ins (Qmin (fst x) (fst y), Qmax (snd x) (snd y)) r
  end.
Definition union (a b : iset) : iset := fold_left (fun acc x => ins x acc) b a.
(** Interval.apply with [replace(lower = v - tol, upper = v + tol)]: each part in turn, then the union. *)
Definition bloat (tol : Q) (a : iset) : iset := fold_left (fun acc x => union acc (closed (fst x - tol) (snd x + tol))) a [].
(** [b in a]: each part of [b] is in a part of [a]. *)
Definition within (a b : iset) : bool :=
  forallb (fun x => existsb (fun y => Qle_bool (fst y) (fst x) && Qle_bool (snd x) (snd y)) a) b.

(** [l[:k]] and [l[k:]] for an integer [k]. *)
Definition slice_to {A} (l : list A) (k : Z) : list A :=
  if (0 <=? k)%Z then firstn (Z.to_nat k) l else firstn (Z.to_nat (Z.of_nat (length l) + k)) l.
Definition slice_from {A} (l : list A) (k : Z) : list A :=
  if (0 <=? k)%Z then skipn (Z.to_nat k) l else skipn (Z.to_nat (Z.of_nat (length l) + k)) l.

(** A node: the trace of each agent (rows with the time first) and the start time. *)
Record cnode := mk_cnode { c_trace : dict nat (list vec); c_start : Q }.
Notation grid := (list (list iset)).

Section Contains.
  (** min_agents / other_agents (330, 390), as a list; [a0] is min_agents[0]; [cont] is cont_num (367). *)
  Variable a0 : nat.
  Variable ag : list nat.
  Variable cont : nat.

  Definition entry_at (tr : list vec) (i j : nat) : option Q := do r <- nth_error tr i; nth_error r j.
  (** cur[aid], 373-382; [len] is trace_len *)
  Definition cur_of (len : nat) (tr : list vec) : option grid :=
    mapM (fun i => mapM (fun j => do l <- entry_at tr (2 * i) j; do u <- entry_at tr (2 * i + 1) j; Some (closed l u)) (seq 0 cont))
         (seq 0 ((len + 1) / 2)).

  Definition cell (g : grid) (i j : nat) : option iset := do r <- nth_error g i; nth_error r j.
  (** one child's part of combined[aid][i][j], 405-410 *)
  Definition part (p i j : nat) (child : list grid) (bias : Z) (len : nat) : option iset :=
    let d := (Z.of_nat i - bias)%Z in
    if (0 <=? d)%Z && (d <? Z.of_nat len)%Z then do g <- nth_error child p; cell g (Z.to_nat d) j else Some [].
  Fixpoint parts (p i j : nat) (children : list (list grid)) (bias : list Z) (lens : list nat) : option (list iset) :=
    match children, bias, lens with
    | c :: cs, b :: bs, l :: ls => do x <- part p i j c b l; do xs <- parts p i j cs bs ls; Some (x :: xs)
    | _, _, _ => Some []
    end.
  (** functools.reduce(portion.Interval.union, ...) *)
  Definition reduce (l : list iset) : option iset := match l with [] => None | x :: r => Some (fold_left union r x) end.
  Definition combined (children : list (list grid)) (bias : list Z) (lens : list nat) (p : nat) : option grid :=
    mapM (fun i => mapM (fun j => do xs <- parts p i j children bias lens; reduce xs) (seq 0 cont)) (seq 0 (list_max lens)).
  (** overlap[aid], 419-431: [cur[aid][i]] with a negative index *)
  Definition overlap (cur comb : grid) (ov : Z) : option grid :=
    mapM (fun m => mapM (fun j =>
        if Z.of_nat (length cur) <? ov then None
        else do x <- cell cur (length cur - Z.to_nat ov + m) j; do y <- cell comb m j; Some (union x y))%Z
      (seq 0 cont)) (seq 0 (Z.to_nat ov)).
  (** min of a list; ValueError if empty *)
  Definition qmin_list (l : list Q) : option Q := match l with [] => None | x :: r => Some (fold_left Qmin r x) end.

  (** 386-435: the node has children.  Division by a time step of 0 gives an infinity or nan, on which round raises. *)
  Definition join (tr0 : list vec) (cur : list grid) (children : list (list grid)) (starts : list Q) : option (list grid) :=
    do last <- entry_at tr0 (length tr0 - 1) 0;
    do prev <- (if length tr0 <? 2 then None else entry_at tr0 (length tr0 - 2) 0);
    let step := py_round 10 (last - prev) in
    do mins <- qmin_list starts;
    if Qeq_bool step 0 then None
    else
      let bias := map (fun s => round_half_even ((s - mins) / step)) starts in
      let lens := map (fun c => length (hd [] c)) children in
      do comb <- mapM (combined children bias lens) (seq 0 (length ag));
      let ov := round_half_even ((last - mins) / step) in
      do over <- mapM (fun p => do c <- nth_error cur p; do k <- nth_error comb p; overlap c k ov) (seq 0 (length ag));
      mapM (fun p => do c <- nth_error cur p; do o <- nth_error over p; do k <- nth_error comb p;
                     Some (slice_to c (- ov) ++ o ++ slice_from k ov)) (seq 0 (length ag)).

  (** collect_ranges, 369-435; the result lists the agents in the order of [ag], [a0] first. *)
  Fixpoint collect (t : tree cnode) : option (list grid) :=
    match t with
    | Node n ch =>
      do tr0 <- dget Nat.eqb a0 (c_trace n);
      do cur <- mapM (fun a => do tr <- dget Nat.eqb a (c_trace n); cur_of (length tr0) tr) ag;
      match ch with
      | [] => Some cur
      | _ =>
        do children <- (fix go l := match l with [] => Some [] | c :: r => do x <- collect c; do xs <- go r; Some (x :: xs) end) ch;
        join tr0 cur children (map (fun c => c_start (content c)) ch)
      end
    end.

  (** all(...) over a generator: stops at the first False. *)
  Fixpoint allM {A} (f : A -> option bool) (l : list A) : option bool :=
    match l with [] => Some true | x :: r => do b <- f x; if b : bool then allM f r else Some false end.
  (** 437-450 *)
  Definition compare (tol : Q) (this other : list grid) : option bool :=
    do o0 <- nth_error other 0;
    do t0 <- nth_error this 0;
    if length t0 <? length o0 then None
    else allM (fun p => allM (fun i => allM (fun j =>
        do go <- nth_error other p; do gt <- nth_error this p;
        do x <- cell go i j; do y <- cell gt i j; Some (within (bloat tol y) x))
      (seq 0 cont)) (seq 0 (length o0))) (seq 0 (length ag)).
End Contains.

(** contains, 319-450.  A tree is given with the agents of its first node.  The test of 341 compares an enumeration member
    with a string and is never true, so the reachability branch is always taken. *)
Definition subset (a b : list nat) : bool := forallb (fun x => existsb (Nat.eqb x) b) a.
Definition contains (strict : bool) (tol : Q) (ags : list nat) (this : tree cnode) (ago : list nat) (other : tree cnode) : option bool :=
  if (if strict then subset ags ago && subset ago ags else subset ago ags) then
    do a0 <- nth_error ago 0;
    do tr <- dget Nat.eqb a0 (c_trace (content other));
    do r0 <- nth_error tr 0;
    let cont := length r0 in
    do x <- collect a0 ago cont this;
    do y <- collect a0 ago cont other;
    compare ago cont tol x y
  else Some false.
(** is_equal, 525-530 *)
Definition is_equal (ags : list nat) (a : tree cnode) (ago : list nat) (b : tree cnode) (eps : Q) : option bool :=
  do x <- contains true eps ags a ago b;
  if x : bool then contains true eps ago b ags a else Some false.
