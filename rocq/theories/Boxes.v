(** Hulls of boxes and partitions of boxes (verse/analysis/verifier.py, verse/analysis/incremental.py).

    A rectangle [[lb, ub]] is a pair of vectors; a reachtube is a list of rows in which rows [2k] and
    [2k+1] are the lower and upper corner of step [k].  Column 0 of a tube row is time. *)
From Verif Require Import Base.
Set Implicit Arguments.
Open Scope nat_scope.

Notation box := (vec * vec)%type.

(** numpy refuses ragged nested lists. *)
Definition same_len (rows : list vec) : bool :=
  match rows with
  | [] => true
  | r :: rs => forallb (fun r' => length r' =? length r) rs
  end.

(** Reduction along axis 0; numpy and Python's [min]/[max] raise on an empty list. *)
Definition colfold (f : Q -> Q -> Q) (rows : list vec) : option vec :=
  match rows with
  | [] => None
  | r :: rs => Some (fold_left (zipw f) rs r)
  end.

(** verse/analysis/verifier.py:1875-1887, [combine_rect]. *)
Definition combine_rect (trace : list vec) : option box :=
  if same_len trace then
    do lo <- colfold Qmin (evens trace);
    do hi <- colfold Qmax (odds trace);
    Some (lo, hi)
  else None.

(** verse/analysis/incremental.py:122-133, [combine_all] with [stars=False]; each element of [inits]
    is a pair of corners. *)
Definition combine_all (inits : list box) : option box :=
  if same_len (map fst inits ++ map snd inits) then
    do lo <- colfold Qmin (map fst inits);
    do hi <- colfold Qmax (map snd inits);
    Some (lo, hi)
  else None.

(** verse/analysis/verifier.py:1869-1872, one iteration [i = 2k] of the loop of [_union_traces];
    a missing row is an IndexError. *)
Definition union_at (traces : list (list vec)) (k : nat) : option (list vec) :=
  do los <- mapM (fun t => nth_error t (2 * k)) traces;
  do his <- mapM (fun t => nth_error t (2 * k + 1)) traces;
  if same_len los && same_len his then
    do lb <- colfold Qmin los;
    do ub <- colfold Qmax his;
    Some [lb; ub]
  else None.

(** verse/analysis/verifier.py:1863-1873, [_union_traces]; [range(0, len, 2)] has [ceil(len/2)]
    elements. *)
Definition union_traces (traces : list (list vec)) : option (list vec) :=
  match traces with
  | [] => Some []
  | t0 :: _ =>
    do rows <- mapM (union_at traces) (seq 0 (Nat.div2 (S (length t0))));
    Some (concat rows)
  end.

(** verse/analysis/verifier.py:1806, the comprehension computing [varying_dims]; an index beyond the
    rectangle is an IndexError.  Dimensions are natural numbers: Python's negative indices are not
    modelled. *)
Fixpoint varying_dims (lb ub : vec) (dims : list nat) : option (list nat) :=
  match dims with
  | [] => Some []
  | i :: dims' =>
    do l <- nth_error lb i;
    do u <- nth_error ub i;
    do rest <- varying_dims lb ub dims';
    Some (if Qeq_bool l u then rest else i :: rest)
  end.

(** verse/analysis/verifier.py:1816-1819, body of the loop over [varying_dims]. *)
Definition split_dim (lb ub : vec) (n : nat) (acc : box) (p : nat * nat) : box :=
  let '(dim, idx) := p in
  let step := ((nth dim ub 0 - nth dim lb 0) / inject_Z (Z.of_nat n))%Q in
  (set_nth dim (nth dim lb 0 + inject_Z (Z.of_nat idx) * step)%Q (fst acc),
   set_nth dim (nth dim lb 0 + inject_Z (Z.of_nat (S idx)) * step)%Q (snd acc)).

(** verse/analysis/verifier.py:1787-1821, [_partition_rect].
    [partition_dims = None] is the default of all dimensions except 0. *)
Definition partition_rect (rect : box) (n : nat) (partition_dims : option (list nat)) : option (list box) :=
  let '(lb, ub) := rect in
  let dims := match partition_dims with
              | None => seq 1 (length lb - 1)
              | Some ds => ds
              end in
  let dims := filter (fun d => negb (d =? 0)) dims in
  do vd <- varying_dims lb ub dims;
  match vd with
  | [] => Some [rect]
  | _ => Some (map (fun indices => fold_left (split_dim lb ub n) (combine vd indices) (lb, ub))
                   (product (repeat (seq 0 n) (length vd))))
  end.
