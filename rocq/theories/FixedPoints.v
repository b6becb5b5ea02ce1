(** Fixed-point detection: verse/utils/fixed_points.py.

    Simplifications: agents are numbered in the order of [nodes[0].agent.keys()], and per-agent dictionaries are
    lists in that order ([None] for an agent without a trace).  The leaf [tree.get_leaf_nodes(tree.root)[0]] is
    a field of the tree.  Row entries and times are rationals compared exactly; points range over the reals, as
    in z3.  [Solver.check] is a parameter: [unsat fs] is the answer to "check() == unsat" after [add(fs)]. *)
From Coq Require Import Ascii String Reals Qreals.
From Verif Require Import Base PyText Dict.
Set Implicit Arguments.
Open Scope nat_scope.

Notation row := (list Q).          (** a time followed by the state *)

Record fnode := mknode { fmode : list (list word); ftrace : list (option (list row)) }.
Record ftree := mktree { fnodes : list fnode; fleaf : fnode }.

(** ** [reach_at_fix], fixed_points.py:22-83 *)
Notation enum := (dict word nat).
Definition Index : word := w "_index".

(** [sim_enum[agent] = {'_index': 0}], fixed_points.py:28-29. *)
Definition new_enum : enum := [(Index, 0)].

(** One turn of the loop numbering modes, fixed_points.py:41-44. *)
Definition number (d : enum) (mode : word) : enum :=
  if dmem word_eqb mode d then d
  else match dget word_eqb Index d with
       | Some i => dset word_eqb Index (S i) (dset word_eqb mode i d)
       | None => d
       end.

(** [lower.append(sim_enum[agent][mode])] for every mode, fixed_points.py:60-63. *)
Definition codes (d : enum) (modes : list word) : option (list Q) :=
  mapM (fun m => do c <- dget word_eqb m d; Some (inject_Z (Z.of_nat c))) modes.

Definition time_of (r : row) : option Q := hd_error r.

(** The loop over the rows of one agent, fixed_points.py:52-64, from row [i] with [n] turns left:
    [continue] before the window, [break] after it. *)
Fixpoint window_rows (tr : list row) (lo hi : Q) (step : nat) (cs : list Q) (n i : nat) : option (list row) :=
  match n with
  | 0 => Some []
  | S n' =>
    do r <- nth_error tr i;
    do t <- time_of r;
    if negb (Qle_bool lo t) then window_rows tr lo hi step cs n' (i + step)
    else
      do r' <- nth_error tr (i + 1);
      do t' <- time_of r';
      if negb (Qle_bool t' hi) then Some []
      else
        do rest <- window_rows tr lo hi step cs n' (i + step);
        Some ((tl r ++ cs) :: (tl r' ++ cs) :: rest)
  end.

(** [len(range(0, len(trace) - 1, step))] *)
Definition turns (len step : nat) : nat := (len - 1 + (step - 1)) / step.

(** The window [t_lower, t_upper], or [None]: the end of the tree at time [T]. *)
Definition agent_rows (win : option (Q * Q)) (T : Q) (cs : list Q) (tr : option (list row)) : option (list row) :=
  match win with
  | Some (lo, hi) =>
    match tr with
    | None => Some []                                      (* fixed_points.py:48-49 *)
    | Some tr =>
      do r0 <- nth_error tr 0; do t0 <- time_of r0;
      do r1 <- nth_error tr 1; do t1 <- time_of r1;
      let step := if Qeq_bool t0 t1 then 1 else 2 in       (* fixed_points.py:50 *)
      window_rows tr lo hi step cs (turns (length tr) step) 0
    end
  | None =>                                                (* fixed_points.py:66-74 *)
    match tr with
    | None => None
    | Some tr =>
      do l <- nth_error (rev tr) 0; do t <- time_of l;
      if Qeq_bool t T then
        do p <- nth_error (rev tr) 1;
        Some [tl p ++ cs; tl l ++ cs]
      else Some []
    end
  end.

(** The loop over the agents of a node, fixed_points.py:38-74. *)
Fixpoint node_rows (win : option (Q * Q)) (T : Q) (enums : list enum) (modes : list (list word)) (trs : list (option (list row)))
  : option (list enum * list (list row)) :=
  match enums, modes, trs with
  | [], [], [] => Some ([], [])
  | d :: enums', ms :: modes', tr :: trs' =>
    let d' := fold_left number ms d in
    do cs <- codes d' ms;
    do rs <- agent_rows win T cs tr;
    do rest <- node_rows win T enums' modes' trs';
    Some (d' :: fst rest, rs :: snd rest)
  | _, _, _ => None
  end.

(** The inner loop of fixed_points.py:77-81 for one agent: row [i] is appended to composed row [i]. *)
Fixpoint append_rows (acc rows : list row) : option (list row) :=
  match rows with
  | [] => Some acc
  | r :: rows' => match acc with a :: acc' => do rest <- append_rows acc' rows'; Some ((a ++ r) :: rest) | [] => None end
  end.
(** fixed_points.py:76-81; the accumulator is [None] until the first agent with rows. *)
Fixpoint compose (acc : option (list row)) (rs : list (list row)) : option (option (list row)) :=
  match rs with
  | [] => Some acc
  | rows :: rs' =>
    match rows with
    | [] => compose acc rs'
    | _ :: _ =>
      let a := match acc with Some a => a | None => map (fun _ => []) rows end in
      do a' <- append_rows a rows;
      compose (Some a') rs'
    end
  end.

(** The loop over the nodes, fixed_points.py:34-82; an empty node is overwritten by the next one. *)
Fixpoint reach_nodes (win : option (Q * Q)) (T : Q) (enums : list enum) (nodes : list fnode) : option (list (option (list row))) :=
  match nodes with
  | [] => Some []
  | nd :: rest =>
    do r <- node_rows win T enums (fmode nd) (ftrace nd);
    do comp <- compose None (snd r);
    do tail <- reach_nodes win T (fst r) rest;
    Some (match comp with
          | Some x => Some x :: tail
          | None => match rest with [] => [None] | _ :: _ => tail end
          end)
  end.

(** [reach_at_fix], fixed_points.py:22-83, with [win = None] when a bound is missing. *)
Definition reach_at_fix (t : ftree) (win : option (Q * Q)) : option (list (option (list row))) :=
  do first <- hd_error (fnodes t);                         (* nodes[0] *)
  let enums := map (fun _ => new_enum) (ftrace first) in
  do T <- match win with
          | Some _ => Some 0%Q
          | None =>                                        (* fixed_points.py:31-33 *)
            do o <- hd_error (ftrace (fleaf t)); do tr <- o; do l <- nth_error (rev tr) 0; time_of l
          end;
  reach_nodes win T enums (fnodes t).

(** ** z3 formulas over the vector P *)
Inductive fm := FAll (l : list fm) | FAny (l : list fm) | FNot (f : fm) | FGe (j : nat) (q : Q) | FLe (j : nat) (q : Q).
Fixpoint holds (p : nat -> R) (f : fm) : Prop :=
  match f with
  | FAll l => (fix all l := match l with [] => True | f :: l' => holds p f /\ all l' end) l
  | FAny l => (fix any l := match l with [] => False | f :: l' => holds p f \/ any l' end) l
  | FNot f => ~ holds p f
  | FGe j q => (Q2R q <= p j)%R
  | FLe j q => (p j <= Q2R q)%R
  end.

(** ** [contain_all_fix], fixed_points.py:86-115 *)
(** fixed_points.py:98-100: [includes = And(includes, P[j] >= lo[j], P[j] <= hi[j])] for [j < n]. *)
Fixpoint box_fm (lo hi : row) (acc : fm) (n j : nat) : option fm :=
  match n with
  | 0 => Some acc
  | S n' =>
    do a <- nth_error lo j; do b <- nth_error hi j;
    box_fm lo hi (FAll [acc; FGe j a; FLe j b]) n' (S j)
  end.
(** fixed_points.py:96-101: the vertices come in pairs. *)
Fixpoint rows_fm (n : nat) (acc : fm) (rows : list row) : option fm :=
  match rows with
  | [] => Some acc
  | lo :: hi :: rows' => do f <- box_fm lo hi (FAll []) n 0; rows_fm n (FAny [acc; f]) rows'
  | [_] => None
  end.
(** fixed_points.py:93-101 and 103-111. *)
Fixpoint reach_fm (n : nat) (acc : fm) (r : list (option (list row))) : option fm :=
  match r with
  | [] => Some acc
  | None :: r' => reach_fm n acc r'
  | Some rows :: r' => do f <- rows_fm n acc rows; reach_fm n f r'
  end.

(** What the solver is asked. *)
Definition query (r1 r2 : list (option (list row))) : option (list fm) :=
  do o <- hd_error r1; do rows <- o; do v <- hd_error rows;      (* fixed_points.py:87-88 *)
  let n := length v in
  do f1 <- reach_fm n (FAny []) r1;
  do f2 <- reach_fm n (FAny []) r2;
  Some [f1; FNot f2].

Section Solver.
  Variable unsat : list fm -> bool.

  Definition contain_all_fix (r1 r2 : list (option (list row))) : option bool :=
    do q <- query r1 r2; Some (unsat q).

  (** [fixed_points_fix], fixed_points.py:117-120. *)
  Definition fixed_points_fix (t : ftree) (T dt : Q) : option bool :=
    do e <- reach_at_fix t None;
    do r <- reach_at_fix t (Some (0, T - dt + dt * (1 # 100))%Q);
    contain_all_fix e r.
End Solver.
