(** One verification step: verse/analysis/verifier.py [compute_full_reachtube_step] for boxes (all
    reachability methods but the star sets).

    Agents are numbered by their position in [node.agent]; a dictionary over the agents is a list.
    [static], [uncertain_param] and [agent] are the same in every node and part of the given functions.  The
    incremental mode is modelled in Scan.v and Overlay.v. *)
From Coq Require Import Ascii String.
From Verif Require Import Base Dict PyText Boxes Overlay Scan Round.
Set Implicit Arguments.
Open Scope nat_scope.

(** The parts of [AnalysisTreeNode] (verse/analysis/analysis_tree.py:44-119) a step reads; [None] in
    [n_trace] is an agent without an entry in [node.trace]. *)
Record node := mk_node {
  n_trace : list (option tube);
  n_init : list (list box);
  n_mode : list mode;
  n_start : Q;
  n_height : nat }.

(** What a step produces: the children, the traces and the assertion hits of the node. *)
Record result := mk_result {
  r_child : list node;
  r_trace : list tube;
  r_asserts : option (dict nat (list word)) }.

(** verse/analysis/verifier.py:552, [trace[:, 0] += node.start_time]. *)
Definition shift_row (t : Q) (row : vec) : vec := match row with [] => [] | x :: r => (x + t)%Q :: r end.

(** [min(len(v) for v in node.trace.values())]; no agent at all is a ValueError. *)
Definition min_len {A : Type} (ls : list (list A)) : option nat :=
  match ls with
  | [] => None
  | l :: ls' => Some (fold_left (fun m x => Nat.min m (length x)) ls' (length l))
  end.

Section Step.
  Variables path cond : Type.
  Variable pvar : path -> word.
  Variable agents : list (dlogic path cond).
  (** The tube of an agent in a mode for a list of initial sets and the remaining time
      (verse/analysis/verifier.py:411-549; modelled for the box methods in Overlay.v). *)
  Variable tube_of : nat -> mode -> list box -> Q -> option tube.
  (** Guards, assertions and resets on the joint box of all agents (time excluded) in the joint mode. *)
  Variable g_disc : list mode -> list box -> nat -> path -> bool.
  Variable g_hyb : list mode -> list box -> nat -> path -> bool.
  Variable g_cont : list mode -> list box -> nat -> path -> bool * bool.
  Variable g_certain : list mode -> list box -> nat -> cond -> bool.
  Variable g_reset : list mode -> list box -> nat -> list path -> option (list mode * box).
  Variable maph : option word -> option mode -> option mode -> option word.

  (** verse/analysis/verifier.py:404-553: the tube of every agent that has none yet. *)
  Definition fill (nd : node) (remain : Q) : option (list tube) :=
    mapM (fun a =>
      do t <- nth_error (n_trace nd) a;
      match t with
      | Some t => Some t
      | None =>
        do m <- nth_error (n_mode nd) a;
        do i <- nth_error (n_init nd) a;
        do t <- tube_of a m i remain;
        Some (map (shift_row (n_start nd)) t)
      end) (seq 0 (length agents)).

  (** The joint box at a tube index (lines 1081-1088).  Column 0, the time, is dropped here; the sensor
      ignores it. *)
  Definition box_at (trs : list tube) (i : nat) : option (list box) :=
    mapM (fun tr => do b <- combine_rect (firstn 2 (skipn (2 * i) tr)); Some (tl (fst b), tl (snd b))) trs.

  (** The call of [get_transition_verify_opt] (lines 569-571).  The joint boxes of all indices are formed
      first: rows of different lengths are an error even behind the index where the scan stops. *)
  Definition search (trs : list tube) (modes : list mode)
    : option ((dict nat (list word) * nat) + list (transition path box)) :=
    do l <- min_len trs;
    do bs <- mapM (box_at trs) (seq 0 (l / 2));
    let b i := nth i bs [] in
    get_transitions pvar agents (g_disc modes (b 0)) (fun a p i => g_hyb modes (b i) a p) (fun a p i => g_cont modes (b i) a p)
      (fun a c i => g_certain modes (b i) a c) (fun a i ps => g_reset modes (b i) a ps) maph modes None (l / 2).

  Variable digits : nat.                 (** [ndigits] of the nodes *)

  (** verse/analysis/verifier.py:636-674, the child for a transition. *)
  Definition child_of (nd : node) (trs : list tube) (t : transition path box) : option (option node) :=
    do i0 <- nth_error (t_idx t) 0;
    let cut := map (skipn (i0 * 2)) trs in
    match t_dest t with
    | None => Some None
    | Some d =>
      do t0 <- nth_error cut 0;
      do row0 <- nth_error t0 0;
      do time <- nth_error row0 0;
      do inits <- mapM (fun a =>
        if a =? t_agent t then Some (t_inits t)
        else do c <- nth_error cut a; do lo <- nth_error c 0; do hi <- nth_error c 1; Some [(tl lo, tl hi)]) (seq 0 (length trs));
      Some (Some {|
        n_trace := map (fun p => if fst p =? t_agent t then None else Some (snd p)) (combine (seq 0 (length trs)) cut);
        n_init := inits;
        n_mode := set_nth (t_agent t) d (n_mode nd);
        n_start := py_round digits (py_round 10 time);
        n_height := S (n_height nd) |})
    end.

  (** verse/analysis/verifier.py:628, 634 and 643-644. *)
  Definition max_end (ts : list (transition path box)) : nat :=
    fold_left (fun m t => let e := last (t_idx t) 0 in if m <? e then e else m) ts 0.

  Fixpoint somes {A : Type} (l : list (option A)) : list A :=
    match l with
    | [] => []
    | Some a :: l' => a :: somes l'
    | None :: l' => somes l'
    end.

  (** verse/analysis/verifier.py:380-694, [compute_full_reachtube_step].  [unsafe] is
      [config.unsafe_continue]; [max_height = None] is infinity.  With [unsafe] and a violated assertion the
      transitions are [None], and grouping them (line 594) is a TypeError. *)
  Definition step (unsafe : bool) (max_height : option nat) (nd : node) (remain : Q) : option result :=
    do trs <- fill nd remain;
    do res <- search trs (n_mode nd);
    match res with
    | inl (asr, i) =>
      if unsafe then None
      else Some {| r_child := []; r_trace := map (firstn ((i + 1) * 2)) trs; r_asserts := Some asr |}
    | inr ts =>
      if match max_height with Some h => h <=? n_height nd | None => false end then
        Some {| r_child := []; r_trace := trs; r_asserts := None |}
      else
        do cs <- mapM (child_of nd trs) ts;
        Some {| r_child := somes cs;
                r_trace := match ts with [] => trs | _ => map (firstn ((max_end ts + 1) * 2)) trs end;
                r_asserts := None |}
    end.
End Step.
