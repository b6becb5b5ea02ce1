(** Partitioned verification: verse/analysis/verifier.py [compute_full_reachtube_step_partitioned] (lines
    1612-1785) and the loop around it (lines 1515-1610), for boxes.  Conventions are those of Step.v. *)
From Coq Require Import Ascii String.
From Verif Require Import Base Dict PyText Boxes Overlay Scan Round Step.
Set Implicit Arguments.
Open Scope nat_scope.

Section Partitioned.
  Variables path cond : Type.
  Variable pvar : path -> word.
  Variable agents : list (dlogic path cond).
  (** verse/analysis/verifier.py:1823-1861, [_compute_trace_for_partition] called with one initial set: the
      tube of an agent in a mode for that set and the remaining time. *)
  Variable part_tube : nat -> mode -> box -> Q -> option tube.
  Variable g_disc : list mode -> list box -> nat -> path -> bool.
  Variable g_hyb : list mode -> list box -> nat -> path -> bool.
  Variable g_cont : list mode -> list box -> nat -> path -> bool * bool.
  Variable g_certain : list mode -> list box -> nat -> cond -> bool.
  Variable g_reset : list mode -> list box -> nat -> list path -> option (list mode * box).
  Variable maph : option word -> option mode -> option mode -> option word.
  (** [sensor.sense] followed by [apply_reset] (lines 1712-1731): the joint mode, the joint mode used for the
      continuous variables, the joint box, the agent and the paths. *)
  Variable p_reset : list mode -> list mode -> list box -> nat -> list path -> option (list mode * box).
  Variable digits : nat.

  (** verse/analysis/verifier.py:1640-1665: the tube of every agent that has none yet.  Without an initial
      set the union is an empty array, whose column 0 is an IndexError. *)
  Definition pfill (nd : node) (remain : Q) : option (list tube) :=
    mapM (fun a =>
      do t <- nth_error (n_trace nd) a;
      match t with
      | Some t => Some t
      | None =>
        do m <- nth_error (n_mode nd) a;
        do i <- nth_error (n_init nd) a;
        do t <- match i with
                | [b] => part_tube a m b remain
                | _ => do ts <- mapM (fun b => part_tube a m b remain) i; union_traces ts
                end;
        match t with
        | [] => None
        | _ => Some (map (shift_row (n_start nd)) t)
        end
      end) (seq 0 (length agents)).

  (** verse/analysis/verifier.py:1695-1734: the reset images of the pieces of the hitting set.  Only the first
      index of the transition is used.  The tubes of the other agents are read at that index. *)
  Definition pinits (nd : node) (trs : list tube) (n : nat) (dims : option (list nat)) (t : transition path box) : option (list box) :=
    do i0 <- nth_error (t_idx t) 0;
    do d <- t_dest t;
    do tr <- nth_error trs (t_agent t);
    do hit <- combine_rect (firstn 2 (skipn (2 * i0) tr));
    do parts <- partition_rect hit n dims;
    do bs <- box_at trs i0;
    let future := if mode_eqb (t_src t) d then n_mode nd else set_nth (t_agent t) d (n_mode nd) in
    mapM (fun part =>
      do r <- p_reset (n_mode nd) future (set_nth (t_agent t) (tl (fst part), tl (snd part)) bs) (t_agent t) (t_paths t);
      Some (snd r)) parts.

  (** The transition with other initial sets. *)
  Definition with_inits (t : transition path box) (inits : list box) : transition path box :=
    {| t_agent := t_agent t; t_src := t_src t; t_dest := t_dest t; t_inits := inits; t_idx := t_idx t; t_paths := t_paths t |}.

  (** verse/analysis/verifier.py:1689-1767: the child for a transition is built as in [child_of], from the
      reset images of the pieces.  A missing destination becomes the mode of the child in the code; here it
      is an error, as it is for the simulation function. *)
  Definition pchild (nd : node) (trs : list tube) (n : nat) (dims : option (list nat)) (t : transition path box) : option node :=
    do inits <- pinits nd trs n dims t;
    do c <- child_of digits nd trs (with_inits t inits);
    c.

  (** verse/analysis/verifier.py:1612-1785, [compute_full_reachtube_step_partitioned].  With [unsafe] and a
      violated assertion there are no transitions (they are [None]), and the step ends with no child.  The
      height of the node is tested in the loop (line 1562), not here. *)
  Definition pstep (unsafe : bool) (n : nat) (dims : option (list nat)) (nd : node) (remain : Q) : option result :=
    do trs <- pfill nd remain;
    do res <- search pvar agents g_disc g_hyb g_cont g_certain g_reset maph trs (n_mode nd);
    match res with
    | inl (asr, i) =>
      if unsafe then Some {| r_child := []; r_trace := trs; r_asserts := Some asr |}
      else Some {| r_child := []; r_trace := map (firstn ((i + 1) * 2)) trs; r_asserts := Some asr |}
    | inr ts =>
      do cs <- mapM (pchild nd trs n dims) ts;
      Some {| r_child := cs;
              r_trace := match ts with [] => trs | _ => map (firstn ((max_end ts + 1) * 2)) trs end;
              r_asserts := None |}
    end.
End Partitioned.
