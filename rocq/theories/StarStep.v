(** One verification step when reachable sets are star sets: verse/analysis/verifier.py [compute_full_reachtube_step] with
    [ReachabilityMethod.STAR_SETS].  Conventions as in Step.v.  The incremental mode is left out: line 216
    of [calculate_full_bloated_tube_stars] raises there, for names that are never assigned. *)
From Coq Require Import Ascii String.
From Verif Require Import Base Dict PyText Scan Round Step Star.
Set Implicit Arguments.
Open Scope nat_scope.

(** Pairs [[time, star]] (starset.py:106, 199, 208). *)
Notation stube := (list (Q * star)).

(** An entry of [node.init]: a star, or the nested lists [[[star], [star']]] of lines 662-664. *)
Inductive sinit := One (s : star) | Two (s s' : star).

Record snode := mk_snode {
  s_trace : list (option stube);
  s_init : list (list sinit);
  s_mode : list mode;
  s_start : Q;
  s_height : nat }.

Record sresult := mk_sresult {
  s_child : list snode;
  s_traces : list stube;
  s_asserts : option (dict nat (list word)) }.

Section StarStep.
  Variables path cond : Type.
  Variable pvar : path -> word.
  Variable agents : list (dlogic path cond).
  (** verse/analysis/verifier.py:127-231, [calculate_full_bloated_tube_stars] (Star.v, StarSample.v). *)
  Variable tube_of : nat -> mode -> list star -> Q -> option stube.
  (** Guards, assertions and resets on the joint entry of the tubes in the joint mode (StarGuard.v, StarReset.v). *)
  Variable g_disc : list mode -> list (Q * star) -> nat -> path -> bool.
  Variable g_hyb : list mode -> list (Q * star) -> nat -> path -> bool.
  Variable g_cont : list mode -> list (Q * star) -> nat -> path -> bool * bool.
  Variable g_certain : list mode -> list (Q * star) -> nat -> cond -> bool.
  Variable g_reset : list mode -> list (Q * star) -> nat -> list path -> option (list mode * star).
  Variable maph : option word -> option mode -> option mode -> option word.

  (** Nested lists have no [calc_reach_tube]. *)
  Definition plain (i : sinit) : option star := match i with One s => Some s | Two _ _ => None end.

  (** verse/analysis/verifier.py:404-413, 432-455 and 551-553; an empty tube has no column to shift. *)
  Definition star_fill (nd : snode) (remain : Q) : option (list stube) :=
    mapM (fun a =>
      do t <- nth_error (s_trace nd) a;
      match t with
      | Some t => Some t
      | None =>
        do m <- nth_error (s_mode nd) a;
        do i <- nth_error (s_init nd) a;
        do stars <- mapM plain i;
        do t <- tube_of a m stars remain;
        match t with [] => None | _ => Some (map (fun e => ((fst e + s_start nd)%Q, snd e)) t) end
      end) (seq 0 (length agents)).

  (** [node.trace[aid][idx]] of all agents, lines 1071-1079. *)
  Definition joint_at (trs : list stube) (i : nat) : option (list (Q * star)) := mapM (fun tr => nth_error tr i) trs.

  (** The call of [get_transition_verify_opt] (lines 569-571); [trace_length] is line 1055. *)
  Definition star_search (trs : list stube) (modes : list mode) : option ((dict nat (list word) * nat) + list (transition path star)) :=
    do l <- min_len trs;
    do js <- mapM (joint_at trs) (seq 0 l);
    let b i := nth i js [] in
    get_transitions pvar agents (g_disc modes (b 0)) (fun a p i => g_hyb modes (b i) a p) (fun a p i => g_cont modes (b i) a p)
      (fun a c i => g_certain modes (b i) a c) (fun a i ps => g_reset modes (b i) a ps) maph modes None l.

  Variable digits : nat.

  (** verse/analysis/verifier.py:636-674, the child for a transition: the tubes are cut at [start_idx], and the first two
      entries of each other agent become its initial set. *)
  Definition star_child (nd : snode) (trs : list stube) (t : transition path star) : option (option snode) :=
    do i0 <- nth_error (t_idx t) 0;
    let cut := map (skipn i0) trs in
    match t_dest t with
    | None => Some None
    | Some d =>
      do t0 <- nth_error cut 0;
      do e0 <- nth_error t0 0;
      do inits <- mapM (fun a =>
        if a =? t_agent t then Some (map One (t_inits t))
        else do c <- nth_error cut a; do lo <- nth_error c 0; do hi <- nth_error c 1; Some [Two (snd lo) (snd hi)]) (seq 0 (length trs));
      Some (Some {|
        s_trace := map (fun p => if fst p =? t_agent t then None else Some (snd p)) (combine (seq 0 (length trs)) cut);
        s_init := inits;
        s_mode := set_nth (t_agent t) d (s_mode nd);
        s_start := py_round digits (py_round 10 (fst e0));
        s_height := S (s_height nd) |})
    end.

  (** verse/analysis/verifier.py:628, 634 and 643-644. *)
  Definition star_max_end (ts : list (transition path star)) : nat :=
    fold_left (fun m t => let e := last (t_idx t) 0 in if m <? e then e else m) ts 0.

  (** verse/analysis/verifier.py:380-694 for star sets. *)
  Definition star_step (unsafe : bool) (max_height : option nat) (nd : snode) (remain : Q) : option sresult :=
    do trs <- star_fill nd remain;
    do res <- star_search trs (s_mode nd);
    match res with
    | inl (asr, i) =>
      if unsafe then None
      else Some {| s_child := []; s_traces := map (firstn (i + 1)) trs; s_asserts := Some asr |}
    | inr ts =>
      if match max_height with Some h => h <=? s_height nd | None => false end then
        Some {| s_child := []; s_traces := trs; s_asserts := None |}
      else
        do cs <- mapM (star_child nd trs) ts;
        Some {| s_child := somes cs;
                s_traces := match ts with [] => trs | _ => map (firstn (star_max_end ts + 1)) trs end;
                s_asserts := None |}
    end.
End StarStep.
