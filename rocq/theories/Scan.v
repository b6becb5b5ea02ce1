(** Searching a tube for transitions: verse/analysis/verifier.py [get_transition_verify_opt] and the mode
    projections of verse/analysis/analysis_tree.py.

    Agents are numbered by their position in [node.agent].  What the sensor, the guard evaluation and the
    reset evaluation answer at a tube index is given by functions (they are modelled in their own files);
    an exception is [None]. *)
From Coq Require Import Ascii String.
From Verif Require Import Base Dict PyText.
Set Implicit Arguments.
Open Scope nat_scope.

(** A mode: one name per discrete variable. *)
Notation mode := (list word).

(** verse/analysis/analysis_tree.py:19-24, [index_of]. *)
Fixpoint index_of_word (l : list word) (x : word) : option nat :=
  match l with
  | [] => None
  | y :: l' => if word_eqb y x then Some 0 else option_map S (index_of_word l' x)
  end.

(** verse/analysis/analysis_tree.py:201-208, [get_track].  (A mode with fewer entries than discrete
    variables, an IndexError in Python, gives [None].) *)
Definition get_track (disc_type : list word) (m : mode) : option word :=
  match index_of_word disc_type (w "TrackMode") with
  | None => None
  | Some i => nth_error m i
  end.

(** verse/analysis/analysis_tree.py:210-224, [get_mode]; a single name is a one-element list here. *)
Definition get_mode (disc_type : list word) (m : mode) : option mode :=
  match index_of_word disc_type (w "TrackMode") with
  | None => Some m
  | Some t =>
    match find (fun i => negb (i =? t)) (seq 0 (length disc_type)) with
    | Some i => option_map (fun x => [x]) (nth_error m i)
    | None => None
    end
  end.

Section Scan.
  Variables path cond rect : Type.
  Variable pvar : path -> word.

  (** The parts of an agent's decision logic that are used. *)
  Record dlogic := {
    has_args : bool;                      (** [len(decision_logic.args) != 0] *)
    d_asserts : list (word * cond * cond); (** label, [pre], [cond] *)
    d_paths : list path;
    d_types : list word                   (** discrete variable types, for [get_mode]/[get_track] *) }.

  Variable agents : list dlogic.

  (** Answers of [evaluate_guard_disc] (on the first rows), [evaluate_guard_hybrid] and
      [evaluate_guard_cont] (at a tube index) for a guard; of [eval_expr] (lines 1108-1119) for an
      assertion part: is it certain at this index. *)
  Variable disc : nat -> path -> bool.
  Variable hyb : nat -> path -> nat -> bool.
  Variable cont : nat -> path -> nat -> bool * bool.
  Variable certain : nat -> cond -> nat -> bool.
  (** [apply_reset] for an agent, a tube index and a list of paths. *)
  Variable reset : nat -> nat -> list path -> option (list mode * rect).
  (** The map's [h]; a map that raises for a triple it does not know is not modelled. *)
  Variable maph : option word -> option mode -> option mode -> option word.
  Variable src : list mode.              (** [node.mode] *)

  (** A transition as returned: agent, source, destination, reset rectangles, tube indices, paths. *)
  Record transition := {
    t_agent : nat; t_src : mode; t_dest : option mode;
    t_inits : list rect; t_idx : list nat; t_paths : list path }.

  (** What a previous run contributes (lines 944-1009): [c_min] is [min_trans_ind], [c_trans] the cached
      transitions, [c_guards] the cached guards with the index up to which they were checked, [c_paths] the
      changed paths. *)
  Record cached := { c_min : option nat; c_trans : list transition; c_guards : nat -> list (path * nat); c_paths : list (nat * path) }.

  (** verse/analysis/verifier.py:944-947. *)
  Definition all_paths : list (nat * path) :=
    flat_map (fun a => match nth_error agents a with Some lg => map (pair a) (d_paths lg) | None => [] end) (seq 0 (length agents)).

  Definition agent_has_args (a : nat) : bool := match nth_error agents a with Some lg => has_args lg | None => false end.

  (** verse/analysis/verifier.py:1014-1045, [agent_guard_dict]. *)
  Definition guard_dict (ps : list (nat * path)) : dict nat (list path) :=
    fold_left (fun d p => if agent_has_args (fst p) && disc (fst p) (snd p) then dappend Nat.eqb (fst p) (snd p) d else d) ps [].

  (** verse/analysis/verifier.py:1104-1142: labels of the assertions reported for agent [a] at index [i]. *)
  Definition asserts_at (lg : dlogic) (a i : nat) : list word :=
    map (fun x => fst (fst x)) (filter (fun x => certain a (snd (fst x)) i && negb (certain a (snd x) i)) (d_asserts lg)).

  (** verse/analysis/verifier.py:1151-1188, [resets] of one agent: the satisfied paths per variable. *)
  Definition fired (a i : nat) (gs : list path) : dict word (list path) :=
    fold_left (fun d p => if hyb a p i && fst (cont a p i) then dappend word_eqb (pvar p) p d else d) gs [].

  (** [any_contained] of one agent. *)
  Definition sure (a i : nat) (gs : list path) : bool := existsb (fun p => hyb a p i && snd (cont a p i)) gs.

  (** verse/analysis/verifier.py:1191-1202. *)
  Definition combos (d : dict word (list path)) : list (list path) :=
    match d with [] => [] | _ => product (map snd d) end.

  Definition hit : Type := nat * list path.
  Definition visit_acc : Type := dict nat (list word) * list hit * bool.

  (** verse/analysis/verifier.py:1096-1202, one agent at one index ([combine_len] is always 1: the queue of
      lines 1054-1061 holds single indices only).  An unchecked cached guard has five components where the
      loop unpacks four (lines 1151-1156): a ValueError. *)
  Definition visit_agent (cg : nat -> list (path * nat)) (gd : dict nat (list path)) (i : nat) (acc : visit_acc) (a : nat)
    : option visit_acc :=
    let '(asr, hits, any) := acc in
    match nth_error agents a with
    | None => None
    | Some lg =>
      if negb (has_args lg) then Some acc else
      match asserts_at lg a i with
      | l :: ls => Some (asr ++ [(a, l :: ls)], hits, any)
      | [] =>
        match dget Nat.eqb a gd with
        | None => Some acc
        | Some gs =>
          if existsb (fun g => snd g <? i) (cg a) then None
          else Some (asr, hits ++ map (pair a) (combos (fired a i gs)), any || sure a i gs)
        end
      end
    end.

  Definition visit (cg : nat -> list (path * nat)) (gd : dict nat (list path)) (i : nat) : option visit_acc :=
    fold_left (fun acc a => do x <- acc; visit_agent cg gd i x a) (seq 0 (length agents)) (Some ([], [], false)).

  Inductive outcome :=
  | Violated (asr : dict nat (list word)) (i : nat)
  | FromCache
  | Hits (gh : list (list hit * nat)).

  (** verse/analysis/verifier.py:1064-1213, the loop over the tube indices.  [prev] is [hits] of the previous
      iteration. *)
  Fixpoint scan (cmin : option nat) (cg : nat -> list (path * nat)) (gd : dict nat (list path)) (idxs : list nat)
           (gh : list (list hit * nat)) (prev : list hit) : option outcome :=
    match idxs with
    | [] => Some (Hits gh)
    | i :: idxs' =>
      if match cmin with Some m => m <? i | None => false end then
        match prev with [] => Some FromCache | _ => Some (Hits (gh ++ [(prev, i)])) end
      else
        do v <- visit cg gd i;
        let '(asr, hits, any) := v in
        match asr, hits with
        | _ :: _, _ => Some (Violated asr i)
        | [], _ :: _ => if any then Some (Hits (gh ++ [(hits, i)])) else scan cmin cg gd idxs' (gh ++ [(hits, i)]) hits
        | [], [] => match gh with
                    | _ :: _ => Some (Hits gh)
                    | [] => if any then Some (Hits gh) else scan cmin cg gd idxs' gh []
                    end
        end
    end.

  (** [reset_dict]: agent, reset index, destination, entries (reset rectangle, index, paths). *)
  Definition entry : Type := rect * nat * list path.
  Definition rdict : Type := dict nat (dict (list nat) (dict (option mode) (list entry))).

  Definition mode_eqb : mode -> mode -> bool := list_eqb word_eqb.

  (** verse/analysis/verifier.py:1227-1238.  [GuardExpressionAst.guard_idx] is 0 for every guard
      (verse/automaton/guard.py:82-86), so the reset index is a tuple of zeros. *)
  Definition add_dest (a : nat) (ridx : list nat) (e : entry) (rd : rdict) (d : option mode) : rdict :=
    dalter Nat.eqb (fun o => dalter (list_eqb Nat.eqb)
      (fun o2 => dappend (opt_eqb mode_eqb) d e (match o2 with Some x => x | None => [] end)) ridx
      (match o with Some x => x | None => [] end)) a rd.

  (** verse/analysis/verifier.py:1218-1238, one hit. *)
  Definition add_hit (i : nat) (rd : rdict) (h : hit) : option rdict :=
    do r <- reset (fst h) i (snd h);
    let ds := match fst r with [] => [None] | ds => map Some ds end in
    Some (fold_left (add_dest (fst h) (map (fun _ => 0) (snd h)) (snd r, i, snd h)) ds rd).

  Definition collect (gh : list (list hit * nat)) : option rdict :=
    fold_left (fun acc g => fold_left (fun acc2 h => do rd <- acc2; add_hit (snd g) rd h) (fst g) acc) gh (Some []).

  (** verse/analysis/verifier.py:1246-1252. *)
  Definition mk_transition (a : nat) (d : option mode) (es : list entry) : transition :=
    {| t_agent := a; t_src := nth a src []; t_dest := d;
       t_inits := map (fun e => fst (fst e)) es; t_idx := map (fun e => snd (fst e)) es;
       t_paths := match es with e :: _ => snd e | [] => [] end |}.

  Definition candidates (rd : rdict) : list transition :=
    flat_map (fun p => flat_map (fun q => map (fun r => mk_transition (fst p) (fst r) (snd r)) (snd q)) (snd p)) rd.

  (** verse/analysis/verifier.py:1253-1264, the map filter: [True] when the transition is kept.  The list
      [map_modes] is never [None], so that conjunct is always true.  A destination [None] is a TypeError in
      [get_mode]. *)
  Definition map_allows (tys : list word) (s d : mode) : bool :=
    let sm := get_mode tys s in let st := get_track tys s in
    let dm := get_mode tys d in let dt := get_track tys d in
    negb ((negb (opt_eqb mode_eqb sm dm) || negb (opt_eqb word_eqb st dt)) && negb (opt_eqb word_eqb dt (maph st sm dm))).
  Definition keep (t : transition) : option bool :=
    match t_dest t, nth_error agents (t_agent t) with
    | Some d, Some lg => Some (map_allows (d_types lg) (t_src t) d)
    | _, _ => None
    end.

  Fixpoint filterM {A : Type} (f : A -> option bool) (l : list A) : option (list A) :=
    match l with
    | [] => Some []
    | a :: l' => do b <- f a; do r <- filterM f l'; Some (if b then a :: r else r)
    end.

  Definition transitions_of (gh : list (list hit * nat)) : option (list transition) :=
    do rd <- collect gh; filterM keep (candidates rd).

  (** verse/analysis/verifier.py:929-1278, [get_transition_verify_opt] for a tube of [len] indices.
      [inl] is an assertion violation with its index, [inr] the transitions. *)
  Definition get_transitions (c : option cached) (len : nat) : option ((dict nat (list word) * nat) + list transition) :=
    let '(cmin, ctrans, cg, ps) :=
      match c with
      | None => (None, [], fun _ => [], all_paths)
      | Some c => (c_min c, c_trans c, c_guards c, c_paths c)
      end in
    match cmin, ps with
    | Some _, [] => Some (inr ctrans)
    | _, _ =>
      do o <- scan cmin cg (guard_dict ps) (seq 0 len) [] [];
      match o with
      | Violated asr i => Some (inl (asr, i))
      | FromCache => Some (inr ctrans)
      | Hits gh => do ts <- transitions_of gh; Some (inr (ts ++ ctrans))
      end
    end.
End Scan.
