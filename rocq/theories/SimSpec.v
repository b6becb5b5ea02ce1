(** Specification vocabulary for SimProps.v: what happens at a row of a simulated trace. *)
From Coq Require Import Ascii String.
From Verif Require Import Base Dict PyText ResetSpec Scan ScanSpec Step Sim Round.
Set Implicit Arguments.
Open Scope nat_scope.

Section Spec.
  Variables path cond : Type.
  Variable pvar : path -> word.
  Variable agents : list (sagent path cond).
  Variable e_cond : list mode -> list vec -> nat -> cond -> option bool.
  Variable e_path : list mode -> list vec -> nat -> path -> option bool.
  Variable e_val : list mode -> list vec -> nat -> path -> option value.
  Variable maph : option word -> option mode -> option mode -> option word.
  Variable trs : list strace.
  Variable ms : list mode.

  (** The state of agent [a] at row [i], time excluded; the states of all agents. *)
  Definition at_row (i a : nat) (s : vec) : Prop := exists tr r, nth_error trs a = Some tr /\ nth_error tr i = Some r /\ s = tl r.
  Definition all_at_row (i : nat) (js : list vec) : Prop :=
    length js = length trs /\ forall a, a < length trs -> exists s, nth_error js a = Some s /\ at_row i a s.

  (** Assertion [x] of agent [a] fails at row [i]. *)
  Definition fails (i a : nat) (x : word * cond * cond) : Prop :=
    exists ag js, nth_error agents a = Some ag /\ In x (d_asserts (sa_logic ag)) /\ all_at_row i js /\
      e_cond ms js a (snd (fst x)) = Some true /\ e_cond ms js a (snd x) = Some false.

  (** The agents that simulate looks at: those with at least one way to change mode or state. *)
  Definition looked_at (a : nat) : Prop :=
    exists ag, nth_error agents a = Some ag /\ has_args (sa_logic ag) = true /\ d_paths (sa_logic ag) <> [].

  (** Path [p] of agent [a] is enabled at row [i]. *)
  Definition enabled (i a : nat) (p : path) : Prop :=
    exists ag js, nth_error agents a = Some ag /\ has_args (sa_logic ag) = true /\ In p (d_paths (sa_logic ag)) /\
      all_at_row i js /\ e_path ms js a p = Some true.

  (** Nothing happens before row [n]. *)
  Definition quiet (n : nat) : Prop :=
    forall i, i < n -> (forall a x, looked_at a -> ~ fails i a x) /\ (forall a p, ~ enabled i a p).

  (** One enabled path for each variable that some enabled path assigns. *)
  Definition pick (i a : nat) (c : list path) : Prop :=
    c <> [] /\ NoDup (map pvar c) /\ (forall p, In p c -> enabled i a p) /\
    (forall p, enabled i a p -> exists q, In q c /\ pvar q = pvar p).

  (** The paths [c] turn the mode [m] into [d]: each discrete variable that is assigned has its new value, the
      others keep theirs; likewise for the continuous variables and the state. *)
  Definition new_mode (js : list vec) (a : nat) (names : list word) (c : list path) (m d : mode) : Prop :=
    length d = length m /\
    forall k, (exists p n, In p c /\ is_mode_var (pvar p) = true /\ nth_error names k = Some (pvar p) /\
                 e_val ms js a p = Some (VName n) /\ nth_error d k = Some n) \/
              ((forall p, In p c -> is_mode_var (pvar p) = true -> nth_error names k <> Some (pvar p)) /\ nth_error d k = nth_error m k).
  Definition new_state (js : list vec) (a : nat) (names : list word) (c : list path) (s s' : vec) : Prop :=
    length s' = length s /\
    forall k, (exists p q, In p c /\ is_mode_var (pvar p) = false /\ nth_error names k = Some (pvar p) /\
                 e_val ms js a p = Some (VNum q) /\ nth_error s' k = Some q) \/
              ((forall p, In p c -> is_mode_var (pvar p) = false -> nth_error names k <> Some (pvar p)) /\ nth_error s' k = nth_error s k).

  (** Agent [a] can move at row [i] to mode [d] and state [s'], and the map allows it. *)
  Definition can_move (i a : nat) (d : mode) (s' : vec) : Prop :=
    exists ag js m s c, nth_error agents a = Some ag /\ all_at_row i js /\ nth_error ms a = Some m /\ at_row i a s /\
      pick i a c /\ new_mode js a (sa_disc ag) c m d /\ new_state js a (sa_cont ag) c s s' /\
      permitted (d_types (sa_logic ag)) maph m d.

  (** The child for the moves [mv] (the destination and new state of each agent that moves) at row [n]. *)
  Definition child_for (digits : nat) (nd : snode) (n : nat) (mv : nat -> option (mode * vec)) (ch : snode) : Prop :=
    length (s_mode ch) = length (s_mode nd) /\ length (s_init ch) = length trs /\ length (s_trace ch) = length trs /\
    (forall a, a < length trs ->
      match mv a with
      | Some (d, s) => (a < length (s_mode nd) -> nth_error (s_mode ch) a = Some d) /\ nth_error (s_init ch) a = Some s /\ nth_error (s_trace ch) a = Some None
      | None => nth_error (s_mode ch) a = nth_error (s_mode nd) a /\
                (exists s, at_row n a s /\ nth_error (s_init ch) a = Some s) /\
                (exists tr, nth_error trs a = Some tr /\ nth_error (s_trace ch) a = Some (Some (skipn n tr)))
      end) /\
    (exists tr row t, nth_error trs 0 = Some tr /\ nth_error tr n = Some row /\ nth_error row 0 = Some t /\ s_start ch = py_round digits t) /\
    s_height ch = S (s_height nd).

  (** What a report [asr] of failing assertions at row [i] has to say: an entry for every agent (that is looked at) with a
      failing assertion, with the labels of exactly those that fail. *)
  Definition reports (i : nat) (asr : dict nat (list word)) : Prop :=
    (forall a ls, In (a, ls) asr -> looked_at a /\ ls <> [] /\ (forall l, In l ls <-> exists x, fails i a x /\ fst (fst x) = l)) /\
    (forall a x, looked_at a -> fails i a x -> exists ls, In (a, ls) asr).

  (** The moves [mv] at row [n]: every agent that can move does so, in one of the possible ways. *)
  Definition moves_at (n : nat) (mv : nat -> option (mode * vec)) : Prop :=
    forall a, match mv a with
              | Some (d, s) => can_move n a d s
              | None => forall d s, ~ can_move n a d s
              end.
End Spec.

(** The traces of all agents over the remaining time: inherited from the parent, or simulated from the initial state
    and shifted to the start time of the node. *)
Definition full_traces {path cond : Type} (agents : list (sagent path cond)) (trace_of : nat -> mode -> vec -> Q -> option strace)
  (nd : snode) (remain : Q) (trs : list strace) : Prop :=
  length trs = length agents /\
  forall a, a < length agents ->
    (exists t, nth_error (s_trace nd) a = Some (Some t) /\ nth_error trs a = Some t) \/
    (exists m i t, nth_error (s_trace nd) a = Some None /\ nth_error (s_mode nd) a = Some m /\ nth_error (s_init nd) a = Some i /\
       trace_of a m i remain = Some t /\ nth_error trs a = Some (map (shift_row (s_start nd)) t)).
