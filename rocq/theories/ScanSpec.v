(** Specification vocabulary for ScanProps.v: what can happen at a tube index, without reference to the
    scanning code. *)
From Coq Require Import Ascii String.
From Verif Require Import Base Dict PyText Scan.
From Coq Require Import Permutation.
Set Implicit Arguments.
Open Scope nat_scope.

Section Spec.
  Variables path cond : Type.
  Variable pvar : path -> word.
  Variable agents : list (dlogic path cond).
  Variable disc : nat -> path -> bool.
  Variable hyb : nat -> path -> nat -> bool.
  Variable cont : nat -> path -> nat -> bool * bool.
  Variable certain : nat -> cond -> nat -> bool.

  (** Agent [a] has the decision logic [lg], and it is one that is checked at all. *)
  Definition checked (a : nat) (lg : dlogic path cond) : Prop := nth_error agents a = Some lg /\ has_args lg = true.

  (** Assertion [x] of agent [a] is reported at index [i]: its path condition is certain, its condition is not. *)
  Definition broken (a i : nat) (x : word * cond * cond) : Prop :=
    certain a (snd (fst x)) i = true /\ certain a (snd x) i = false.
  Definition violates (a i : nat) : Prop := exists lg x, checked a lg /\ In x (d_asserts lg) /\ broken a i x.
  Definition violation (i : nat) : Prop := exists a, violates a i.

  (** Path [p] of agent [a] may fire at index [i] / is certain to fire. *)
  Definition may (a i : nat) (p : path) : Prop :=
    (exists lg, checked a lg /\ In p (d_paths lg)) /\ disc a p = true /\ hyb a p i = true /\ fst (cont a p i) = true.
  Definition must (a i : nat) (p : path) : Prop :=
    (exists lg, checked a lg /\ In p (d_paths lg)) /\ disc a p = true /\ hyb a p i = true /\ snd (cont a p i) = true.
  Definition fires (i : nat) : Prop := exists a p, may a i p /\ ~ violates a i.
  Definition surely (i : nat) : Prop := exists a p, must a i p /\ ~ violates a i.

  (** One way of resolving the enabled paths of agent [a] at index [i]: one path for each variable that some
      enabled path assigns. *)
  Definition choice (a i : nat) (c : list path) : Prop :=
    c <> [] /\ NoDup (map pvar c) /\ (forall p, In p c -> may a i p) /\
    (forall p, may a i p -> exists q, In q c /\ pvar q = pvar p).

  (** The indices [0 .. n-1] are visited without a violation, and the scan goes on at each of them: once
      something fired, it fires at every following index, and nothing is certain before the last one. *)
  Definition visited (n : nat) : Prop :=
    (forall i, i < n -> ~ violation i) /\
    (forall i j, i < j -> j < n -> fires i -> fires j) /\
    (forall i, S i < n -> ~ surely i).

  (** The scan of [len] indices ends after [n] of them. *)
  Definition ends (n len : nat) : Prop :=
    n = len \/ (0 < n /\ surely (pred n)) \/ (n < len /\ ~ violation n /\ ~ fires n /\ exists i, i < n /\ fires i).
End Spec.

(** What the map allows: the transition changes neither the agent's mode nor its track, or it leads to the
    track the map prescribes for this change of mode. *)
Definition permitted (tys : list word) (maph : option word -> option mode -> option mode -> option word) (s d : mode) : Prop :=
  (get_mode tys s = get_mode tys d /\ get_track tys s = get_track tys d) \/
  get_track tys d = maph (get_track tys s) (get_mode tys s) (get_mode tys d).

(** Agent [a] may move at index [i], resolving its enabled paths by [c], to the mode [d] with the reset set [r]. *)
Definition moves {path cond rect} (pvar : path -> word) (agents : list (dlogic path cond)) disc hyb cont certain
  (reset : nat -> nat -> list path -> option (list mode * rect)) maph (src : list mode)
  (a i : nat) (c : list path) (d : mode) (r : rect) : Prop :=
  choice pvar agents disc hyb cont a i c /\ ~ violates agents certain a i /\
  exists ds lg, reset a i c = Some (ds, r) /\ In d ds /\ nth_error agents a = Some lg /\ permitted (d_types lg) maph (nth a src []) d.

(** Entry [k] of a transition: the reset set [r], obtained at index [i]. *)
Definition has_entry {path rect} (t : transition path rect) (i : nat) (r : rect) : Prop :=
  exists k, nth_error (t_idx t) k = Some i /\ nth_error (t_inits t) k = Some r.
