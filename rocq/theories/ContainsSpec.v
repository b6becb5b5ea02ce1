(** What containment of trees means, for ContainsProps.v. *)
From Verif Require Import Base Dict Round Tree Contains.
From Coq Require Import Qabs.
Set Implicit Arguments.
Open Scope nat_scope.

Section Spec.
  Variable h : Q.              (* the time step *)
  Variable ag : list nat.      (* the agents *)
  Variable cont : nat.         (* entries per row *)

  (** The node covers [len] time steps from its start: each agent's trace has two rows per step (the lower and the upper
      corner of the step), each with the time first. *)
  Definition covers (n : cnode) (len : nat) : Prop :=
    forall a, In a ag -> exists tr, dget Nat.eqb a (c_trace n) = Some tr /\ length tr = 2 * len /\
      forall r, r < len -> exists lo hi, nth_error tr (2 * r) = Some lo /\ nth_error tr (2 * r + 1) = Some hi /\
        length lo = cont /\ length hi = cont /\
        (nth 0 lo 0 == c_start n + inject_Z (Z.of_nat r) * h)%Q /\ (nth 0 hi 0 == c_start n + inject_Z (Z.of_nat (S r)) * h)%Q.
  Definition steps_after (s s' : Q) (k : nat) : Prop := (s' == s + inject_Z (Z.of_nat k) * h)%Q.

  (** Every node covers at least one step, every child starts a whole number of steps after its parent, and some child
      starts before its parent ends. *)
  Inductive on_grid : tree cnode -> Prop :=
  | grid_node : forall n ch len, covers n len -> 0 < len ->
      (forall c, In c ch -> exists k, steps_after (c_start n) (c_start (content c)) k) ->
      (ch <> [] -> exists c k, In c ch /\ steps_after (c_start n) (c_start (content c)) k /\ k < len) ->
      (forall c, In c ch -> on_grid c) -> on_grid (Node n ch).

  (** No node goes beyond time [H] and every leaf ends there. *)
  Inductive runs_to (H : Q) : tree cnode -> Prop :=
  | runs_node : forall n ch len, covers n len -> (c_start n + inject_Z (Z.of_nat len) * h <= H)%Q ->
      (ch = [] -> c_start n + inject_Z (Z.of_nat len) * h == H)%Q -> (forall c, In c ch -> runs_to H c) -> runs_to H (Node n ch).

  (** At the [i]-th step after the start of the tree, some node allows value [x] for entry [j] of agent [a]. *)
  Inductive occurs : tree cnode -> nat -> nat -> nat -> Q -> Prop :=
  | occ_here : forall n ch a tr r lo hi j l u x, dget Nat.eqb a (c_trace n) = Some tr ->
      nth_error tr (2 * r) = Some lo -> nth_error tr (2 * r + 1) = Some hi -> nth_error lo j = Some l -> nth_error hi j = Some u ->
      (l <= x <= u)%Q -> occurs (Node n ch) r a j x
  | occ_child : forall n ch c k i a j x, In c ch -> steps_after (c_start n) (c_start (content c)) k -> occurs c i a j x ->
      occurs (Node n ch) (k + i) a j x.

  (** At the [i]-th step after the start of the tree, some node allows the whole row [v] for agent [a]. *)
  Inductive occurs_row : tree cnode -> nat -> nat -> vec -> Prop :=
  | row_here : forall n ch a tr r lo hi v, dget Nat.eqb a (c_trace n) = Some tr ->
      nth_error tr (2 * r) = Some lo -> nth_error tr (2 * r + 1) = Some hi -> in_box lo hi v -> occurs_row (Node n ch) r a v
  | row_child : forall n ch c k i a v, In c ch -> steps_after (c_start n) (c_start (content c)) k -> occurs_row c i a v ->
      occurs_row (Node n ch) (k + i) a v.
End Spec.
