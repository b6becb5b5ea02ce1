(** Trees, for TreeProps.v. *)
From Coq Require Import Ascii String.
From Verif Require Import Base Dict PyText Tree.
Set Implicit Arguments.
Open Scope nat_scope.

Section Spec.
  Variable A : Type.
  (** The node reached from the root by taking the given children in turn; its depth is the length of the path. *)
  Fixpoint at_path (t : tree A) (p : list nat) : option (tree A) :=
    match p with
    | [] => Some t
    | i :: r => do c <- nth_error (child t) i; at_path c r
    end.
  Definition is_path (t : tree A) (p : list nat) : Prop := at_path t p <> None.
  (** Earlier elements are not deeper. *)
  Definition by_depth (ps : list (list nat)) : Prop :=
    forall i j p q, i < j -> nth_error ps i = Some p -> nth_error ps j = Some q -> length p <= length q.
End Spec.

(** Object [o] of the heap is the root of a tree with these contents. *)
Inductive represents {B G} (heap : list (item B G * list nat)) : nat -> tree (item B G) -> Prop :=
| rep_node : forall o a os ch, nth_error heap o = Some (a, os) -> Forall2 (represents heap) os ch -> represents heap o (Node a ch).

Fixpoint map_tree {A C} (f : A -> C) (t : tree A) : tree C := match t with Node a ch => Node (f a) (map (map_tree f) ch) end.

(** Two places in the tree with the same id are the same place. *)
Definition distinct_ids {B X} (t : tree (item B X)) : Prop :=
  forall p q n m, at_path t p = Some n -> at_path t q = Some m -> i_id (content n) = i_id (content m) -> p = q.
(** What is kept of a node's contents. *)
Definition kept {B Ag G} (describe : Ag -> G) (a : item B Ag) : item B G := mk_item (i_id a) (i_body a) (describe (i_agent a)).

(** Agent [a] changes mode on the edge to child [k] of the node at [p], at the given time. *)
Definition transition {Md} (t : tree (tnode Md)) (a : nat) (p : list nat) (k : nat) (time : Q) : Prop :=
  exists n c x y, at_path t p = Some n /\ nth_error (child n) k = Some c /\
    dget Nat.eqb a (t_mode (content n)) = Some x /\ dget Nat.eqb a (t_mode (content c)) = Some y /\ x <> y /\
    time = t_start (content c).
(** All nodes have the same agents. *)
Definition same_agents {Md} (t : tree (tnode Md)) : Prop :=
  forall p n a, at_path t p = Some n -> (dget Nat.eqb a (t_mode (content n)) = None <-> dget Nat.eqb a (t_mode (content t)) = None).
(** A tree without branches whose start times do not decrease from parent to child. *)
Definition unbranched {Md} (t : tree (tnode Md)) : Prop :=
  forall p n, at_path t p = Some n -> length (child n) <= 1 /\ forall c, In c (child n) -> (t_start (content n) <= t_start (content c))%Q.
