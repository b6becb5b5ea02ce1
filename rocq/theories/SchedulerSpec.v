(** Specification vocabulary for SchedulerProps.v: the tree that a root stands for, defined without any work list. *)
From Verif Require Import Base Round Scheduler.
Set Implicit Arguments.
Open Scope nat_scope.

(** A tree of nodes: content, trace and assertion hits ([None] when the node was not expanded), children. *)
Inductive tree (content trace hits : Type) : Type :=
| Tree (c : content) (r : option trace) (h : option hits) (ts : list (tree content trace hits)).

Section Spec.
  Variables content trace hits : Type.
  Variable stop : content -> bool.
  Variable expand : content -> option (list content * trace * hits).

  (** The tree of a node: a node where we stop is a leaf, any other one has the trees of the children its
      step produces. *)
  Inductive unfolds : content -> tree content trace hits -> Prop :=
  | U_leaf c : stop c = true -> unfolds c (Tree c None None [])
  | U_node c cs r h ts : stop c = false -> expand c = Some (cs, r, h) -> Forall2 unfolds cs ts ->
      unfolds c (Tree c (Some r) (Some h) ts).

  (** The tree below an address of a heap of node objects. *)
  Inductive tree_at (os : list (obj content trace hits)) : nat -> tree content trace hits -> Prop :=
  | T_node a o ts : nth_error os a = Some o -> Forall2 (tree_at os) (o_child o) ts ->
      tree_at os a (Tree (o_content o) (o_trace o) (o_hits o) ts).
End Spec.

(** Forget the assertion hits. *)
Fixpoint no_hits {content trace hits : Type} (t : tree content trace hits) : tree content trace hits :=
  match t with Tree c r _ ts => Tree c r None (map no_hits ts) end.

(** A number of steps of a relation. *)
Inductive steps {A : Type} (R : A -> A -> Prop) : nat -> A -> A -> Prop :=
| Steps_0 x : steps R 0 x x
| Steps_S n x y z : steps R n x y -> R y z -> steps R (S n) x z.
