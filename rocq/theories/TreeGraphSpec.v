(** Branches of a tree and the rows on them. *)
From Coq Require Import Ascii String.
From Verif Require Import Base Dict PyText Guard Tree TreeSpec TreeGraph.
Set Implicit Arguments.
Open Scope nat_scope.

(** The rows of a node: those of its first agent. *)
Definition rows (t : vtree) : nat := nth 0 (v_rows (content t)) 0.
(** The nodes from [t] down to a leaf. *)
Inductive branch : vtree -> list vtree -> Prop :=
| branch_leaf : forall t, child t = [] -> branch t [t]
| branch_step : forall t c p, In c (child t) -> branch c p -> branch t (t :: p).
Definition total (p : list vtree) : nat := list_sum (map rows p).
(** [k] is the number of rows on the longest branch below [t]. *)
Definition longest (t : vtree) (k : nat) : Prop :=
  (exists p, branch t p /\ total p = k) /\ forall p, branch t p -> total p <= k.

(** Ids tell nodes apart, and every node has a trace with a row. *)
Definition tells_apart (t : vtree) : Prop :=
  forall p q n m, at_path t p = Some n -> at_path t q = Some m -> vid n = vid m -> p = q.
Definition traced (t : vtree) : Prop := forall p n, at_path t p = Some n -> 0 < rows n.
(** Every agent has a mode in every node. *)
Definition moded (t : vtree) : Prop := forall p n x, at_path t p = Some n -> In x (v_agents (content n)) ->
  dget word_eqb x (v_mode (content n)) <> None /\ forall c, In c (child n) -> dget word_eqb x (v_mode (content c)) <> None.
(** The colour of a node: its longest branch relative to that of the root. *)
Definition colour (root n : vtree) (col : Q) : Prop :=
  exists k m, longest n k /\ longest root m /\ col = (inject_Z (Z.of_nat k) / inject_Z (Z.of_nat m))%Q.
