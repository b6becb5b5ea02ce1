(** Specification vocabulary for fixed-point detection (C57). *)
From Coq Require Import Ascii String Reals Qreals.
From Verif Require Import Base PyText FixedPoints.
Set Implicit Arguments.
Open Scope nat_scope.

(** [x] lies in the box with corners [lo] and [hi]. *)
Fixpoint between (lo hi : list Q) (x : list R) : Prop :=
  match lo, hi, x with
  | [], [], [] => True
  | a :: lo', b :: hi', v :: x' => (Q2R a <= v <= Q2R b)%R /\ between lo' hi' x'
  | _, _, _ => False
  end.

(** A list of reach sets: the vertices of each node come in pairs, all of [n] coordinates. *)
Definition rectangular (n : nat) (r : list (option (list row))) : Prop :=
  forall rows, In (Some rows) r -> (exists m, length rows = 2 * m) /\ Forall (fun v => length v = n) rows.

(** [x] is in the union of the boxes. *)
Definition in_union (r : list (option (list row))) (x : list R) : Prop :=
  exists rows k lo hi, In (Some rows) r /\ nth_error rows (2 * k) = Some lo /\ nth_error rows (2 * k + 1) = Some hi /\
    between lo hi x.

(** The solver's answer to this query is right. *)
Definition exact (unsat : list fm -> bool) (q : list fm) : Prop :=
  unsat q = true <-> ~ exists p, forall f, In f q -> holds p f.

(** ** Trees *)
(** Every node carries, for every agent, a tube of [m] pairs of rows with common times, increasing at the upper
    rows; agent [a] has [fst (nth a dims)] state variables and [snd (nth a dims)] mode variables. *)
Definition tube_ok (times : list Q) (d : nat) (tr : option (list row)) : Prop :=
  exists rows, tr = Some rows /\ Forall2 (fun t r => exists t' x, r = t' :: x /\ (t' == t)%Q /\ length x = d) times rows.
Definition node_ok (dims : list (nat * nat)) (times : list Q) (nd : fnode) : Prop :=
  (exists m, length times = 2 * S m) /\
  ~ (nth 0 times 0 == nth 1 times 0)%Q /\
  (forall i j, i <= j -> 2 * j + 1 < length times -> (nth (2 * i + 1) times 0 <= nth (2 * j + 1) times 0)%Q) /\
  Forall2 (fun d tr => tube_ok times (fst d) tr) dims (ftrace nd) /\
  Forall2 (fun d ms => length ms = snd d /\ ~ In (w "_index") ms) dims (fmode nd).

Definition tree_ok (dims : list (nat * nat)) (times : fnode -> list Q) (t : ftree) : Prop :=
  dims <> [] /\ In (fleaf t) (fnodes t) /\ forall nd, In nd (fnodes t) -> node_ok dims (times nd) nd.

(** The agents' states [xs] are together in step [k] of the node's tubes. *)
Definition in_step (nd : fnode) (k : nat) (xs : list (list R)) : Prop :=
  Forall2 (fun tr x => exists rows lo hi, tr = Some rows /\ nth_error rows (2 * k) = Some lo /\
             nth_error rows (2 * k + 1) = Some hi /\ between (tl lo) (tl hi) x) (ftrace nd) xs.

(** The number of the node's last step, and the time it ends. *)
Definition last_step (times : list Q) : nat := length times / 2 - 1.
Definition end_time (times : list Q) : Q := nth (length times - 1) times 0%Q.
