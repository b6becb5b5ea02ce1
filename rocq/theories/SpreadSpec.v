(** Specification vocabulary for diameters of simulations and tubes (C111). *)
From Coq Require Import Ascii String.
From Verif Require Import Base Dict PyText Tree StarDiamSpec FixedPoints Spread.
Set Implicit Arguments.
Open Scope nat_scope.

(** The modes of all agents in a node, and the nodes of a tree with the modes passed on the way from the root. *)
Definition modes_of (n : simnode) : list (list word) := map snd (sn_mode n).
Inductive visited (t : tree simnode) : list (list (list word)) -> tree simnode -> Prop :=
| VRoot : visited t [modes_of (content t)] t
| VChild h n c : visited t h n -> In c (child n) -> visited t (h ++ [modes_of (content c)]) c.

(** The joint state of a node at a time: the states the agents have at that time, one agent after the other. *)
Definition state_at (tau : Q) (rows : list vec) : vec :=
  concat (map (fun r => match r with t :: x => if Qeq_bool t tau then x else [] | [] => [] end) rows).
Definition joint_at (n : simnode) (tau : Q) : vec := concat (map (fun kv => state_at tau (snd kv)) (sn_trace n)).
Definition has_time (n : simnode) (tau : Q) : Prop :=
  exists a rows t x, In (a, rows) (sn_trace n) /\ In (t :: x) rows /\ (t == tau)%Q.

(** One of the simulations is in joint state [x] at time [tau] after the modes [h]. *)
Definition seen (sims : list (tree simnode)) (h : list (list (list word))) (tau : Q) (x : vec) : Prop :=
  exists t n, In t sims /\ visited t h n /\ has_time (content n) tau /\ x = joint_at (content n) tau.

(** How the code writes the modes of all agents: without separators inside an agent, with bars between agents. *)
Fixpoint barred (l : list word) : word := match l with [] => [] | [a] => a | a :: l' => a ++ w " | " ++ barred l' end.
Definition written (modes : list (list word)) : word := barred (map (@concat ascii) modes).

(** [d] is the sum of the sides of the smallest box around the states of [S] that have the greatest dimension [m]. *)
Definition spread (S : vec -> Prop) (d : Q) : Prop :=
  exists m lo hi, length lo = m /\ length hi = m /\
    (exists x, S x /\ length x = m) /\ (forall x, S x -> length x <= m) /\
    (forall j, j < m ->
       (exists x, S x /\ length x = m /\ (nth j x 0 == nth j lo 0)%Q) /\
       (exists x, S x /\ length x = m /\ (nth j x 0 == nth j hi 0)%Q) /\
       (forall x, S x -> length x = m -> (nth j lo 0 <= nth j x 0 <= nth j hi 0)%Q)) /\
    (d == l1 lo hi)%Q.

(** No mode name starts with a digit or a sign, so a written mode does not. *)
Definition plain (s : word) : Prop := match s with [] => True | c :: _ => ~ In c (w "0123456789-") end.

(** ** Tubes *)
(** The sum of the sides of step [k] of the agents' tubes in a node. *)
Definition step_size (nd : fnode) (k : nat) : Q :=
  fold_right Qplus 0%Q (map (fun tr => match tr with
    | Some rows => l1 (tl (nth (2 * k) rows [])) (tl (nth (2 * k + 1) rows []))
    | None => 0%Q end) (ftrace nd)).
(** Step [k] is the first step of the tube, with the times [times], that lies in [[a, b]]. *)
Definition lies_in (times : list Q) (a b : Q) (k : nat) : Prop :=
  2 * k + 1 < length times /\ (a <= nth (2 * k) times 0)%Q /\ (nth (2 * k + 1) times 0 <= b)%Q.
Definition first_in (times : list Q) (a b : Q) (k : nat) : Prop :=
  lies_in times a b k /\ forall k', lies_in times a b k' -> k <= k'.
(** The diameters [ds] that a window [[a, b]] contributes: none if no step of a node lies in it, otherwise the greatest of the sizes
    of the first steps that do. *)
Definition window_diameter (times : fnode -> list Q) (t : ftree) (a b : Q) (ds : list Q) : Prop :=
  (ds = [] /\ forall nd k, In nd (fnodes t) -> ~ lies_in (times nd) a b k) \/
  exists d, ds = [d] /\ (exists nd k, In nd (fnodes t) /\ first_in (times nd) a b k /\ (d == step_size nd k)%Q) /\
    forall nd k, In nd (fnodes t) -> first_in (times nd) a b k -> (step_size nd k <= d)%Q.

(** A state in the box with corners [lo] and [hi]; states of all agents in step [k] of a node. *)
Definition boxed (lo hi x : vec) : Prop := length x = length lo /\ length x = length hi /\ forall j, j < length x -> (nth j lo 0 <= nth j x 0 <= nth j hi 0)%Q.
Definition in_node_step (nd : fnode) (k : nat) (xs : list vec) : Prop :=
  Forall2 (fun tr x => exists rows, tr = Some rows /\ boxed (tl (nth (2 * k) rows [])) (tl (nth (2 * k + 1) rows [])) x) (ftrace nd) xs.
