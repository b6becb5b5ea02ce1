(** What the diameters of stars should be, for StarDiamProps.v. *)
From Coq Require Import Qabs Sorted.
From Verif Require Import Base Dict Star StarSpec StarDiam.
Set Implicit Arguments.
Open Scope nat_scope.

(** The Manhattan distance. *)
Fixpoint l1 (x y : vec) : Q :=
  match x, y with a :: x', b :: y' => (Qabs (a - b) + l1 x' y')%Q | _, _ => 0%Q end.

(** [d] is the largest Manhattan distance of two points of the star. *)
Definition widest (s : star) (d : Q) : Prop :=
  (exists x y, in_star s x /\ in_star s y /\ (l1 x y == d)%Q) /\ forall x y, in_star s x -> in_star s y -> (l1 x y <= d)%Q.

(** No two points of the star are more than [q] apart in any coordinate. *)
Definition spread_le (s : star) (q : Q) : Prop :=
  forall x y i, in_star s x -> in_star s y -> (Qabs (nth i x 0 - nth i y 0) <= q)%Q.

(** Between two bounds, [None] is infinite. *)
Definition above (b : option Q) (x : Q) : Prop := match b with Some q => (q <= x)%Q | None => True end.
Definition below (x : Q) (b : option Q) : Prop := match b with Some q => (x <= q)%Q | None => True end.

(** The admissible points of a mixed-integer linear program. *)
Definition admissible (p : milp_problem) (x : vec) : Prop :=
  length x = length (mp_c p)
  /\ (forall i row lo hi, nth_error (mp_A p) i = Some row -> nth_error (mp_bl p) i = Some lo -> nth_error (mp_bu p) i = Some hi ->
        above lo (inner row x) /\ below (inner row x) hi)
  /\ (forall j lo hi int, nth_error (mp_lower p) j = Some lo -> nth_error (mp_upper p) j = Some hi -> nth_error (mp_integrality p) j = Some int ->
        above lo (nth j x 0%Q) /\ below (nth j x 0%Q) hi /\ (int = true -> exists z, nth j x 0 == inject_Z z)%Q).

(** milp's answer for one program is right: the least value, or no answer when there is none because the program is infeasible
    or unbounded. *)
Definition exact_milp (milp : milp_problem -> option Q) (p : milp_problem) : Prop :=
  match milp p with
  | Some f => (exists x, admissible p x /\ (inner (mp_c p) x == f)%Q) /\ forall x, admissible p x -> (f <= inner (mp_c p) x)%Q
  | None => (forall x, ~ admissible p x) \/ forall q, exists x, admissible p x /\ (inner (mp_c p) x < q)%Q
  end.

(** The program of a star. *)
Definition program_of (s : star) : milp_problem := problem (center s) (basis s) (C s) (g s).

Section Traces.
  Variables (A : Type) (eqb : A -> A -> bool).
  (** A star of some agent of some node, stamped with a time. *)
  Definition star_at (nodes : list (dict A (list (Q * star)))) (t : Q) (s : star) : Prop :=
    exists node agent rows t', In node nodes /\ dget eqb agent node = Some rows /\ In (t', s) rows /\ (t' == t)%Q.
  (** The nodes are about the same agents, and each agent's rows are in time order, at multiples of the step. *)
  Definition same_agents (nodes : list (dict A (list (Q * star)))) : Prop :=
    forall node node' a, In node nodes -> In node' nodes -> dget eqb a node <> None -> dget eqb a node' <> None.
  Definition on_grid (nodes : list (dict A (list (Q * star)))) (step : Q) : Prop :=
    forall node a rows, In node nodes -> dget eqb a node = Some rows ->
      StronglySorted Qle (map fst rows) /\ forall t s, In (t, s) rows -> exists k : nat, (t == inject_Z (Z.of_nat k) * step)%Q.
  (** [q] is the largest of the diameters of the stars at a time. *)
  Definition largest_at (diam : star -> option Q) (nodes : list (dict A (list (Q * star)))) (t q : Q) : Prop :=
    (exists s, star_at nodes t s /\ diam s = Some q) /\ forall s q', star_at nodes t s -> diam s = Some q' -> (q' <= q)%Q.
End Traces.
