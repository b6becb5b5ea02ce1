(** Specification vocabulary for StarProps.v: the set a star represents, affine maps, exact solvers. *)
From Verif Require Import Base Star.
Set Implicit Arguments.
Open Scope nat_scope.

(** Sum of products. *)
Fixpoint inner (a b : vec) : Q :=
  match a, b with x :: a', y :: b' => (x * y + inner a' b')%Q | _, _ => 0%Q end.

(** [x] satisfies [A x <= b]. *)
Definition obeys (A : list vec) (b x : vec) : Prop := Forall2 (fun row r => (inner row x <= r)%Q) A b.

(** The shapes the constructor demands. *)
Definition wf_star (s : star) : Prop :=
  (forall v, In v (basis s) -> length v = dim s) /\ (forall r, In r (C s) -> length r = gens s) /\ length (g s) = length (C s).

(** The point [center + alpha_1 v_1 + ... + alpha_m v_m]. *)
Definition point_of (s : star) (alpha x : vec) : Prop :=
  length x = dim s /\ forall j, j < dim s -> (nth j x 0 == nth j (center s) 0 + inner alpha (map (fun v => nth j v 0) (basis s)))%Q.
(** [x] is a point of the star: the point of some [alpha] allowed by the predicate [C alpha <= g]. *)
Definition in_star (s : star) (x : vec) : Prop :=
  exists alpha, length alpha = gens s /\ obeys (C s) (g s) alpha /\ point_of s alpha x.

Definition same (a b : vec) : Prop := Forall2 Qeq a b.

(** [f x = M x + b] on vectors of length [n]. *)
Definition affine (n : nat) (f : vec -> option vec) : Prop :=
  exists M b, length M = n /\ (forall r, In r M -> length r = n) /\ length b = n /\
    forall x, length x = n -> exists y, f x = Some y /\ length y = n /\ forall i, i < n -> (nth i y 0 == inner (nth i M []) x + nth i b 0)%Q.

(** linprog's answer for one program is right; with [free = false] the variables are nonnegative. *)
Definition feasible (free : bool) (A : list vec) (b x : vec) : Prop := obeys A b x /\ (free = false -> Forall (Qle 0) x).
Definition exact_lp (linprog : bool -> vec -> list vec -> vec -> lp) (free : bool) (c : vec) (A : list vec) (b : vec) : Prop :=
  match linprog free c A b with
  | Optimal x => length x = length c /\ feasible free A b x /\ forall y, length y = length c -> feasible free A b y -> (inner c x <= inner c y)%Q
  | Infeasible => forall y, length y = length c -> ~ feasible free A b y
  | Other => forall q, exists y, length y = length c /\ feasible free A b y /\ (inner c y < q)%Q     (* unbounded *)
  end.
(** linprog solves every program over the predicate of [s] with free variables. *)
Definition solves (linprog : bool -> vec -> list vec -> vec -> lp) (s : star) : Prop :=
  forall c, length c = gens s -> exact_lp linprog true c (C s) (g s).

(** z3's answer for one system is right. *)
Definition exact_sat (sat : nat -> list (Q * vec * Q) -> list (vec * Q) -> bool) (m : nat) (eqs : list (Q * vec * Q)) (les : list (vec * Q)) : Prop :=
  sat m eqs les = true <->
  exists alpha, length alpha = m /\ (forall c row r, In (c, row, r) eqs -> (c + inner row alpha == r)%Q) /\ (forall row r, In (row, r) les -> (inner row alpha <= r)%Q).

(** The equations [center_j + (v_1j, ..., v_mj) . alpha = x_j] and inequalities [C alpha <= g] for the point [x]. *)
Definition equations (s : star) (x : vec) : list (Q * vec * Q) :=
  map (fun j => (nth j (center s) 0%Q, map (fun v => nth j v 0%Q) (basis s), nth j x 0%Q)) (seq 0 (length x)).
Definition inequalities (s : star) : list (vec * Q) := combine (C s) (g s).

(** The predicate bounds every direction. *)
Definition bounded_star (s : star) : Prop := exists q, forall alpha, length alpha = gens s -> obeys (C s) (g s) alpha -> Forall (fun a => - q <= a <= q)%Q alpha.

(** State [k] of a simulation, whose rows start with the time. *)
Definition state_at (sim : vec -> list vec) (k : nat) (x : vec) : option vec :=
  match nth_error (sim x) k with Some (_ :: y) => Some y | _ => None end.
(** The simulations have [N] rows, at the times [tm], and each is an affine function of the initial state. *)
Definition affine_sim (n N : nat) (tm : nat -> Q) (sim : vec -> list vec) : Prop :=
  forall x, length x = n -> length (sim x) = N /\ forall k, k < N -> affine n (state_at sim k) /\ exists y, nth_error (sim x) k = Some (tm k :: y).

(** Step [k] of a tube of boxes (rows [2k] and [2k+1], time first) contains [x]. *)
Definition box_at_step (tb : list vec) (k : nat) (x : vec) : Prop :=
  exists t1 lo t2 hi, nth_error tb (2 * k) = Some (t1 :: lo) /\ nth_error tb (2 * k + 1) = Some (t2 :: hi) /\ in_box lo hi x.

(** z3's optimiser returns a model: every point is [center + alpha . basis] for some [alpha] with [C alpha <= u g]. *)
Definition model_ok (optimise : list vec -> vec -> list vec -> list vec -> option (vec * Q)) (d : nat) : Prop :=
  forall A b basis points c u, optimise A b basis points = Some (c, u) -> length c = d /\
    forall p, In p points -> exists alpha, length alpha = length basis /\
      (forall j, j < d -> (nth j p 0 == nth j c 0 + inner alpha (map (fun v => nth j v 0) basis))%Q) /\
      Forall2 (fun row r => (inner row alpha <= u * r)%Q) A b.
