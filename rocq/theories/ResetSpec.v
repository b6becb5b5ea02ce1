(** Specification vocabulary for ResetProps.v. *)
From Coq Require Import Ascii String.
From Verif Require Import Base PyText Reset.
Set Implicit Arguments.
Open Scope nat_scope.

(** The value of an expression under an assignment of numbers to names. *)
Fixpoint aeval (env : word -> Q) (e : expr) : Q :=
  match e with
  | Num q => q
  | Var x => env x
  | Neg a => (- aeval env a)%Q
  | Bin Add a b => (aeval env a + aeval env b)%Q
  | Bin Sub a b => (aeval env a - aeval env b)%Q
  | Bin Mul a b => (aeval env a * aeval env b)%Q
  | Pow a n => Qpower (aeval env a) (Z.of_nat n)
  end.

Fixpoint vars (e : expr) : list word :=
  match e with
  | Num _ => []
  | Var x => [x]
  | Neg a => vars a
  | Bin _ a b => vars a ++ vars b
  | Pow a _ => vars a
  end.

(** Literals satisfy [P]. *)
Fixpoint literals (P : Q -> Prop) (e : expr) : Prop :=
  match e with
  | Num q => P q
  | Var _ => True
  | Neg a => literals P a
  | Bin _ a b => literals P a /\ literals P b
  | Pow a n => literals P a /\ P (inject_Z (Z.of_nat n))
  end.

(** No variable whose value may be negative is raised directly to a power. *)
Fixpoint pow_bases (ok : word -> Prop) (e : expr) : Prop :=
  match e with
  | Num _ | Var _ => True
  | Neg a => pow_bases ok a
  | Bin _ a b => pow_bases ok a /\ pow_bases ok b
  | Pow (Var x) _ => ok x
  | Pow a _ => pow_bases ok a
  end.

(** A faithful way of writing numbers, for the numbers in [F] and next to the names [names]: reading back
    what was written gives the number, a negative number is a minus sign followed by the positive one, and no
    name occurs inside a written number. *)
Record writes (show : Q -> word) (read : word -> option Q) (F : Q -> Prop) (names : list word) : Prop := {
  wr_back : forall q, F q -> (0 <= q)%Q -> exists q', read (show q) = Some q' /\ (q' == q)%Q;
  wr_plain : forall q, F q -> (0 <= q)%Q -> show q <> [] /\ ~ In "-"%char (show q);
  wr_neg : forall q, F q -> (q < 0)%Q -> F (Qopp q) /\ show q = "-"%char :: show (Qopp q);
  wr_names : forall q x, F q -> In x names -> occurs x (show q) = false }.

(** Names that can be told apart by substring search. *)
Definition names_apart (names : list word) : Prop :=
  (forall x, In x names -> x <> [] /\ ~ In "-"%char x) /\
  (forall x y, In x names -> In y names -> x <> y -> occurs x y = false).

Definition upd (env : word -> Q) (x : word) (v : Q) : word -> Q := fun y => if word_eqb y x then v else env y.

(** The assignment stays within the bounds of the dictionary. *)
Definition within (dict : bounds) (env : word -> Q) : Prop :=
  forall x l h, In (x, (l, h)) dict -> (l <= env x <= h)%Q.

(** A dictionary of non-empty intervals, one per name. *)
Definition dict_ok (F : Q -> Prop) (dict : bounds) : Prop :=
  NoDup (map fst dict) /\ forall x l h, In (x, (l, h)) dict -> (l <= h)%Q /\ F l /\ F h.

(** Affine in each variable separately. *)
Definition multiaffine (f : (word -> Q) -> Q) : Prop :=
  forall env x a b s, (f (upd env x ((1 - s) * a + s * b)) == (1 - s) * f (upd env x a) + s * f (upd env x b))%Q.

(** Along each axis, values over an interval stay between the values at its ends. *)
Definition axis_between (dict : bounds) (f : (word -> Q) -> Q) : Prop :=
  forall env x l h t, In (x, (l, h)) dict -> within dict env -> (l <= t <= h)%Q ->
    (Qmin (f (upd env x l)) (f (upd env x h)) <= f (upd env x t) <= Qmax (f (upd env x l)) (f (upd env x h)))%Q.

(** [l, h] is exactly the range of [f]'s extreme values over the dictionary. *)
Definition exact_range (dict : bounds) (f : (word -> Q) -> Q) (l h : Q) : Prop :=
  (forall env, within dict env -> (l <= f env <= h)%Q) /\
  (exists env, within dict env /\ (f env == l)%Q) /\ (exists env, within dict env /\ (f env == h)%Q).

(** Products of expressions over different variables, powers of constants. *)
Fixpoint each_once (e : expr) : Prop :=
  match e with
  | Num _ | Var _ => True
  | Neg a => each_once a
  | Bin Mul a b => each_once a /\ each_once b /\ forall x, In x (vars a) -> ~ In x (vars b)
  | Bin _ a b => each_once a /\ each_once b
  | Pow a n => vars a = [] \/ (n = 1 /\ each_once a)
  end.

(** A variable is treated as a mode variable when its name contains "mode". *)
Definition is_mode_var (x : word) : bool := occurs (w "mode"%string) x.

(** The values a mode reset allows. *)
Definition choices (r : rhs) : list word :=
  match r with
  | RConst v => [v]
  | RMember _ m => [m]
  | RMap res => res
  | RArith _ => []
  end.

(** A well-formed list of resets of one transition: at most one per variable, each of a variable that the
    agent has; mode resets name a constant, a member of a declared mode type or a map query. *)
Definition resets_ok (lg : logic) (rs : list reset) : Prop :=
  NoDup (map rvar rs) /\
  forall r, In r rs ->
    (is_mode_var (rvar r) = true /\ In (rvar r) (disc_vars lg) /\
       match rval r with RArith _ => False | RMember t _ => In t (mode_types lg) | _ => True end) \/
    (is_mode_var (rvar r) = false /\ In (rvar r) (cont_vars lg) /\ exists e, rval r = RArith e).
