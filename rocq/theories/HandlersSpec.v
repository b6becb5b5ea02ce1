(** What the handlers assume of their oracles. *)
From Coq Require Import Reals Qreals.
From Verif Require Import Base PyText Dict Piecewise PiecewiseSpec ParseArraySpec Handlers.
Set Implicit Arguments.
Open Scope nat_scope.

(** The optimiser brackets the map function's values on every box it is asked about. *)
Definition map_oracle (call : word -> list R -> option R) (mapo : word -> list (Q * Q) -> option (Q * Q)) (f : word) : Prop :=
  forall comb b vs v, mapo f comb = Some b -> in_box vs comb -> call f vs = Some v -> (Q2R (fst b) <= v <= Q2R (snd b))%R.

(** The bounds of an expression are right whenever the variables are in the box. *)
Definition lirpa_oracle (call : word -> list R -> option R) (lirpa : expr -> list (word * (Q * Q)) -> outcome) (e : expr) : Prop :=
  forall d lb ub s v, lirpa e d = Bounds lb ub ->
    (forall x b, In (x, b) d -> exists u, dget word_eqb x s = Some u /\ (Q2R (fst b) <= u <= Q2R (snd b))%R) ->
    py_expr call s e = Some v -> (Q2R lb <= v <= Q2R ub)%R.
(** [eval] gives the value, in every environment. *)
Definition eval_oracle (call : word -> list R -> option R) (evaluate : expr -> option Q) (e : expr) : Prop :=
  forall q s v, evaluate e = Some q -> py_expr call s e = Some v -> v = Q2R q.

(** ** Straight-line functions of expressions and map functions *)
(** [known] are the variables assigned so far. *)
Inductive straight (call : word -> list R -> option R) : list word -> list stmt -> Prop :=
| st_nil known : straight call known []
| st_return known e rest : straight call known (SReturn e :: rest)
| st_plain known x e rest : (forall s, py_expr call s (apply_aliases ALIASES e) = py_expr call s e) ->
    (forall h, In h (ANGULAR_FUNCTIONS ++ MAP_FUNCTIONS) -> mentions h (apply_aliases ALIASES e) = false) ->
    straight call (x :: known) rest -> straight call known (SAssign x e :: rest)
| st_map known x e g xs rest : apply_aliases ALIASES e = ECall g (map EName xs) -> In g MAP_FUNCTIONS ->
    (forall s, py_expr call s (ECall g (map EName xs)) = py_expr call s e) ->
    (forall y, In y xs -> In y known) -> (forall h y, In h (ANGULAR_FUNCTIONS ++ MAP_FUNCTIONS) -> In y xs -> occurs h y = false) ->
    straight call (x :: known) rest -> straight call known (SAssign x e :: rest).
