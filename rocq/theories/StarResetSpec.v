(** Specification vocabulary for StarResetProps.v: what the resets of a transition do to a state. *)
From Coq Require Import Ascii String.
From Verif Require Import Base PyText Reset ResetSpec Star StarSpec.
Set Implicit Arguments.
Open Scope nat_scope.

(** [ego.x] *)
Definition ego_name (x : word) : word := w "ego."%string ++ x.

(** The values of the names [ego.x] in the state [x] of an agent with these variables. *)
Fixpoint env_at (names : list word) (x : vec) (t : word) : Q :=
  match names, x with
  | v :: names', q :: x' => if word_eqb t (ego_name v) then q else env_at names' x' t
  | _, _ => 0%Q
  end.

(** [y] is the state after the resets from the state [x]: all right-hand sides are evaluated in [x]. *)
Definition after_resets (names : list word) (rs : list reset) (x y : vec) : Prop :=
  length y = length names /\
  forall i v, nth_error names i = Some v ->
    (forall r e, In r rs -> rvar r = v -> rval r = RArith e -> (nth i y 0 == aeval (env_at names x) e)%Q) /\
    ((forall r e, In r rs -> rval r = RArith e -> rvar r <> v) -> (nth i y 0 == nth i x 0)%Q).

(** Affine in the state. *)
Definition affine_in (names : list word) (f : (word -> Q) -> Q) : Prop :=
  exists a c, length a = length names /\ forall x, length x = length names -> (f (env_at names x) == inner a x + c)%Q.

(** Sums of multiples of variables, as text: products in which one side has no variable, powers of constants. *)
Fixpoint linear (e : expr) : Prop :=
  match e with
  | Num _ | Var _ => True
  | Neg a => linear a
  | Bin Mul a b => linear a /\ linear b /\ (vars a = [] \/ vars b = [])
  | Bin _ a b => linear a /\ linear b
  | Pow a _ => vars a = []
  end.

(** The points of a star at which the code evaluates a map: the centre and the centre moved along each generator. *)
Definition corner (s : star) (x : vec) : Prop := x = center s \/ exists v, In v (basis s) /\ x = vadd (center s) v.

(** The right-hand sides: over the agent's own variables, numbers that can be written, no variable raised to a power. *)
Definition own_rhs (F : Q -> Prop) (names : list word) (e : expr) : Prop :=
  (forall x, In x (vars e) -> exists v, In v names /\ x = ego_name v) /\ literals (fun q => F q /\ 0 <= q)%Q e /\ pow_bases (fun _ => False) e.
