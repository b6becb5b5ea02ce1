(** Specification vocabulary for UtilsProps.v. *)
From Verif Require Import Base.
Set Implicit Arguments.
Open Scope nat_scope.

(** Position [i] of [l] holds an element whose key does not occur at any earlier position. *)
Definition first_at {T K : Type} (f : T -> K) (l : list T) (i : nat) : Prop :=
  exists x, nth_error l i = Some x /\ forall j y, j < i -> nth_error l j = Some y -> f y <> f x.

Definition sumZ (l : list Z) : Z := fold_right Z.add 0%Z l.
