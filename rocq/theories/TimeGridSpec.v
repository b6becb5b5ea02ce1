(** Specification of C59: what a user expects of the rows of a simulated trace. *)
From Verif Require Import Base.
Set Implicit Arguments.
Open Scope nat_scope.

(** The trace has [n] rows and row [i] is stamped [i * dt]. *)
Definition on_time {S : Type} (dt : Q) (n : nat) (tr : list (Q * S)) : Prop :=
  length tr = n /\ forall i r, nth_error tr i = Some r -> (fst r == inject_Z (Z.of_nat i) * dt)%Q.

(** [q] is a multiple of 10^-d. *)
Definition decimal (d : Z) (q : Q) : Prop := exists z, (q == inject_Z z / inject_Z (10 ^ d))%Q.

(** Two traces have the same length and equal stamps in equal positions. *)
Definition same_times {S S' : Type} (a : list (Q * S)) (b : list (Q * S')) : Prop :=
  Forall2 (fun x y => (fst x == fst y)%Q) a b.
