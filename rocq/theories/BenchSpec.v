(** Letters of the command line. *)
From Coq Require Import Ascii String.
From Verif Require Import Base Dict PyText Guard Tree.
Set Implicit Arguments.
Open Scope nat_scope.

(** [short] is [long] without the letters in [gone]; the others keep their order. *)
Inductive without (gone : list ascii) : word -> word -> Prop :=
| without_nil : without gone [] []
| without_gone : forall c long short, In c gone -> without gone long short -> without gone (c :: long) short
| without_kept : forall c long short, ~ In c gone -> without gone long short -> without gone (c :: long) (c :: short).

(** The switches of the command line: those of its second word, or none. *)
Definition switches (argv : list word) (arg : word) : Prop :=
  match argv with _ :: a :: _ => arg = a | _ => arg = [] end.

(** Rounding of a quotient toward zero. *)
Definition truncated (x y : Q) (n : Z) : Prop :=
  (0 <= x / y -> inject_Z n <= x / y < inject_Z n + 1)%Q /\ (x / y <= 0 -> inject_Z n - 1 < x / y <= inject_Z n)%Q.
