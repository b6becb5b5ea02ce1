(** Python's [round(x, n)] on exact rationals. *)
From Verif Require Import Base.
From Coq Require Import Qround Qabs.
Set Implicit Arguments.
Open Scope nat_scope.

(** Nearest integer, ties to the even one: CPython's [round]. *)
Definition round_half_even (x : Q) : Z :=
  let f := Qfloor x in
  match Qcompare (x - inject_Z f) (1 # 2) with
  | Lt => f
  | Gt => (f + 1)%Z
  | Eq => if Z.even f then f else (f + 1)%Z
  end.

Definition pow10 (n : nat) : Q := inject_Z (10 ^ Z.of_nat n).

(** [round(x, n)].  (On binary floats the result is the float nearest to this number.) *)
Definition py_round (n : nat) (x : Q) : Q := (inject_Z (round_half_even (x * pow10 n)) / pow10 n)%Q.
