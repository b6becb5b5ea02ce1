(** [check_unsat] of verse/stars/starset.py. *)
From Verif Require Import Base Star.
Set Implicit Arguments.
Open Scope nat_scope.

(** verse/stars/starset.py:742-769.  [sat m eqs les] is z3's answer for the equations [c + row . x = r] and the inequalities
    [row . x <= r] over [m] reals; the last of them is [u].  The default [ncenter = None] is an exception, as are lists that
    are too short.  What is printed is left out. *)
Definition check_unsat (sat : nat -> list (Q * vec * Q) -> list (vec * Q) -> bool) (old_star : star) (derived_basis : list vec) (point : vec) (ncenter : option vec) : option bool :=
  do new_center <- ncenter;
  let n := dim old_star in let m := gens old_star in
  if (n <=? length new_center) && (n <=? length point) && (m <=? length derived_basis) && forallb (fun v => n <=? length v) (firstn m derived_basis)
     && (length (C old_star) <=? length (g old_star)) then
    let eqs := map (fun i => (nth i new_center 0%Q, map (fun v => nth i v 0%Q) (firstn m derived_basis) ++ [0%Q], nth i point 0%Q)) (seq 0 n) in
    let les := map (fun cg => (fst cg ++ [- snd cg]%Q, 0%Q)) (combine (C old_star) (g old_star)) in
    Some (negb (sat (S m) eqs les))
  else None.
