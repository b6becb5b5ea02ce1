(** Two more queries of stars: [get_true_center] and [overapprox_rectangles] of verse/stars/starset.py. *)
From Verif Require Import Base Star.
Set Implicit Arguments.
Open Scope nat_scope.

Section Solver.
  Variable linprog : bool -> vec -> list vec -> vec -> lp.

  (** verse/stars/starset.py:493-502: [max - min / 2], without parentheses. *)
  Definition get_true_center (s : star) : option vec :=
    do ms <- mapM (get_max_min linprog s) (seq 0 (dim s));
    Some (map (fun m => snd m - fst m / 2)%Q ms).

  (** [self.basis.sum(axis = 0)] *)
  Definition column_sums (s : star) : vec := map (fun j => fold_right Qplus 0%Q (column j (basis s))) (seq 0 (dim s)).
  (** verse/stars/starset.py:122-143.  [coefficents * res.x] is entry by entry; other lengths are an exception. *)
  Definition overapprox_rectangles (s : star) : option (vec * vec) :=
    let coefficents := column_sums s in
    do r1 <- run_lp linprog true coefficents (C s) (g s);
    do r2 <- run_lp linprog true (vopp coefficents) (C s) (g s);
    match r1, r2 with
    | Optimal x1, Optimal x2 =>
      if (length x1 =? dim s) && (length x2 =? dim s) then
        Some (vadd (center s) (zipw Qmult coefficents x1), vadd (center s) (zipw Qmult coefficents x2))
      else None
    | _, _ => None
    end.
End Solver.
