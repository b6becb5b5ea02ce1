(** Mixed-monotone reachability in continuous time: verse/analysis/mixmonotone.py [compute_reachtube_mixmono_cont].

    States are lists of reals, times rationals; a row of the tube is a pair of a time and a state.  The array [state] of
    2 * num_var numbers is a pair of two lists.  [solve F y0 t] is what scipy's integrator returns at time [t] for the
    initial value problem y' = F y, y 0 = y0. *)
From Coq Require Import Reals Qreals Qround.
From Verif Require Import Base Round.
Set Implicit Arguments.
Open Scope R_scope.

Notation rvec := (list R).

Section MixMonoCont.
  (** [decomposition(x, w, xhat, what)] *)
  Variable decomposition : rvec -> rvec -> rvec -> rvec -> rvec.
  Variables w what : rvec.               (** [uncertain_var_bound] *)
  Variable dt : Q.                       (** [time_step] *)
  Variable solve : (rvec * rvec -> rvec * rvec) -> rvec * rvec -> R -> rvec * rvec.

  (** mixmonotone.py:103-110, [decomposition_dynamics] *)
  Definition embedded (z : rvec * rvec) : rvec * rvec :=
    (decomposition (fst z) w (snd z) what, decomposition (snd z) what (fst z) w).

  (** mixmonotone.py:112-127: row [k] of [trace]; [r.t] grows by the step in every iteration. *)
  Definition cont_row (init : rvec * rvec) (k : nat) : Q * (rvec * rvec) :=
    match k with
    | O => (0%Q, init)
    | S i => ((py_round 10 (inject_Z (Z.of_nat i) * dt) + dt)%Q, solve embedded init (INR k * Q2R dt))
    end.

  (** mixmonotone.py:129-148 *)
  Definition rhull (f : R -> R -> R) (a b : rvec * rvec) : rvec := zipw f (zipw f (zipw f (fst a) (fst b)) (snd a)) (snd b).
  Definition cont_rows (row : nat -> Q * (rvec * rvec)) (n : nat) : list (Q * rvec) :=
    flat_map (fun i => [(fst (row i), rhull Rmin (snd (row i)) (snd (row (S i)))); (fst (row (S i)), rhull Rmax (snd (row i)) (snd (row (S i))))]) (seq 0 n).

  (** mixmonotone.py:96-149 (and 152-162, its only caller).  Only the first initial set is used; corners of different
      dimensions are an error here. *)
  Definition compute_reachtube_mixmono_cont (inits : list (rvec * rvec)) (time_horizon : Q) : option (list (Q * rvec)) :=
    do b <- nth_error inits 0;
    if (length (fst b) =? length (snd b))%nat then
      Some (cont_rows (cont_row b) (Z.to_nat (Qceiling (time_horizon / dt))))
    else None.
End MixMonoCont.
