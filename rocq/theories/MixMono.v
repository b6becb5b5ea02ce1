(** Discrete mixed-monotone reachability: verse/analysis/mixmonotone.py [compute_reachtube_mixmono_disc].  The
    continuous version is in MixMonoCont. *)
From Coq Require Import Qround.
From Verif Require Import Base Boxes Round.
Set Implicit Arguments.
Open Scope nat_scope.

Section MixMono.
  (** [decomposition(x, w, xhat, what, dt)]; it may raise. *)
  Variable decomposition : vec -> vec -> vec -> vec -> Q -> option vec.
  Variables w what : vec.                (** [uncertain_var_bound] *)
  Variable dt : Q.                       (** [time_step] *)

  (** verse/analysis/mixmonotone.py:63-71, one iteration: the bounds of the next step.  The code stores time and both
      bounds in one list and cuts it at [num_var]; a decomposition of another length, which would shift the cut, is
      an error here. *)
  Definition advance (x xhat : vec) : option (vec * vec) :=
    do d <- decomposition x w xhat what dt;
    do dhat <- decomposition xhat what x w dt;
    if (length d =? length x) && (length dhat =? length x) then Some (d, dhat) else None.

  (** Lines 60-71: [n] iterations from [i], given the last row. *)
  Fixpoint mm_trace (n i : nat) (time : Q) (x xhat : vec) : option (list (Q * (vec * vec))) :=
    match n with
    | 0 => Some [(time, (x, xhat))]
    | S n' =>
      do p <- advance x xhat;
      do rest <- mm_trace n' (S i) (py_round 10 (py_round 10 (inject_Z (Z.of_nat i) * dt) + dt)) (fst p) (snd p);
      Some ((time, (x, xhat)) :: rest)
    end.

  (** Lines 73-92. *)
  Definition hull_of (f : Q -> Q -> Q) (a b : vec * vec) : vec := zipw f (zipw f (zipw f (fst a) (fst b)) (snd a)) (snd b).
  Fixpoint mm_rows (trace : list (Q * (vec * vec))) : list vec :=
    match trace with
    | r0 :: ((r1 :: _) as rest) => (fst r0 :: hull_of Qmin (snd r0) (snd r1)) :: (fst r1 :: hull_of Qmax (snd r0) (snd r1)) :: mm_rows rest
    | _ => []
    end.

  (** verse/analysis/mixmonotone.py:55-93.  Only the first initial set is used. *)
  Definition compute_reachtube_mixmono_disc (inits : list box) (time_horizon : Q) : option (list vec) :=
    do b <- nth_error inits 0;
    let n := Z.to_nat (Qceiling (time_horizon / dt)) in
    if length (fst b) =? length (snd b) then
      do tr <- mm_trace n 0 0%Q (fst b) (snd b);
      Some (mm_rows tr)
    else None.
End MixMono.

(** [all(a <= b for a, b in zip(x, y))]. *)
Definition all_le (x y : vec) : bool := forallb (fun p => Qle_bool (fst p) (snd p)) (combine x y).

Section Optimised.
  (** [find_min]/[find_max] (lines 12-31; [find_min_symbolic]/[find_max_symbolic], lines 34-52) for component [i] of
      [agent.dynamics] over a box of states and disturbances: results of scipy's optimiser. *)
  Variables find_min find_max : nat -> box -> box -> Q -> Q.

  (** verse/analysis/mixmonotone.py:175-203, [decomposition_func], and lines 259-284, [computeD]. *)
  Definition optimised (x w xhat what : vec) (dt : Q) : option vec :=
    if (length x =? length xhat) && (length w =? length what) then
      if all_le x xhat && all_le w what then
        Some (map (fun i => find_min i (x, xhat) (w, what) dt) (seq 0 (length x)))
      else if all_le xhat x && all_le what w then
        Some (map (fun i => find_max i (xhat, x) (what, w) dt) (seq 0 (length x)))
      else None
    else None.
End Optimised.
