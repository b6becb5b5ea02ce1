(** Tubes of stars fitted to sampled simulations: verse/stars/starset.py [sample_star], [gen_starset],
    [gen_starsets_post_sim], [sim_star] and [calc_reach_tube] with [pca=True].  scikit-learn's PCA, z3, scipy's linprog,
    numpy's generator and the simulator are parameters. *)
From Coq Require Import Ascii String Qround.
From Verif Require Import Base PyText Star Runs.
Set Implicit Arguments.
Open Scope nat_scope.

(** How [sample_star] ends: with points, with too many consecutive misses, with another exception; [Unfinished] is the
    model's own, for a loop that was given too few rounds. *)
Inductive sampled (rng : Type) := Points (points : list vec) (g : rng) | Misses | Failure | Unfinished.
Arguments Points {rng}. Arguments Misses {rng}. Arguments Failure {rng}. Arguments Unfinished {rng}.

Section Sampling.
  Variable linprog : bool -> vec -> list vec -> vec -> lp.
  Variable sat : nat -> list (Q * vec * Q) -> list (vec * Q) -> bool.
  Variable rng : Type.
  Variable draw : rng -> Q * rng.

  (** [int(N*tol)], starset.py:617.  [misses] is at least one when it is compared, so a negative bound is like zero. *)
  Definition allowed (N : nat) (tol : Q) : nat := Z.to_nat (Qfloor (inject_Z (Z.of_nat N) * tol)).

  (** The loop of starset.py:610-618; [fuel] bounds its rounds. *)
  Fixpoint sample_loop (fuel : nat) (star : star) (rect : list (Q * Q)) (N limit : nat) (points : list vec) (misses : nat) (g : rng) : sampled rng :=
    if length points <? N then
      match fuel with
      | 0 => Unfinished
      | S f =>
        let (point, g1) := uniform draw rect g in
        match containment_poly sat star point with
        | None => Failure
        | Some true => sample_loop f star rect N limit (points ++ [point]) 0 g1
        | Some false => if limit <? misses + 1 then Misses else sample_loop f star rect N limit points (misses + 1) g1
        end
      end
    else Points points g.

  (** verse/stars/starset.py:606-619, [sample_star]; the rectangle's rows go to [sample_rect], utils.py:416-422. *)
  Definition sample_star (fuel : nat) (star : star) (N : nat) (tol : Q) (g : rng) : sampled rng :=
    match overapprox_rectangle linprog star with
    | None => Failure
    | Some (lo, hi) =>
      match broadcast lo hi with
      | None => Failure
      | Some rect => sample_loop fuel star rect N (allowed N tol) [] 0 g
      end
    end.

  (** The scaled principal components of lines 700-703 ([None] when scikit-learn raises), and z3's optimiser. *)
  Variable pca : list vec -> option (list vec).
  Variable optimise : list vec -> vec -> list vec -> list vec -> option (vec * Q).

  (** verse/stars/starset.py:698-705, [gen_starset]. *)
  Definition gen_starset (points : list vec) (old_star : star) : option star :=
    do derived_basis <- pca points;
    post_cont_pca optimise old_star derived_basis points.

  (** The rows (time first) of a simulation, [None] when the simulator raises: mode, initial state, horizon, step. *)
  Variable sim : option word -> vec -> Q -> Q -> option (list vec).

  (** verse/stars/starset.py:708-722, [gen_starsets_post_sim]: with [no_init] the first row of each simulation is dropped.
      [np.array] needs as many rows in each ([post_points.shape[1]] does not exist otherwise, nor without points). *)
  Definition gen_starsets_post_sim (fuel : nat) (old_star : star) (T ts : Q) (N : nat) (no_init : bool) (mode_label : option word) (g : rng) : option (list star * rng) :=
    match sample_star fuel old_star N (1 # 5) g with
    | Points points g1 =>
      do runs <- mapM (fun point => do rows <- sim mode_label point T ts; Some (if no_init then tl rows else rows)) points;
      do first <- hd_error runs;
      if forallb (fun rows => length rows =? length first) runs then
        do stars <- mapM (fun t =>
          do states <- mapM (fun rows => do row <- nth_error rows t; Some (tl row)) runs;
          gen_starset states old_star) (seq 0 (length first));
        Some (stars, g1)
      else None
    | _ => None
    end.

  (** verse/stars/starset.py:204-210, the last branch of [calc_reach_tube]. *)
  Definition calc_reach_tube_pca (fuel : nat) (s : star) (mode_label : word) (time_horizon time_step : Q) (g : rng) : option (list (Q * star) * rng) :=
    do r <- gen_starsets_post_sim fuel s time_horizon time_step 100 false (Some mode_label) g;
    Some (map (fun i => (inject_Z (Z.of_nat i) * time_step, nth i (fst r) s)%Q) (seq 0 (length (fst r))), snd r).

  (** The loop of starset.py:732-736; [steps] bounds its rounds, [fuel] those of each [sample_star]. *)
  Fixpoint sim_loop (steps fuel : nat) (old_star : star) (t T ts : Q) (N : nat) (g : rng) : option (list star * rng) :=
    if Qle_bool T t then Some ([], g)
    else match steps with
         | 0 => None
         | S k =>
           do r <- gen_starsets_post_sim fuel old_star ts ts N true None g;
           do new_star <- hd_error (fst r);
           do rest <- sim_loop k fuel new_star (t + ts) T ts N (snd r);
           Some (new_star :: fst rest, snd rest)
         end.
  (** verse/stars/starset.py:728-737, [sim_star]. *)
  Definition sim_star (steps fuel : nat) (init_star : star) (T ts : Q) (N : nat) (g : rng) : option (list star * rng) :=
    sim_loop steps fuel init_star 0 T ts N g.
End Sampling.
