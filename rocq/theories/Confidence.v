(** Confidence regions of estimated parameters: verse/utils/utils.py. *)
From Coq Require Import Reals List.
From Verif Require Import Base.
Import ListNotations.
Set Implicit Arguments.
Open Scope R_scope.

Definition rvec := list R.
Definition rdot (a b : rvec) : R := fold_right Rplus 0 (zipw Rmult a b).
(** A dataset: the lists [data["features"]] and [data["outputs"]].  Outputs are numbers. *)
Record dataset := Data { features : list rvec; outputs : list R }.

Section Numerics.
  (** [confidence_ellipsoid(data, param_bound=...)], verse/utils/utils.py:242-268: the estimate, the Gramian and the radius.  Left open. *)
  Variable ellipsoid : dataset -> R -> option (rvec * list rvec * R).
  (** [np.sqrt(beta_n) * np.linalg.inv(pp) @ np.diag(np.sqrt(1 / values))] for the eigenvalues and vectors of the Gramian (287-288).  Left open. *)
  Variable radius_matrix : list rvec -> R -> option (list rvec).
  (** [np.amin] of the eigenvalues of the Gramian (320-321).  Left open. *)
  Variable least_eig : list rvec -> option R.

  (** [np.clip(x, lo, hi)] of a number and of vectors; other lengths are an exception (numpy also repeats vectors of length 1, which is left out). *)
  Definition clip (x lo hi : R) : R := Rmin (Rmax x lo) hi.
  Fixpoint clip_all (x lo hi : rvec) : option rvec :=
    match x, lo, hi with
    | [], [], [] => Some []
    | a :: x', l :: lo', h :: hi' => do r <- clip_all x' lo' hi'; Some (clip a l h :: r)
    | _, _, _ => None
    end.
  (** [itertools.product([-1, 1], repeat=n)] *)
  Fixpoint signs (n : nat) : list rvec :=
    match n with O => [[]] | S n' => map (cons (-1)) (signs n') ++ map (cons 1) (signs n') end.
  (** [np.amax(np.abs(parameter_box))]; an exception if the box is empty. *)
  Definition abs_max (l : rvec) : option R := match l with [] => None | a :: l' => Some (fold_right Rmax (Rabs a) (map Rabs l')) end.

  (** verse/utils/utils.py:271-295.  [parameter_box = None] is an exception at [np.abs]. *)
  Definition confidence_polytope (data : dataset) (parameter_box : option (rvec * rvec)) : option (rvec * list rvec * list rvec * R) :=
    do box <- parameter_box;
    let (lo, hi) := box in
    do param_bound <- abs_max (lo ++ hi);
    do e <- ellipsoid data param_bound;
    let '(theta, gramian, beta) := e in
    do rm <- radius_matrix gramian beta;
    let d_theta := map (fun h => map (fun row => rdot row h) rm) (signs (length theta)) in
    do theta' <- clip_all theta lo hi;
    do d_theta' <- mapM (fun d => clip_all d (zipw Rminus lo theta') (zipw Rminus hi theta')) d_theta;
    Some (theta', d_theta', gramian, beta).

  (** verse/utils/utils.py:298-322 for a number [y]: [phi.transpose() @ phi] has the one eigenvalue [phi . phi]. *)
  Definition is_valid_observation (y : R) (phi theta : rvec) (gramian : list rvec) (beta sigma : R) : option bool :=
    if Nat.eqb (length theta) (length phi) then
      do l <- least_eig gramian;
      let error := Rabs (y - rdot theta phi) in
      let error_bound := sqrt (rdot phi phi / l) * beta + sigma in
      Some (if Rlt_dec error error_bound then true else false)
    else None.

  (** [l.pop(-1)]: what is left, and the last. *)
  Definition pop {A} (l : list A) : option (list A * A) := match rev l with [] => None | x :: r => Some (rev r, x) end.
  (** verse/utils/utils.py:325-342.  The lists are copies.  The default of [sigma] is 0.1. *)
  Definition is_consistent_dataset (data : dataset) (parameter_box : option (rvec * rvec)) : option bool :=
    do yo <- pop (outputs data);
    do fo <- pop (features data);
    match fst yo, fst fo with
    | _ :: _, _ :: _ =>
      do p <- confidence_polytope (Data (fst fo) (fst yo)) parameter_box;
      let '(theta, _, gramian, beta) := p in
      is_valid_observation (snd yo) (snd fo) theta gramian beta (1 / 10)
    | _, _ => Some true
    end.
End Numerics.
