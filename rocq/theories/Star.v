(** Star sets: verse/stars/starset.py.  Numpy arrays are lists (of lists) of rationals; a shape that numpy rejects is [None].
    scipy's linprog and z3 are parameters. *)
From Verif Require Import Base.
Set Implicit Arguments.
Open Scope nat_scope.

(** [a @ b] for vectors. *)
Definition dot (a b : vec) : Q := fold_right Qplus 0%Q (zipw Qmult a b).
(** [basis[:, i]]. *)
Definition column (i : nat) (m : list vec) : vec := map (fun v => nth i v 0%Q) m.
Definition vadd (a b : vec) : vec := zipw Qplus a b.
Definition vsub (a b : vec) : vec := zipw Qminus a b.
Definition vopp (a : vec) : vec := map Qopp a.

Record star := Star { center : vec; basis : list vec; C : list vec; g : vec }.
Definition dim (s : star) : nat := length (center s).
Definition gens (s : star) : nat := length (basis s).

Definition all_len (n : nat) (rows : list vec) : bool := forallb (fun r => length r =? n) rows.

(** verse/stars/starset.py:32-64, the constructor.  [C.shape[1]] is the length of every row of [C]. *)
Definition mk_star (c : vec) (b : list vec) (cm : list vec) (gv : vec) : option star :=
  if all_len (length c) b then
    if all_len (length b) cm then
      if length gv =? length cm then Some (Star c b cm gv) else None
    else None
  else None.

(** verse/stars/starset.py:71-85. *)
Definition superposition (s : star) (new_center : vec) (new_basis : list vec) : option star :=
  if length new_basis =? length (basis s) then mk_star new_center new_basis (C s) (g s) else None.

(** verse/stars/starset.py:219-227, [post_cont], and 232-242, [apply_reset]: [f] is [simulate(., t)] or
    [reset_function(., expr_list, reset_vars)].  [np.empty_like(self.basis)] fixes the width of the new basis. *)
Definition image (f : vec -> option vec) (s : star) : option star :=
  do new_center <- f (center s);
  do new_basis <- mapM (fun v =>
    if length v =? length (center s) then
      do new_x <- f (vadd (center s) v);
      if (length new_x =? length new_center) && (length new_x =? length (center s)) then Some (vsub new_x new_center) else None
    else None) (basis s);
  superposition s new_center new_basis.

(** verse/stars/starset.py:88-108, [calc_reach_tube_linear].  [sim x] is the array of rows (time first) of the simulation
    from [x]; row [i] of a shorter basis simulation is an error. *)
Definition calc_reach_tube_linear (sim : vec -> list vec) (s : star) : option (list (Q * star)) :=
  let sim_results := sim (center s) in
  do runs <- mapM (fun v =>
    if length v =? length (center s) then
      let new_x := sim (vadd (center s) v) in
      mapM (fun j => do r <- nth_error new_x j; do c <- nth_error sim_results j;
                     if length (tl r) =? length (tl c) then Some (vsub (tl r) (tl c)) else None) (seq 0 (length new_x))
    else None) (basis s);
  mapM (fun i =>
    do r <- nth_error sim_results i;
    do t <- hd_error r;
    do b <- mapM (fun run => nth_error run i) runs;
    do s' <- superposition s (tl r) b;
    Some (t, s')) (seq 0 (length sim_results)).

(** [np.eye(n)]. *)
Definition unit_vec (n i : nat) : vec := map (fun j => if j =? i then 1%Q else 0%Q) (seq 0 n).
Definition eye (n : nat) : list vec := map (unit_vec n) (seq 0 n).

(** verse/stars/starset.py:305-313. *)
Definition from_poly (constraint_mat : list vec) (rhs : vec) : option star :=
  if length rhs =? length constraint_mat then
    do r <- hd_error constraint_mat;
    mk_star (repeat 0%Q (length r)) (eye (length r)) constraint_mat rhs
  else None.

(** [polytope.box2poly(dims)] (not in the repository): [x <= hi] and [-x <= -lo]. *)
Definition box2poly (dims : list (Q * Q)) : list vec * vec :=
  (eye (length dims) ++ map vopp (eye (length dims)), map snd dims ++ map (fun d => - fst d)%Q dims).

(** verse/stars/starset.py:145-152. *)
Definition rect_to_star (lo hi : vec) : option star :=
  if length lo =? length hi then let p := box2poly (combine lo hi) in from_poly (fst p) (snd p) else None.

(** [np.matmul(a, b)] of two matrices. *)
Definition matmul (a b : list vec) : option (list vec) :=
  do r <- hd_error b;
  mapM (fun row => if length row =? length b then Some (map (fun k => dot row (column k b)) (seq 0 (length r))) else None) a.

(** verse/stars/starset.py:269-280, [intersection_poly], returned as a new star.  The length checks of the code are vacuous
    ([len(v == n)] is the length of [v]); the shapes are checked by numpy. *)
Definition intersection_poly (s : star) (constraint_mat : list vec) (rhs : vec) : option star :=
  if length rhs =? length constraint_mat then
    do new_c <- matmul constraint_mat (basis s);
    if all_len (gens s) new_c && all_len (dim s) constraint_mat then
      Some (Star (center s) (basis s) (C s ++ new_c) (g s ++ zipw (fun b row => b - dot row (center s))%Q rhs constraint_mat))
    else None
  else None.

(** verse/stars/starset.py:253-267. *)
Definition halfspace_intersection (s : star) (a : vec) (b : Q) : option star := intersection_poly s [a] [b].

(** Results of [scipy.optimize.linprog]: status 0, 2, and any other. *)
Inductive lp := Optimal (x : vec) | Infeasible | Other.

Section Solvers.
  (** [linprog(c, A_ub, b_ub, bounds)]; [true] is [bounds=(None, None)], [false] the default [(0, None)]. *)
  Variable linprog : bool -> vec -> list vec -> vec -> lp.
  (** z3 on the linear equations [c + row . alpha = rhs] and inequalities [row . alpha <= rhs] over [m] variables. *)
  Variable sat : nat -> list (Q * vec * Q) -> list (vec * Q) -> bool.

  (** linprog's shape check. *)
  Definition run_lp (free : bool) (c : vec) (a : list vec) (b : vec) : option lp :=
    if all_len (length c) a && (length b =? length a) then Some (linprog free c a b) else None.

  (** verse/stars/starset.py:505-525.  [res.x] is [None] unless the program was solved. *)
  Definition get_max_min (s : star) (i : nat) : option (Q * Q) :=
    if i <? dim s then
      let coefficents := column i (basis s) in
      do r1 <- run_lp true coefficents (C s) (g s);
      do r2 <- run_lp true (vopp coefficents) (C s) (g s);
      match r1, r2 with
      | Optimal x1, Optimal x2 => Some (nth i (center s) 0 + dot coefficents x1, nth i (center s) 0 + dot coefficents x2)%Q
      | _, _ => None
      end
    else None.

  (** verse/stars/starset.py:110-118. *)
  Definition overapprox_rectangle (s : star) : option (vec * vec) :=
    do ms <- mapM (get_max_min s) (seq 0 (dim s));
    Some (map fst ms, map snd ms).

  (** verse/stars/starset.py:539-545. *)
  Definition is_feasible (n : nat) (constraint_mat : list vec) (rhs : vec) : option bool :=
    do r <- run_lp false (repeat 0%Q n) constraint_mat rhs;
    match r with Optimal _ => Some true | Infeasible => Some false | Other => None end.

  (** verse/stars/starset.py:533-537. *)
  Definition is_empty (s : star) : option bool := option_map negb (is_feasible (dim s) (C s) (g s)).

  (** verse/stars/starset.py:327-333. *)
  Definition satisfies (s : star) (constraint_vec : vec) (rhs : Q) : option bool :=
    do s' <- halfspace_intersection s (vopp constraint_vec) (- rhs)%Q;
    is_empty s'.

  (** verse/stars/starset.py:335-361. *)
  Definition contains_point (s : star) (point : vec) : option bool :=
    if length point <=? dim s then
      Some (sat (gens s)
        (map (fun j => (nth j (center s) 0%Q, column j (basis s), nth j point 0%Q)) (seq 0 (length point)))
        (combine (C s) (g s)))
    else None.

  (** verse/stars/starset.py:578-603, [containment_poly]. *)
  Definition containment_poly (s : star) (point : vec) : option bool :=
    if dim s =? length point then contains_point s point else None.

  (** verse/stars/starset.py:547-560. *)
  Definition combine_stars (stars : list star) : option star :=
    do s0 <- hd_error stars;
    do new_rect <- mapM (fun i =>
      do ms <- mapM (fun s => get_max_min s i) stars;
      match ms with
      | [] => None
      | m0 :: rest => Some (fold_left (fun acc m =>
          (if negb (Qle_bool (fst acc) (fst m)) then fst m else fst acc,
           if negb (Qle_bool (snd m) (snd acc)) then snd m else snd acc)) rest m0)
      end) (seq 0 (dim s0));
    let p := box2poly new_rect in from_poly (fst p) (snd p).

  Section Tube.
    (** [calc_bloated_tube] of the rectangle, as the list of its rows (time first). *)
    Variable bloat : vec * vec -> list vec.

    Fixpoint pair_rows (rows : list vec) : option (list (vec * vec)) :=
      match rows with
      | [] => Some []
      | a :: b :: rest => do r <- pair_rows rest; Some ((a, b) :: r)
      | [_] => None
      end.

    (** verse/stars/starset.py:157-200, [calc_reach_tube] without PCA. *)
    Definition calc_reach_tube (s : star) : option (list (Q * star)) :=
      do rect <- overapprox_rectangle s;
      do ps <- pair_rows (bloat rect);
      mapM (fun p => do t <- hd_error (fst p); do st <- rect_to_star (tl (fst p)) (tl (snd p)); Some (t, st)) ps.

    (** verse/analysis/verifier.py:126-231, [calculate_full_bloated_tube_stars], not incremental: one tube per segment of
        [seg] initial stars, the last of which is returned ([res_tube] is never updated).  A segment of one star uses
        [initial_set[0]]. *)
    Fixpoint segments (fuel seg : nat) (inits : list star) : list (list star) :=
      match fuel, inits with
      | S f, _ :: _ => firstn seg inits :: segments f seg (skipn seg inits)
      | _, _ => []
      end.
    Definition star_tube (seg : nat) (initial_set : list star) : option (list (Q * star)) :=
      do s0 <- hd_error initial_set;
      do tubes <- mapM (fun rect_seg =>
        do combined <- (if 1 <? length rect_seg then combine_stars rect_seg else Some s0);
        calc_reach_tube combined) (segments (length initial_set) seg initial_set);
      nth_error tubes (length tubes - 1).
  End Tube.
End Solvers.

(** verse/stars/starset.py:677-693, [new_pred]. *)
Definition new_pred (s : star) : option star :=
  let cols := gens s in
  let row j := map (fun i => if i * 2 =? j then 1%Q else if i * 2 + 1 =? j then (- (1))%Q else 0%Q) (seq 0 cols) in
  mk_star (center s) (basis s) (map row (seq 0 (cols * 2))) (repeat 1%Q (length (g s))).

Section Pca.
  (** z3's optimiser on the constraints of lines 635-656, for the star's predicate, a basis and points: the new center and
      the factor [u] of the model, or [None] when unsatisfiable. *)
  Variable optimise : list vec -> vec -> list vec -> list vec -> option (vec * Q).

  (** verse/stars/starset.py:622-674, [post_cont_pca]; the conversion of the solution to floats is taken as exact. *)
  Definition post_cont_pca (old : star) (derived_basis points : list vec) : option star :=
    let once (s : star) := do m <- optimise (C s) (g s) derived_basis points; Some (s, m) in
    if negb (length points =? 0) && all_len (dim old) points && (length derived_basis =? gens old) && all_len (dim old) derived_basis then
      do r <- match once old with
              | Some r => Some r
              | None => do s <- new_pred old; once s
              end;
      let '(s, (c, u)) := r in
      mk_star c derived_basis (C s) (map (fun b => b * u)%Q (g s))
    else None.
End Pca.
