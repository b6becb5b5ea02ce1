(** Diameters of stars: verse/utils/star_manhattan.py and verse/utils/star_diams.py.

    Simplifications: numbers are rationals; a numpy array that is filled by loops is given by its entries; an infinite bound is
    [None]; scipy's milp is a parameter; times are exact. *)
From Coq Require Import Qround Qabs.
From Verif Require Import Base Dict Star.
Set Implicit Arguments.
Open Scope nat_scope.

(** A mixed-integer linear program: minimise [c x] with [bl <= A x <= bu], [lower <= x <= upper], and the components marked
    by [integrality] integers. *)
Record milp_problem := Milp {
  mp_c : vec; mp_integrality : list bool;
  mp_A : list vec; mp_bl : list (option Q); mp_bu : list (option Q);
  mp_lower : list (option Q); mp_upper : list (option Q) }.

(** star_manhattan.py:17 *)
Definition bigN : Q := inject_Z 1048575.

Section Problem.
  Variables (center : vec) (basis : list vec) (C : list vec) (g : vec).
  (** star_manhattan.py:20-23 *)
  Definition dimension : nat := length center.
  Definition num_vec : nat := length basis.
  Definition num_cons : nat := length g.
  Definition x_len : nat := dimension * 4 + num_vec * 2.

  (** star_manhattan.py:27-32 *)
  Definition obj (j : nat) : Q := if (dimension * 2 <=? j) && (j <? dimension * 2 + dimension) then (-1)%Q else 0%Q.
  (** star_manhattan.py:35-38 *)
  Definition is_int (j : nat) : bool := (dimension * 3 <=? j) && (j <? dimension * 3 + dimension).

  (** star_manhattan.py:50-58, rows [i < 2 dimension]; the second assignment of a pass wins *)
  Definition A_xy (i j : nat) : Q :=
    let alpha_start_index := (Z.of_nat j - Z.of_nat (dimension * 4) - Z.of_nat (i / dimension) * Z.of_nat num_vec)%Z in
    if (0 <=? alpha_start_index)%Z && (alpha_start_index <? Z.of_nat num_vec)%Z
    then ((-1) * nth (i mod dimension) (nth (Z.to_nat alpha_start_index) basis []) 0)%Q
    else if i =? j then 1%Q else 0%Q.
  (** star_manhattan.py:62-83, row [k] of the four of dimension [i] *)
  Definition A_abs (i k j : nat) : Q :=
    let sx : Q := match k with 0 | 2 => 1%Q | _ => (-1)%Q end in
    if j =? i then sx
    else if j =? i + dimension then (- sx)%Q
    else if j =? i + dimension * 2 then (-1)%Q
    else if j =? i + dimension * 3 then match k with 0 => bigN | 1 => (-1 * bigN)%Q | _ => 0%Q end
    else 0%Q.
  (** star_manhattan.py:87-93, row [j'] of the rows of half [h] *)
  Definition A_alpha (h j' j : nat) : Q :=
    let k := j - (dimension * 4 + h * num_vec) in
    if (dimension * 4 + h * num_vec <=? j) && (k <? num_vec) then nth k (nth j' C []) 0%Q else 0%Q.
  (** The rows of the three kinds, star_manhattan.py:41-44 *)
  Definition row_xy (i : nat) : vec := map (A_xy i) (seq 0 x_len).
  Definition row_abs (i k : nat) : vec := map (A_abs i k) (seq 0 x_len).
  Definition row_alpha (h j' : nat) : vec := map (A_alpha h j') (seq 0 x_len).
  Definition matrix : list vec :=
    map row_xy (seq 0 (dimension * 2))
    ++ flat_map (fun i => map (row_abs i) (seq 0 4)) (seq 0 dimension)
    ++ flat_map (fun h => map (row_alpha h) (seq 0 num_cons)) (seq 0 2).

  (** star_manhattan.py:97-126; the bounds of the rows in the same order *)
  Definition bound_lower : list (option Q) :=
    map (fun i => Some (nth (i mod dimension) center 0%Q)) (seq 0 (dimension * 2))
    ++ flat_map (fun _ => [Some 0%Q; Some (-1 * bigN)%Q; None; None]) (seq 0 dimension)
    ++ flat_map (fun _ => map (fun _ => None) (seq 0 num_cons)) (seq 0 2).
  Definition bound_upper : list (option Q) :=
    map (fun i => Some (nth (i mod dimension) center 0%Q)) (seq 0 (dimension * 2))
    ++ flat_map (fun _ => [None; None; Some 0%Q; Some 0%Q]) (seq 0 dimension)
    ++ flat_map (fun _ => map (fun j => Some (nth j g 0%Q)) (seq 0 num_cons)) (seq 0 2).

  (** star_manhattan.py:129-137 *)
  Definition problem : milp_problem :=
    Milp (map obj (seq 0 x_len)) (map is_int (seq 0 x_len)) matrix bound_lower bound_upper
      (map (fun j => if is_int j then Some 0%Q else None) (seq 0 x_len))
      (map (fun j => if is_int j then Some 1%Q else None) (seq 0 x_len)).
End Problem.

Section Diameters.
  (** [scipy.optimize.milp]: [result.fun], or [None] when [result.status] is not 0 *)
  Variable milp : milp_problem -> option Q.
  Variable linprog : bool -> vec -> list vec -> vec -> lp.

  (** [star_manhattan_distance], star_manhattan.py:8-143 *)
  Definition star_manhattan_distance (s : star) : Q * nat :=
    match milp (problem (center s) (basis s) (C s) (g s)) with
    | None => (0%Q, 0)
    | Some f => ((-1 * f)%Q, 1)
    end.

  (** [manhattan(a, b)], star_diams.py:31-32 and 71-72 *)
  Definition manhattan (a b : vec) : Q := fold_left Qplus (zipw (fun x y => Qabs (x - y)) a b) 0%Q.

  (** star_diams.py:51-56 *)
  Definition star_diameter (s : star) : option Q :=
    let (diam, result) := star_manhattan_distance s in
    if result =? 1 then Some diam
    else do rect <- overapprox_rectangle linprog s; Some (manhattan (fst rect) (snd rect)).

  Variables (A : Type) (eqb : A -> A -> bool).
  Notation trace := (dict A (list (Q * star))).

  (** The inner loop of [reach_star], star_diams.py:103-112: the rows that are kept *)
  Fixpoint in_window (t_l t_u : Q) (rows : list (Q * star)) : list star :=
    match rows with
    | [] => []
    | (t, s) :: rest =>
      if negb (Qle_bool t_l t) then in_window t_l t_u rest
      else if negb (Qle_bool t t_u) then []
      else s :: in_window t_l t_u rest
    end.
  (** [reach_star(traces, t_l, t_u)], star_diams.py:89-114; [None] is an IndexError or KeyError *)
  Definition reach_star (nodes : list trace) (t_l t_u : Q) : option (dict A (list star)) :=
    do n0 <- hd_error nodes;
    let agents := map fst n0 in
    fold_left (fun acc node =>
      fold_left (fun acc agent =>
        do reach <- acc;
        do rows <- dget eqb agent node;
        Some (fold_left (fun reach s => dappend eqb agent s reach) (in_window t_l t_u rows) reach)) agents acc)
      nodes (Some []).

  (** Python's [max] *)
  Definition max_of (x : Q) (l : vec) : Q := fold_left (fun m y => if negb (Qle_bool y m) then y else m) l x.

  (** [np.linspace(0, time_horizon, int(time_horizon / time_step) + 1)] and the element appended, star_diams.py:36-37 *)
  Definition time_steps (time_horizon time_step : Q) : list Q :=
    let n := Z.to_nat (Qfloor (time_horizon / time_step)) in
    let pts := map (fun i => if n =? 0 then 0 else inject_Z (Z.of_nat i) * time_horizon / inject_Z (Z.of_nat n))%Q (seq 0 (n + 1)) in
    pts ++ [(last pts 0%Q + time_step)%Q].

  (** [time_step_diameter(trace, time_horizon, time_step)], star_diams.py:35-69.  [None]: an exception. *)
  Definition one_step (nodes : list trace) (time_step a b : Q) : option (list Q) :=
    do reach <- reach_star nodes (a - time_step * (1 # 10)) (b - time_step * (1 # 10));
    do diams <- mapM star_diameter (flat_map snd reach);
    Some (match diams with [] => [] | x :: rest => [max_of x rest] end).
  Definition time_step_diameter (nodes : list trace) (time_horizon time_step : Q) : option (list Q) :=
    let ts := time_steps time_horizon time_step in
    do ds <- mapM (fun i => one_step nodes time_step (nth i ts 0%Q) (nth (i + 1) ts 0%Q)) (seq 0 (length ts - 1));
    Some (concat ds).
End Diameters.
