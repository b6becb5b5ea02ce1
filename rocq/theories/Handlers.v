(** The handlers of angular, map and general expressions: [handle_angular_function], [handle_map_function] and [handle_crown_function] of
    verse/analysis/parsed_wrap/parser_wrapper.py.

    Simplifications: as in Piecewise.v.  The optimisation over a box of a map function (bounded_map.py) and the bounds
    auto_LiRPA computes for an expression on a box are parameters.  The sorted set of argument names is a list without
    repetitions in some order. *)
From Coq Require Import Reals QArith.Qminmax.
From Verif Require Import Base PyText Dict Angle Angular Piecewise.
Set Implicit Arguments.
Open Scope nat_scope.

Section Handlers.
  (** [mapo f comb]: the pair computed by the map function [f] on the intervals [comb]. *)
  Variable mapo : word -> list (Q * Q) -> option (Q * Q).

  (** The least lower and the greatest upper bound, parser_wrapper.py:319 and 414. *)
  Definition hull (outs : list (Q * Q)) : option (list (Q * Q)) :=
    do mn <- Qfold Qmin (map fst outs);
    do mx <- Qfold Qmax (map snd outs);
    Some [(mn, mx)].

  (** [handle_map_function], parser_wrapper.py:295-319 (the swapped names of the last two parameters at
      parser_wrapper.py:258 and 295 cancel at line 314). *)
  Definition handle_map (f : word) (args : list word) (cur : bounds) : option (list (Q * Q)) :=
    do bl <- mapM (fun x => dget word_eqb x cur) args;
    do outs <- mapM (mapo f) (product bl);
    hull outs.

  (** What auto_LiRPA does with an expression on a box: bounds, the complaint that the output is a plain number,
      or another exception. *)
  Inductive outcome := Bounds (lb ub : Q) | PlainNumber | Raises.
  Variable lirpa : expr -> list (word * (Q * Q)) -> outcome.
  (** [eval(func_code)] *)
  Variable evaluate : expr -> option Q.

  (** The variables of an expression, parser_wrapper.py:375-382. *)
  Fixpoint variables (e : expr) : list word :=
    match e with
    | EName x => [x] | EConst _ => [] | EPos a => variables a | ENeg a => variables a
    | EBin _ a b => variables a ++ variables b
    | ECall _ args => flat_map variables args
    end.
  Fixpoint without_repeats (l : list word) : list word :=
    match l with [] => [] | x :: l' => if existsb (word_eqb x) l' then without_repeats l' else x :: without_repeats l' end.
  Definition crown_args (e : expr) (names : list word) : list word :=
    without_repeats (filter (fun x => existsb (word_eqb x) names) (variables e)).

  (** The loop over the boxes, parser_wrapper.py:394-414: [inr] returns early. *)
  Fixpoint crown_loop (e : expr) (args : list word) (combs : list (list (Q * Q))) : option (list (Q * Q) + Q) :=
    match combs with
    | [] => Some (inl [])
    | comb :: combs' =>
      match lirpa e (combine args comb) with
      | Bounds lb ub =>
        do r <- crown_loop e args combs';
        match r with inl outs => Some (inl ((lb, ub) :: outs)) | inr q => Some (inr q) end
      | PlainNumber => do q <- evaluate e; Some (inr q)
      | Raises => None
      end
    end.
  (** [handle_crown_function], parser_wrapper.py:362-414. *)
  Definition handle_crown (e : expr) (names : list word) (cur : bounds) : option (list (Q * Q)) :=
    let args := crown_args e names in
    do bl <- mapM (fun x => dget word_eqb x cur) args;
    do r <- crown_loop e args (product bl);
    match r with inl outs => hull outs | inr q => Some [(q, q)] end.
End Handlers.

(** [handle_angular_function], parser_wrapper.py:265-291, over the reals: [func] is the angular function on one
    combination of the arguments' intervals [bounds_list]. *)
Definition handle_angular (func : list (R * R) -> option bound) (bounds_list : list (list (R * R))) : option (list (R * R)) :=
  do outs <- mapM func (product bounds_list);
  Some (combine_bounds outs).
(** [angular_span_rect_parser], the alias of atan2. *)
Definition atan2_on (comb : list (R * R)) : option bound := match comb with [yb; xb] => span_rect yb xb | _ => None end.
