(** Resets of a transition: verse/analysis/verifier.py [apply_reset] and [_get_combinations],
    verse/automaton/reset.py [ResetExpression]. *)
From Coq Require Import Ascii String.
From Verif Require Import Base PyText.
Set Implicit Arguments.
Open Scope nat_scope.

(** The right-hand side of a reset: what [apply_reset] distinguishes (lines 1317-1334). *)
Inductive rhs :=
| RConst (v : word)                   (** a string constant *)
| RMember (typ member : word)         (** [Type.Member] *)
| RMap (res : list word)              (** a map call; [res] is what evaluating it gives *)
| RArith (e : expr).                  (** an arithmetic expression *)

(** verse/automaton/reset.py:7-12. *)
Record reset := { rvar : word; rval : rhs }.

(** The part of the agent's decision logic that is read: names of the discrete and continuous state
    variables and of the mode types. *)
Record logic := { disc_vars : list word; cont_vars : list word; mode_types : list word }.

(** [for i, v in enumerate(l): if v == x: break], with the not-found ValueError. *)
Fixpoint find_var (x : word) (l : list word) : option nat :=
  match l with
  | [] => None
  | y :: l' => if word_eqb y x then Some 0 else option_map S (find_var x l')
  end.

Section WithText.
  Variable show : Q -> word.
  Variable read : word -> option Q.

  (** [cont_var_dict]: name -> (low, high). *)
  Definition bounds : Type := list (word * (Q * Q)).

  (** verse/analysis/verifier.py:1341-1344. *)
  Definition symbols_in (dict : bounds) (ts : list tok) : list (word * (Q * Q)) :=
    filter (fun p => occurs_text (fst p) ts) dict.

  (** verse/analysis/verifier.py:1505-1510, [_get_combinations]. *)
  Definition get_combinations (syms : list (word * (Q * Q))) : list (list Q) :=
    product (map (fun p => [fst (snd p); snd (snd p)]) syms).

  (** [min(lb, res)] / [max(ub, res)] starting from [inf] / [-inf]. *)
  Definition minmax (vals : list Q) : option (Q * Q) :=
    match vals with
    | [] => None
    | v :: vs => Some (fold_left Qmin vs v, fold_left Qmax vs v)
    end.

  (** verse/analysis/verifier.py:1340-1367: bounds of the reset value. *)
  Definition reset_bounds (dict : bounds) (e : expr) : option (Q * Q) :=
    let ts := unparse show e in
    let syms := symbols_in dict ts in
    do vals <- mapM (fun comb => eval_subst show read (map fst syms) comb ts) (get_combinations syms);
    minmax vals.

  (** One iteration of the loop of lines 1300-1370 on [(possible_dest, rect)]. *)
  Definition apply_one (lg : logic) (dict : bounds) (st : list (list word) * (vec * vec)) (r : reset)
    : option (list (list word) * (vec * vec)) :=
    let '(pd, (lo, hi)) := st in
    if occurs (w "mode"%string) (rvar r) then
      do i <- find_var (rvar r) (disc_vars lg);
      match rval r with
      | RConst v => Some (set_nth i [v] pd, (lo, hi))
      | RMap res => Some (set_nth i res pd, (lo, hi))
      | RMember t m =>
        if existsb (word_eqb t) (mode_types lg) then Some (set_nth i [m] pd, (lo, hi)) else Some st
      | RArith _ => Some st
      end
    else
      do i <- find_var (rvar r) (cont_vars lg);
      match rval r with
      | RArith e => do b <- reset_bounds dict e; Some (pd, (set_nth i (fst b) lo, set_nth i (snd b) hi))
      | _ => None
      end.

  (** verse/analysis/verifier.py:1286-1377, [apply_reset]: the destinations and the rectangle. *)
  Definition apply_reset (lg : logic) (dict : bounds) (mode : list word) (state : vec * vec) (resets : list reset)
    : option (list (list word) * (vec * vec)) :=
    do st <- fold_left (fun acc r => do a <- acc; apply_one lg dict a r) resets
                       (Some (map (fun m => [m]) mode, state));
    Some (product (fst st), snd st).
End WithText.
