(** Resets of a transition when reachable sets are star sets: verse/analysis/verifier.py:1383-1501 [apply_reset_stars], with
    verse/stars/starset.py:232-242 [StarSet.apply_reset] ([image] in Star.v).

    The right-hand sides are those of Reset.v; [track_map] and the tuple's dictionary of discrete variables only matter for map
    calls, whose result is part of [RMap]. *)
From Coq Require Import Ascii String.
From Verif Require Import Base Dict PyText Reset Star.
Set Implicit Arguments.
Open Scope nat_scope.

(** [x.split('.', 1)[1]]; no dot is an IndexError. *)
Fixpoint after_dot (x : word) : option word :=
  match x with
  | [] => None
  | c :: x' => if Ascii.eqb c "."%char then Some x' else after_dot x'
  end.

Section WithText.
  Variable show : Q -> word.
  Variable read : word -> option Q.

  (** What the loop collects: the possible modes, [expr_list] with [reset_vars] (index -> expression, variable), [statevec]. *)
  Definition collected : Type := list (list word) * dict nat (expr * word) * list word.

  (** verse/analysis/verifier.py:1402-1461, one reset with the keys of its [cont_var_dict]. *)
  Definition collect (lg : logic) (st : collected) (rd : reset * list word) : option collected :=
    let '(pd, es, sv) := st in
    let r := fst rd in
    if occurs (w "mode"%string) (rvar r) then
      do i <- find_var (rvar r) (disc_vars lg);
      match rval r with
      | RConst v => Some (set_nth i [v] pd, es, sv)
      | RMap res => Some (set_nth i res pd, es, sv)
      | RMember t m => if existsb (word_eqb t) (mode_types lg) then Some (set_nth i [m] pd, es, sv) else Some st
      | RArith _ => Some st
      end
    else
      do i <- find_var (rvar r) (cont_vars lg);
      match rval r with
      | RArith e => Some (pd, dset Nat.eqb i (e, rvar r) es, filter (occurs (w "ego"%string)) (snd rd))
      | _ => None
      end.

  (** verse/analysis/verifier.py:1479-1481: write the result to the variables with the name [x]. *)
  Definition write_back (x : word) (v : Q) (names : list word) (out : vec) : option vec :=
    mapM (fun p => do n <- after_dot (fst p); Some (if word_eqb x n then v else snd p)) (combine names out).

  (** verse/analysis/verifier.py:1468-1482, [reset_func].  Replacing a name that does not occur changes nothing, so the test of
      line 1475 is left out; a [statevec] that is too short is an IndexError.  [statevec] is unbound if there is no continuous
      reset: then [es] is empty too. *)
  Definition reset_func (es : dict nat (expr * word)) (sv : list word) (state : vec) : option vec :=
    fold_left (fun acc p =>
      do out <- acc;
      if length state <=? length sv then
        do v <- eval_subst show read (firstn (length state) sv) state (unparse show (fst (snd p)));
        write_back (snd (snd p)) v (firstn (length state) sv) out
      else None) es (Some state).

  (** verse/analysis/verifier.py:1383-1501: the destinations and the new star. *)
  Definition apply_reset_stars (lg : logic) (mode : list word) (s : star) (resets : list (reset * list word))
    : option (list (list word) * star) :=
    do st <- fold_left (fun (acc : option collected) r => do a <- acc; collect lg a r) resets (Some (map (fun m => [m]) mode, [], []));
    do s' <- image (reset_func (snd (fst st)) (snd st)) s;
    Some (product (fst (fst st)), s').
End WithText.
