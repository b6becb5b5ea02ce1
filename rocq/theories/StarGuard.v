(** Guards when reachable sets are star sets: verse/automaton/guard.py:114-148 [get_agent_dictionaries], 182-233 (the star
    branch of [evaluate_guard_cont]), verse/stars/starset.py:365-391 [add_constraints], verse/sensor/base_sensor_stars.py,
    verse/analysis/verifier.py:1281-1284 [apply_cont_var_updater].

    The guard, its unrolling, its discrete part and the solver formula are those of Guard.v; a lane coordinate in the guard
    is an error in the model. *)
From Coq Require Import Ascii String.
From Verif Require Import Base Dict PyText Guard Sensor Star StarReset.
Set Implicit Arguments.
Open Scope nat_scope.

(** [x.split(".")[0]] *)
Fixpoint before_dot (x : word) : word :=
  match x with
  | [] => []
  | c :: x' => if Ascii.eqb c "."%char then [] else c :: before_dot x'
  end.

(** ** The dictionary *)

(** verse/sensor/base_sensor_stars.py:4-34: every variable of an agent is bound to the whole star [vals[0]].  [zip] stops at
    the shorter list, so that repeating the star once per variable of the largest state type is the same as once per
    variable.  The state is the pair of its time and its star (verse/analysis/verifier.py:1071-1079). *)
Definition star_values (defs : dict word sdef) (st : Q * star) : option (list star) :=
  Some (repeat (snd st) (list_max (map (fun p => length (s_cont (snd p))) defs))).
(** [BaseStarSensor.sense], verse/sensor/base_sensor_stars.py:74-153, which differs from [BaseSensor.sense] in this only. *)
Definition star_sense {D} (args : list arg) (defs : dict word sdef) (me : nat) (states : dict nat (astate (Q * star) D)) :=
  sense (star_values defs) args defs me states.

(** The dictionary of continuous variables: a star, or the list of the stars of all other agents. *)
Notation sdict := (dict word (entry star)).

(** verse/analysis/verifier.py:1281-1284: [(unrolled, index)] for each variable.  Indexing a star raises. *)
Definition update_stars (cd : sdict) (upd : list (word * list (word * nat))) : option sdict :=
  fold_opt (fun cd vu =>
    fold_opt (fun cd ui =>
      match dget word_eqb (fst vu) cd with
      | Some (Many l) => do s <- nth_error l (snd ui); Some (dset word_eqb (fst ui) (One s) cd)
      | _ => None
      end) (snd vu) cd) upd cd.

(** The variables that occur in a guard. *)
Fixpoint refs (e : gex) : list ref :=
  match e with
  | GVar r => [r]
  | GNeg a | GNot a => refs a
  | GBin _ l r | GCmp _ l r => refs l ++ refs r
  | GBoolOp _ es => flat_map refs es
  | GCall _ args => flat_map (fun a => match a with AVar r => [r] | _ => [] end) args
  | GLane _ l p q => [l; p; q]
  | GRed _ body _ _ => refs body
  | _ => []
  end.
(** verse/automaton/guard.py:1190-1300: what unrolling any/all writes into [cont_var_updater]: for each item of a list, each
    attribute of the iteration variable that is a continuous variable, the name for the item and its index, once. *)
Fixpoint events (len : word -> option nat) (e : gex) : list (word * word * nat) :=
  match e with
  | GNeg a | GNot a => events len a
  | GBin _ l r | GCmp _ l r => events len l ++ events len r
  | GBoolOp _ es => flat_map (events len) es
  | GRed _ body x iter =>
    match len iter with
    | Some n => flat_map (fun i => flat_map (fun r => match r with RAttr o a => if word_eqb o x then [(iter, a, i)] else [] | RName _ => [] end) (refs body)) (seq 0 n)
    | None => []
    end
  | _ => []
  end.
Definition updater (len : word -> option nat) (cd : sdict) (e : gex) : dict word (list (word * nat)) :=
  fold_left (fun d ev =>
    let '(iter, a, i) := ev in
    if dmem word_eqb (key iter a) cd then
      let p := (iter ++ w "_" ++ dec i ++ w "." ++ a, i) in
      dalter word_eqb (fun o => match o with
                                | None => [p]
                                | Some l => if existsb (fun q => word_eqb (fst p) (fst q) && (snd p =? snd q)) l then l else l ++ [p]
                                end) (key iter a) d
    else d) (events len e) [].

(** ** The constraints *)

(** Linear constraints over solver variables: [c + row . xs == y], [row . xs <= b]. *)
Inductive lin := LEq (c : Q) (row : vec) (xs : list word) (y : word) | LLe (row : vec) (xs : list word) (b : Q).

(** [Real("%s_alpha_%s" % (agent, j + 1))] *)
Definition alpha_name (agent : word) (j : nat) : word := agent ++ w "_alpha_" ++ dec (S j).

(** verse/stars/starset.py:365-391, [add_constraints].  Too few names for the dimension are an IndexError. *)
Definition add_constraints (s : star) (names : list word) (agent : word) : option (list lin) :=
  let al := map (alpha_name agent) (seq 0 (gens s)) in
  do eqs <- mapM (fun j => do y <- nth_error names j; do c <- nth_error (center s) j; Some (LEq c (column j (basis s)) al y)) (seq 0 (dim s));
  do les <- mapM (fun i => do row <- nth_error (C s) i; do b <- nth_error (g s) i; if gens s <=? length row then Some (LLe (firstn (gens s) row) al b) else None)
              (seq 0 (length (C s)));
  Some (eqs ++ les).

(** The keys of [varDict]. *)
Definition var_names (cd : sdict) : list word := map fst (fold_left (fun d k => dset word_eqb (under k) tt d) (map fst cd) []).

(** verse/automaton/guard.py:126-146: the solver variables of an agent's state. *)
Definition state_names (cd : sdict) (agent : word) : option (list word) :=
  if occurs (w "tmp_variable") agent then Some [agent]
  else if negb (existsb (Ascii.eqb "_"%char) agent) then Some (filter (occurs agent) (var_names cd))
  else mapM (fun kv => do a <- after_dot (fst kv); Some (agent ++ w "_" ++ before_dot a))
         (filter (fun kv => match snd kv with Many _ => true | One _ => false end) cd).

(** verse/automaton/guard.py:106: the variables whose name is in the text. *)
Definition star_symbols (cd : sdict) (f : form) : list word :=
  filter (fun k => existsb (fun r => occurs k (text r)) (form_refs f)) (map fst cd).

(** verse/automaton/guard.py:117-124: the star of each agent, from its first variable. *)
Definition agent_states (cd : sdict) (ks : list word) : option sdict :=
  fold_opt (fun d k => if dmem word_eqb (before_dot k) d then Some d
                       else do v <- dget word_eqb k cd; Some (dset word_eqb (before_dot k) v d)) ks [].

(** verse/automaton/guard.py:199-206: the constraints of all agents; a list has no [add_constraints]. *)
Definition star_lins (cd : sdict) (f : form) : option (list lin) :=
  do st <- agent_states cd (star_symbols cd f);
  do nm <- mapM (fun av => state_names cd (fst av)) st;
  do ls <- mapM (fun p => match snd (fst p) with One s => add_constraints s (snd p) (fst (fst p)) | Many _ => None end) (combine st nm);
  Some (concat ls).

Section Guard.
  Variable call : word -> list dval -> option dval.
  Variable dd : dict word word.
  Variable phys : word -> word.
  (** z3, given the formula over the renamed variables and linear constraints. *)
  Variable solve : list word -> form -> list lin -> verdict.

  (** verse/automaton/guard.py:182-233, [evaluate_guard_cont] for stars: (satisfiable, contained).  The constraints are added
      twice to the first solver. *)
  Definition star_cont (cd : sdict) (e : gex) : option (bool * bool) :=
    match gen e with
    | inl b => Some (b, b)
    | inr f =>
      let keys := map fst cd in
      if wf_form keys f then
        do ls <- star_lins cd f;
        match solve keys f (ls ++ ls) with
        | Sat => Some (true, match solve keys (FNot f) ls with Unsat => true | _ => false end)
        | _ => Some (false, false)
        end
      else None
    end.

  (** verse/analysis/verifier.py:1036-1041, then 1155-1168; see [guard_check] in Guard.v. *)
  Definition star_check (cd : sdict) (e : gex) : option (bool * bool) :=
    do p <- disc call dd e;
    if truthy (fst p) then
      do r <- hyb dd phys (fun (_ : bool) (_ : word) (_ _ : Q * Q) => None) [] (snd p);
      if truthy (hr_val r) then star_cont cd (hr_new r) else Some (false, false)
    else Some (false, false).
End Guard.
