(** The default sensor: verse/sensor/base_sensor.py. *)
From Coq Require Import Ascii String.
From Verif Require Import Base Dict PyText.
Set Implicit Arguments.
Open Scope nat_scope.

(** An argument of the decision logic (LambdaArg, parser/parser.py 197-200) and the variables of a state type
    (StateDef, parser/parser.py 56-63); the types of the discrete variables are not used here. *)
Record arg := mk_arg { a_name : word; a_typ : option word }.
Record sdef := mk_sdef { s_cont : list word; s_disc : list word; s_stat : list word }.

(** What a sensed variable is bound to: a value (ego) or a list of values (others). *)
Inductive entry (V : Type) := One (v : V) | Many (vs : list V).
Arguments One {V}. Arguments Many {V}.

(** thing + "." + k, base_sensor.py 6, 11 *)
Definition key (thing k : word) : word := thing ++ w "." ++ k.

(** sets, base_sensor.py 5-6.  [combine] is Python's zip: it stops at the shorter list. *)
Definition sets {V} (d : dict word (entry V)) (thing : word) (attrs : list word) (vals : list V) : dict word (entry V) :=
  fold_left (fun d kv => dset word_eqb (key thing (fst kv)) (One (snd kv)) d) (combine attrs vals) d.

(** adds, base_sensor.py 9-14.  None: a value that is not a list has no append. *)
Definition add1 {V} (thing : word) (d : dict word (entry V)) (kv : word * V) : option (dict word (entry V)) :=
  match dget word_eqb (key thing (fst kv)) d with
  | None => Some (dset word_eqb (key thing (fst kv)) (Many [snd kv]) d)
  | Some (Many l) => Some (dset word_eqb (key thing (fst kv)) (Many (l ++ [snd kv])) d)
  | Some (One _) => None
  end.
Fixpoint fold_opt {A B} (f : A -> B -> option A) (l : list B) (a : A) : option A :=
  match l with
  | [] => Some a
  | b :: r => do a' <- f a b; fold_opt f r a'
  end.
Definition adds {V} (d : dict word (entry V)) (thing : word) (attrs : list word) (vals : list V) : option (dict word (entry V)) :=
  fold_opt (add1 thing) (combine attrs vals) d.

(** BaseSensor.sense, base_sensor.py 54-135.  [values] takes the values of the continuous variables out of a state: the
    state without its time (simulate, set_states_2d/add_states_2d 17-21, 32-36), or the columns of its rows without the
    time (verify, set_states_3d/add_states_3d 24-29, 39-44); see [values2] and [values3] below. *)
Section Sense.
  Variables St V D : Type.
  Variable values : St -> option (list V).
  Definition astate := (St * list D * list D)%type.  (* state, mode, static *)

  (** The first argument named "ego", base_sensor.py 63-70; its type may be None. *)
  Definition ego_type (args : list arg) : option word :=
    match find (fun a => word_eqb (a_name a) (w "ego")) args with Some a => a_typ a | None => None end.
  (** The first argument that is not "ego" and has no "map" in its name, base_sensor.py 79-86 *)
  Definition other_arg (args : list arg) : option (word * word) :=
    match find (fun a => negb (word_eqb (a_name a) (w "ego")) && negb (occurs (w "map") (a_name a))) args with
    | Some a => option_map (fun t => (a_name a, t)) (a_typ a)
    | None => None
    end.

  Definition views := (dict word (entry V) * dict word (entry D))%type.
  Definition sense1 (args : list arg) (defs : dict word sdef) (me : nat) (vw : views) (p : nat * astate) : option views :=
    let '(aid, (st, mode, static)) := p in
    if aid =? me then
      match ego_type args with
      | None => Some vw
      | Some t =>
        do sd <- dget word_eqb t defs; do vals <- values st;
        Some (sets (fst vw) (w "ego") (s_cont sd) vals,
              sets (sets (snd vw) (w "ego") (s_disc sd) mode) (w "ego") (s_stat sd) static)
      end
    else
      match other_arg args with
      | None => Some vw
      | Some (name, t) =>
        do sd <- dget word_eqb t defs; do vals <- values st;
        do c <- adds (fst vw) name (s_cont sd) vals;
        do d <- adds (snd vw) name (s_disc sd) mode;
        do d' <- adds d name (s_stat sd) static;
        Some (c, d')
      end.
  (** None for an empty state_dict is the IndexError of base_sensor.py 58. *)
  Definition sense (args : list arg) (defs : dict word sdef) (me : nat) (states : dict nat astate)
    : option (dict word (entry V) * dict word (entry D) * dict word nat) :=
    match states with
    | [] => None
    | _ =>
      do vw <- fold_opt (sense1 args defs me) states ([], []);
      Some (fst vw, snd vw, [(w "others", length states - 1)])
    end.
End Sense.

(** state[1:], base_sensor.py 19 *)
Definition values2 {V} (state : list V) : option (list V) := Some (tl state).
(** np.transpose(np.array(state)[:, 1:]), base_sensor.py 26: the columns after the first.  None: no rows, or rows of
    different lengths. *)
Definition values3 {V} (rows : list (list V)) : option (list (list V)) :=
  match rows with
  | [] => None
  | r :: _ =>
    if forallb (fun r' => length r' =? length r) rows
    then mapM (fun j => mapM (fun r' => nth_error r' j) rows) (seq 1 (length r - 1))
    else None
  end.
