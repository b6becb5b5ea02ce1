(** A small concrete instance of the values of PySem.v, for the examples and counterexamples in ParserProps.v: integers (also
    used for truth values), names (modes), records and lists. *)
From Coq Require Import Ascii String ZArith.
From Verif Require Import Base Dict PyText Parser PySem ParserSpec.
Set Implicit Arguments.
Open Scope nat_scope.

Inductive tval := TN (n : Z) | TS (s : word) | TR (l : list (word * tval)) | TL (l : list tval).
Definition t_truth (v : tval) : bool := match v with TN n => negb (n =? 0)%Z | TS s => negb (word_eqb s []) | TR _ => true | TL l => negb (match l with [] => true | _ => false end) end.
Definition t_bool (b : bool) : tval := TN (if b then 1 else 0).
Definition t_const (c : word) : tval :=
  if word_eqb c (w "True") then TN 1 else if word_eqb c (w "False") then TN 0 else
  if word_eqb c (w "0") then TN 0 else if word_eqb c (w "1") then TN 1 else if word_eqb c (w "2") then TN 2 else if word_eqb c (w "3") then TN 3 else TS c.
Definition t_attr (v : tval) (a : word) : option tval := match v with TR l => dget word_eqb a l | _ => None end.
Definition t_un (o : word) (v : tval) : option tval := match v with TN n => if word_eqb o (w "-") then Some (TN (- n)) else None | _ => None end.
Definition t_bin (o : word) (a b : tval) : option tval :=
  match a, b with TN x, TN y => if word_eqb o (w "+") then Some (TN (x + y)) else if word_eqb o (w "-") then Some (TN (x - y)) else None | _, _ => None end.
Definition t_cmp (o : word) (a b : tval) : option tval :=
  match a, b with
  | TN x, TN y => if word_eqb o (w "<") then Some (t_bool (x <? y)%Z) else if word_eqb o (w "==") then Some (t_bool (x =? y)%Z) else None
  | TS x, TS y => if word_eqb o (w "==") then Some (t_bool (word_eqb x y)) else None
  | _, _ => None
  end.
Definition t_call (f : tval) (args : list tval) : option tval := None.
Definition t_items (v : tval) : option (list tval) := match v with TL l => Some l | _ => None end.
Definition t_fields (y : word) : option (list word) := if word_eqb y (w "ego") then Some [w "x"; w "mode"] else None.
Definition t_modes : list word := [w "Mode"].

Lemma t_truth_bool b : t_truth (t_bool b) = b. Proof. destruct b; reflexivity. Qed.

Notation t_value := (value_in t_truth t_bool t_const t_attr t_un t_bin t_cmp t_call t_items).
Notation t_holds := (holds_in t_truth t_bool t_const t_attr t_un t_bin t_cmp t_call t_items).
Notation t_fails := (fails_in t_truth t_bool t_const t_attr t_un t_bin t_cmp t_call t_items).
Notation t_run := (run t_truth t_bool t_const t_attr t_un t_bin t_cmp t_call t_items t_fields).
Notation t_parse := (parse t_modes t_fields).
Notation t_tidy_e := (tidy_e t_truth t_bool t_const t_attr t_un t_bin t_cmp t_call t_items t_modes).
Notation t_tidy_s := (tidy_s t_truth t_bool t_const t_attr t_un t_bin t_cmp t_call t_items t_modes t_fields).
Notation t_tidy := (tidy_program t_truth t_bool t_const t_attr t_un t_bin t_cmp t_call t_items t_modes t_fields).
Notation t_covered := (covered t_truth t_bool t_const t_attr t_un t_bin t_cmp t_call t_items).
Notation t_broken := (broken t_truth t_bool t_const t_attr t_un t_bin t_cmp t_call t_items).

(** [Mode] has the members A and B. *)
Definition t_imports (x : word) : option tval := if word_eqb x (w "Mode") then Some (TR [(w "A", TS (w "A")); (w "B", TS (w "B"))]) else None.
Definition car (x : Z) (m : string) : tval := TR [(w "x", TN x); (w "mode", TS (w m))].

(** Expressions. *)
Definition att (x a : string) : pex := EAttr (EName (w x)) (w a).
Definition num (c : string) : pex := EConst (w c).
Definition lt (a b : pex) : pex := ECmp a [(w "<", b)].
Definition eq_ (a b : pex) : pex := ECmp a [(w "==", b)].

(** Checking that branches differ. *)
Definition differ_b (T F S : penv) : bool :=
  forallb (fun k => match get k T, get k F with
                    | Some s, Some s' => negb (sval_eqb s s') || opt_eqb sval_eqb (get k S) (Some s)
                    | _, _ => true end) (map fst T)
  && forallb (fun k => forallb (fun a => match get a (fields_in k T), get a (fields_in k F) with
                    | Some s, Some s' => negb (cval_eqb s s') || opt_eqb cval_eqb (get a (fields_in k S)) (Some s)
                    | _, _ => true end) (map fst (fields_in k T))) (map fst T).
