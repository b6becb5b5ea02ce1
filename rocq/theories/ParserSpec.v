(** Conditions on decision logics under which the parser is right (see ParserProps.v), in terms of the program text and the
    parser's environment at each point. *)
From Coq Require Import Ascii String.
From Verif Require Import Base Dict PyText Parser PySem.
Set Implicit Arguments.
Open Scope nat_scope.

(** All names that occur as such; comprehension variables; free names. *)
Fixpoint names (e : pex) : list word :=
  match e with
  | EConst _ | EHole _ => []
  | EName x => [x]
  | EAttr e _ | ENot e | EUn _ e => names e
  | EBin _ l r => names l ++ names r
  | EBool _ es => concat_map names es
  | ECmp l rest => names l ++ concat_map (fun p => match p with (_, r) => names r end) rest
  | ECall f args => names f ++ concat_map names args
  | EGen _ b _ i ifs => names b ++ names i ++ concat_map names ifs
  | ERed _ b _ i => names b ++ names i
  | EIte t a b => names t ++ names a ++ names b
  end.
Fixpoint binders (e : pex) : list word :=
  match e with
  | EConst _ | EHole _ | EName _ => []
  | EAttr e _ | ENot e | EUn _ e => binders e
  | EBin _ l r => binders l ++ binders r
  | EBool _ es => concat_map binders es
  | ECmp l rest => binders l ++ concat_map (fun p => match p with (_, r) => binders r end) rest
  | ECall f args => binders f ++ concat_map binders args
  | EGen _ b x i ifs => x :: binders b ++ binders i ++ concat_map binders ifs
  | ERed _ b x i => x :: binders b ++ binders i
  | EIte t a b => binders t ++ binders a ++ binders b
  end.
Definition without (x : word) (l : list word) : list word := filter (fun y => negb (word_eqb x y)) l.
Fixpoint free (e : pex) : list word :=
  match e with
  | EConst _ => []
  | EName x | EHole x => [x]
  | EAttr e _ | ENot e | EUn _ e => free e
  | EBin _ l r => free l ++ free r
  | EBool _ es => concat_map free es
  | ECmp l rest => free l ++ concat_map (fun p => match p with (_, r) => free r end) rest
  | ECall f args => free f ++ concat_map free args
  | EGen _ b x i ifs => without x (free b) ++ free i ++ without x (concat_map free ifs)
  | ERed _ b x i => without x (free b) ++ free i
  | EIte t a b => free t ++ free a ++ free b
  end.

Definition all_of {A : Type} (P : A -> Prop) : list A -> Prop :=
  fix go l := match l with [] => True | a :: l' => P a /\ go l' end.

(** Inside a branch nothing returns. *)
Fixpoint no_return (s : stmt) : Prop :=
  match s with
  | SReturn _ => False
  | SIf _ b c => all_of no_return b /\ all_of no_return c
  | _ => True
  end.
(** The body ends with its only return. *)
Definition returns_last (body : list stmt) : Prop := exists b e, body = b ++ [SReturn e] /\ all_of no_return b.

(** When the two branches of an if leave the same value in a variable or attribute, it is the value from before. *)
Definition fields_in (k : word) (S : penv) : dict word cval := match get k S with Some (SO fs) => fs | _ => [] end.
Definition branches_differ (T F S : penv) : Prop :=
  (forall k s, get k T = Some s -> get k F = Some s -> get k S = Some s) /\
  (forall k a c, get a (fields_in k T) = Some c -> get a (fields_in k F) = Some c -> get a (fields_in k S) = Some c).

Section Tidy.
  Variable V : Type.
  Variable truth : V -> bool.
  Variable v_bool : bool -> V.
  Variable v_const : word -> V.
  Variable v_attr : V -> word -> option V.
  Variable v_un : word -> V -> option V.
  Variable v_bin : word -> V -> V -> option V.
  Variable v_cmp : word -> V -> V -> option V.
  Variable v_call : V -> list V -> option V.
  Variable v_items : V -> option (list V).
  Variable modes : list word.
  Variable fields_of : word -> option (list word).
  Notation value_in := (value_in truth v_bool v_const v_attr v_un v_bin v_cmp v_call v_items).

  Definition is_arg (E : penv) (x : word) : Prop := get x E = Some (SV (CE (EHole x))).

  (** An inlined call: as many arguments as parameters; no comprehension variable of the function is in use at the call; a
      parameter that the function uses as the owner of a call or in a filter is passed under the same name. *)
  Definition call_ok (E : penv) (ps : list word) (body : pex) (args : list pex) : Prop :=
    length args = length ps /\ NoDup ps /\
    (forall y, In y (binders body) -> get y E = None /\ ~ In y ps) /\
    (forall x, In x (names body) -> get x (combine ps args) = None \/ get x (combine ps args) = Some (EHole x)).

  (** One of the items iterated over. *)
  Definition item_of (r : word -> option V) (E : penv) (iter : pex) (u : V) : Prop :=
    exists i l items, proc_e modes E iter = Some i /\ value_in r i = Some l /\ v_items l = Some items /\ In u items.

  (** Source expressions only.  Conditional expressions and comprehension filters use arguments only; the element of a filtered comprehension can
      be evaluated for all items (filtered out or not); the iterated expression does not mention the comprehension variable. *)
  Fixpoint tidy_e (r : word -> option V) (E : penv) (e : pex) {struct e} : Prop :=
    match e with
    | EConst _ | EName _ | EAttr _ _ => True
    | EHole _ | ERed _ _ _ _ => False
    | ENot e | EUn _ e => tidy_e r E e
    | EBin _ a b => tidy_e r E a /\ tidy_e r E b
    | EBool _ es => all_of (tidy_e r E) es
    | ECmp l rest => tidy_e r E l /\ all_of (fun p => match p with (_, e) => tidy_e r E e end) rest
    | ECall f args =>
      all_of (tidy_e r E) args /\
      match f with
      | EName g => match get g E with
                   | Some (SL ps body) => forall args', omap (proc_e modes E) args = Some args' -> call_ok E ps body args'
                   | _ => True
                   end
      | _ => True
      end
    | EGen _ elt x iter ifs =>
      let E' := set x (SV (CE (EHole x))) E in
      (forall u, item_of r E' iter u -> tidy_e (upd r x u) E' elt) /\ tidy_e r E' iter /\ ~ In x (free iter) /\
      (ifs <> [] ->
         (forall u b, item_of r E' iter u -> proc_e modes E' elt = Some b -> exists v, value_in (upd r x u) b = Some v) /\
         (forall y, In y (concat_map free ifs) -> y = x \/ is_arg E y))
    | EIte _ _ _ => forall y, In y (free e) -> is_arg E y
    end.

  Definition tidy_block (f : penv * list passert -> stmt -> Prop) : penv * list passert -> list stmt -> Prop :=
    fix go st l := match l with
                   | [] => True
                   | s :: l' => f st s /\ forall st', proc_s modes fields_of st s = Some st' -> go st' l'
                   end.

  (** Names of mode classes are not assigned; the branches of an if differ; functions end with their only return. *)
  Fixpoint tidy_s (r : word -> option V) (st : penv * list passert) (s : stmt) {struct s} : Prop :=
    let E := fst st in
    match s with
    | SAssign x e => ~ In x modes /\ tidy_e r E e
    | SSetAttr o _ e => ~ In o modes /\ tidy_e r (if bound o E then E else set o (SO []) E) e
    | SCopy x _ => ~ In x modes
    | SIf t b c =>
      tidy_e r E t /\ tidy_block (tidy_s r) st b /\ tidy_block (tidy_s r) st c /\
      forall T F, proc_b modes fields_of st b = Some T -> proc_b modes fields_of st c = Some F -> branches_differ (fst T) (fst F) E
    | SAssert e _ => tidy_e r E e
    | SReturn _ => True
    | SDef f ps body =>
      ~ In f modes /\ NoDup ps /\ returns_last body /\
      forall vs, length vs = length ps ->
        tidy_block (tidy_s (bindv ps vs r)) (holes ps E, []) body /\
        forall st' e, proc_b modes fields_of (holes ps E, []) body = Some st' -> last_return body = Some e -> tidy_e (bindv ps vs r) (fst st') e
    end.
  Definition tidy_b (r : word -> option V) : penv * list passert -> list stmt -> Prop := tidy_block (tidy_s r).

  (** Before the controller the module only defines functions and constants. *)
  Definition defines (s : stmt) : Prop := match s with SDef _ _ _ | SAssign _ _ => True | _ => False end.
  (** The imported names and the mode classes: an attribute of a mode class is the mode of that name. *)
  Definition imports_ok (iv : word -> option V) (imports : list word) : Prop :=
    (forall x, iv x <> None -> In x imports) /\
    (forall x, In x modes -> In x imports /\ forall v a u, iv x = Some v -> v_attr v a = Some u -> u = v_const a).
  Definition tidy_program (iv : word -> option V) (imports : list word) (pre : list stmt) (ps : list word) (vs : list V) (body : list stmt) : Prop :=
    imports_ok iv imports /\ all_of defines pre /\ NoDup ps /\ tidy_b iv (holes imports [], []) pre /\
    forall g, proc_b modes fields_of (holes imports [], []) pre = Some g -> tidy_b (bindv ps vs iv) (holes ps (fst g), []) body.

  Notation holds_in := (holds_in truth v_bool v_const v_attr v_un v_bin v_cmp v_call v_items).
  Notation fails_in := (fails_in truth v_bool v_const v_attr v_un v_bin v_cmp v_call v_items).
  (** Attribute [a] of the output has value [v]: some path with a true condition says so, or it is that of argument [y]. *)
  Definition covered (r : word -> option V) (y : word) (paths : list ppath) (a : word) (v : V) : Prop :=
    (exists p, In p paths /\ pp_var p = a /\ holds_in r (pp_cond p) /\ value_in r (pp_val p) = Some v) \/
    (exists u, r y = Some u /\ v_attr u a = Some v).
  Definition broken (r : word -> option V) (x : xassert) : Prop := holds_in r (xa_pre x) /\ fails_in r (xa_cond x).
  (** Outside of ifs the attributes of the output are not assigned again. *)
  Definition only_in_ifs (out : word) (s : stmt) : Prop :=
    match s with SSetAttr o _ _ => o <> out | SCopy x _ => x <> out | _ => True end.
End Tidy.
