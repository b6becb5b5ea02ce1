(** The decision-logic parser: verse/parser/parser.py [proc], [proc_assign], [merge_if], [merge_if_single], [merge_if_val],
    [merge_assert], [Lambda.from_ast], [Lambda.apply] and [ControllerIR.from_env].

    Modelled statements: assignments to variables and to attributes of local objects, [x = copy.deepcopy(arg)] for an
    argument with a State annotation, if/else, assert, return and function definitions.  Not modelled (an error in the
    model): lambda expressions, [sum], lists and tuples, class definitions (their names are given), objects inside objects,
    and a conditional value used inside an expression or copied to another variable (in the code this fails later, in
    [trans_args], if it reaches a path or an assertion).  The code overwrites an outer variable when a comprehension, a
    parameter or a local of a function has the same name; that is an error in the model. *)
From Coq Require Import Ascii String.
From Verif Require Import Base Dict PyText.
Set Implicit Arguments.
Open Scope nat_scope.

(** Expressions, of the source and of the result.  [EHole] is an [ast.arg], the placeholder for an argument or an imported
    name; [ERed] is a [Reduction]; constants and operators are given by their text.  [true] in [EBool] is [and], in
    [EGen] and [ERed] it is [any]. *)
Inductive pex : Type :=
| EConst (c : word)
| EName (x : word)
| EHole (x : word)
| EAttr (e : pex) (a : word)
| ENot (e : pex)
| EUn (o : word) (e : pex)
| EBin (o : word) (l r : pex)
| EBool (conj : bool) (es : list pex)
| ECmp (l : pex) (rest : list (word * pex))
| ECall (f : pex) (args : list pex)
| EGen (ex : bool) (elt : pex) (x : word) (iter : pex) (ifs : list pex)
| ERed (ex : bool) (body : pex) (x : word) (iter : pex)
| EIte (t a b : pex).

Inductive stmt : Type :=
| SAssign (x : word) (e : pex)                       (** x = e *)
| SSetAttr (o a : word) (e : pex)                    (** o.a = e *)
| SCopy (x y : word)                                 (** x = copy.deepcopy(y) *)
| SIf (t : pex) (body orelse : list stmt)
| SAssert (e : pex) (label : option word)
| SReturn (e : pex)
| SDef (f : word) (params : list word) (body : list stmt).

(** Values of variables in the parser's environment: an expression or a [CondVal]; an object; a [Lambda]. *)
Inductive cval := CE (e : pex) | CC (cases : list (list pex * pex)).
Inductive sval := SV (c : cval) | SO (fields : dict word cval) | SL (params : list word) (body : pex).
Notation penv := (dict word sval).

(** [_Assert] *)
Record passert := mk_passert { pa_pre : list pex; pa_cond : pex; pa_label : option word }.

Definition get {V} (k : word) (d : dict word V) : option V := dget word_eqb k d.
Definition set {V} (k : word) (v : V) (d : dict word V) : dict word V := dset word_eqb k v d.
Definition bound {V} (k : word) (d : dict word V) : bool := match get k d with Some _ => true | None => false end.
Definition mem (x : word) (l : list word) : bool := existsb (word_eqb x) l.

(** [mapM] in a form usable in nested recursion. *)
Definition omap {A B : Type} (f : A -> option B) : list A -> option (list B) :=
  fix go l := match l with [] => Some [] | a :: l' => do b <- f a; do bs <- go l'; Some (b :: bs) end.

(** Equality of expressions (the code compares their texts). *)
Definition all2 {A B : Type} (f : A -> B -> bool) : list A -> list B -> bool :=
  fix go l m := match l, m with [], [] => true | a :: l', b :: m' => f a b && go l' m' | _, _ => false end.
Fixpoint pex_eqb (e e' : pex) {struct e} : bool :=
  match e, e' with
  | EConst c, EConst c' => word_eqb c c'
  | EName x, EName x' => word_eqb x x'
  | EHole x, EHole x' => word_eqb x x'
  | EAttr e a, EAttr e' a' => pex_eqb e e' && word_eqb a a'
  | ENot e, ENot e' => pex_eqb e e'
  | EUn o e, EUn o' e' => word_eqb o o' && pex_eqb e e'
  | EBin o l r, EBin o' l' r' => word_eqb o o' && pex_eqb l l' && pex_eqb r r'
  | EBool b es, EBool b' es' => Bool.eqb b b' && all2 pex_eqb es es'
  | ECmp l rest, ECmp l' rest' => pex_eqb l l' && all2 (fun p p' => match p with (o, r) => word_eqb o (fst p') && pex_eqb r (snd p') end) rest rest'
  | ECall f args, ECall f' args' => pex_eqb f f' && all2 pex_eqb args args'
  | EGen q b x i ifs, EGen q' b' x' i' ifs' => Bool.eqb q q' && pex_eqb b b' && word_eqb x x' && pex_eqb i i' && all2 pex_eqb ifs ifs'
  | ERed q b x i, ERed q' b' x' i' => Bool.eqb q q' && pex_eqb b b' && word_eqb x x' && pex_eqb i i'
  | EIte t a b, EIte t' a' b' => pex_eqb t t' && pex_eqb a a' && pex_eqb b b'
  | _, _ => false
  end.
(** verse/parser/parser.py:98-103, [CondValCase.__eq__]. *)
Definition case_eqb (c d : list pex * pex) : bool := all2 pex_eqb (fst c) (fst d) && pex_eqb (snd c) (snd d).
(** verse/parser/parser.py:362-367, [ir_eq] on values. *)
Definition cval_eqb (c d : cval) : bool :=
  match c, d with CE e, CE e' => pex_eqb e e' | CC l, CC l' => all2 case_eqb l l' | _, _ => false end.
Definition sval_eqb (c d : sval) : bool :=
  match c, d with
  | SV c, SV d => cval_eqb c d
  | SO f, SO g => all2 (fun p q => word_eqb (fst p) (fst q) && cval_eqb (snd p) (snd q)) f g
  | SL ps e, SL qs e' => all2 word_eqb ps qs && pex_eqb e e'
  | _, _ => false
  end.

(** [list.remove]: drop the first equal element. *)
Fixpoint remove1 {A : Type} (eqb : A -> A -> bool) (x : A) (l : list A) : list A :=
  match l with [] => [] | y :: l' => if eqb x y then l' else y :: remove1 eqb x l' end.
Definition subtract {A : Type} (eqb : A -> A -> bool) (l orig : list A) : list A := fold_left (fun l o => remove1 eqb o l) orig l.

(** verse/parser/parser.py:287-296, [ArgSubstituter]: only placeholders are replaced. *)
Fixpoint subst (s : dict word pex) (e : pex) : pex :=
  match e with
  | EConst _ | EName _ => e
  | EHole x => match get x s with Some e' => e' | None => e end
  | EAttr e a => EAttr (subst s e) a
  | ENot e => ENot (subst s e)
  | EUn o e => EUn o (subst s e)
  | EBin o l r => EBin o (subst s l) (subst s r)
  | EBool b es => EBool b (map (subst s) es)
  | ECmp l rest => ECmp (subst s l) (map (fun p => match p with (o, r) => (o, subst s r) end) rest)
  | ECall f args => ECall (subst s f) (map (subst s) args)
  | EGen q b x i ifs => EGen q (subst s b) x (subst s i) (map (subst s) ifs)
  | ERed q b x i => ERed q (subst s b) x (subst s i)
  | EIte t a b => EIte (subst s t) (subst s a) (subst s b)
  end.

(** verse/parser/parser.py:863-873, a comparison chain: [l o1 r1 o2 r2 ...] becomes the list [l o1 r1; r1 o2 r2; ...]. *)
Fixpoint comparisons (l : pex) (rest : list (word * pex)) : list pex :=
  match rest with [] => [] | (o, r) :: rest' => ECmp l [(o, r)] :: comparisons r rest' end.

Section Parser.
  Variable modes : list word.                              (** names of the mode classes *)
  Variable fields_of : word -> option (list word).         (** the variables of the State class an argument is annotated with *)

  (** verse/parser/parser.py:749-952, [proc] on expressions. *)
  Fixpoint proc_e (E : penv) (e : pex) {struct e} : option pex :=
    match e with
    | EConst _ | EHole _ | EIte _ _ _ => Some e
    | EName x => match get x E with Some (SV (CE e')) => Some e' | _ => None end
    | EAttr (EName x) a =>
      if mem x modes then Some (EConst a) else
      match get x E with
      | Some (SO fs) => match get a fs with Some (CE e') => Some e' | _ => None end
      | Some (SV (CE (EHole y))) => if mem y modes then Some (EConst a) else Some (EAttr (EHole y) a)
      | _ => None
      end
    | EAttr _ _ | ERed _ _ _ _ => None
    | ENot e => do e' <- proc_e E e; Some (ENot e')
    | EUn o e => do e' <- proc_e E e; Some (EUn o e')
    | EBin o l r => do l' <- proc_e E l; do r' <- proc_e E r; Some (EBin o l' r')
    | EBool b es => do es' <- omap (proc_e E) es; Some (EBool b es')
    | ECmp l rest =>
      do rest' <- omap (fun p => match p with (o, r) => do r' <- proc_e E r; Some (o, r') end) rest;
      do l' <- proc_e E l;
      match comparisons l' rest' with
      | [] => None
      | [c] => Some c
      | cs => Some (EBool true cs)
      end
    | ECall f args =>
      match f with
      | EName g =>
        match get g E with
        | Some (SL ps body) => do args' <- omap (proc_e E) args; Some (subst (combine ps args') body)
        | Some (SV (CE (EHole _))) => do args' <- omap (proc_e E) args; Some (ECall f args')
        | _ => None
        end
      | EAttr (EName x) a =>
        match get x E with
        | Some (SV (CE (EHole y))) =>
          if mem x modes || mem y modes then None else do args' <- omap (proc_e E) args; Some (ECall f args')
        | _ => None
        end
      | _ => None
      end
    | EGen ex elt x iter ifs =>
      if bound x E then None else
      let E' := set x (SV (CE (EHole x))) E in
      do b <- proc_e E' elt;
      do i <- proc_e E' iter;
      Some (ERed ex (match ifs with
                     | [] => b
                     | _ => if ex then EBool true [b; EBool true ifs] else EBool false [b; ENot (EBool true ifs)]
                     end) x i)
    end.

  (** verse/parser/parser.py:648-691, [merge_if_val]. *)
  Definition as_cv (c : cval) : list (list pex * pex) := match c with CE e => [([], e)] | CC l => l end.
  Definition add_cond (t : pex) (l : list (list pex * pex)) : list (list pex * pex) := map (fun c => (fst c ++ [t], snd c)) l.
  Definition merge_val (t : pex) (tv fv orig : option cval) : option cval :=
    let cases o := match o with Some c => as_cv c | None => [] end in
    let tl := subtract case_eqb (cases tv) (cases orig) in
    let fl := subtract case_eqb (cases fv) (cases orig) in
    match tl, fl with
    | [], [] => None
    | _, _ => Some (CC (add_cond t tl ++ add_cond (ENot t) fl ++ cases orig))
    end.

  (** verse/parser/parser.py:619: the keys of two dictionaries. *)
  Definition word_dec : forall a b : word, {a = b} + {a <> b} := list_eq_dec Ascii.ascii_dec.
  Definition keys_of {V} (T F : dict word V) : list word := nodup word_dec (map fst T ++ map fst F).

  (** verse/parser/parser.py:604-645, [merge_if_single]: for each variable the merge of its values gives an error, nothing to
      do, or a new value. *)
  Definition merge_dict {V} (f : option V -> option V -> option V -> option (option V)) (T F S : dict word V) : option (dict word V) :=
    fold_left (fun acc k =>
      do s <- acc;
      do r <- f (get k T) (get k F) (get k s);
      Some (match r with Some v => set k v s | None => s end)) (keys_of T F) (Some S).

  (** ... of the attributes of an object; *)
  Definition merge_field (t : pex) (tv fv sv : option cval) : option (option cval) :=
    if opt_eqb cval_eqb tv fv then Some None else do c <- merge_val t tv fv sv; Some (Some c).
  (** ... of the variables. *)
  Definition merge_var (t : pex) (tv fv sv : option sval) : option (option sval) :=
    if opt_eqb sval_eqb tv fv then Some None else
    match tv, fv with
    | Some (SO ft), Some (SO ff) =>
      match sv with
      | Some (SO fs) => do fs' <- merge_dict (merge_field t) ft ff fs; Some (Some (SO fs'))
      | None => do fs' <- merge_dict (merge_field t) ft ff []; Some (Some (SO fs'))
      | _ => None
      end
    | Some (SO ft), None =>
      match sv with
      | None => do fs' <- merge_dict (merge_field t) ft [] []; Some (Some (SO fs'))
      | _ => None
      end
    | (Some (SV _) | None), (Some (SV _) | None) =>
      let un o := match o with Some (SV c) => Some c | _ => None end in
      match sv with
      | Some (SV _) | None => do c <- merge_val t (un tv) (un fv) (un sv); Some (Some (SV c))
      | _ => None
      end
    | _, _ => None
    end.
  Definition merge_env (t : pex) : penv -> penv -> penv -> option penv := merge_dict (merge_var t).

  (** verse/parser/parser.py:589-601, [merge_assert]; [_Assert.__eq__] (172-179) does not compare the labels. *)
  Definition assert_eqb (a b : passert) : bool := all2 pex_eqb (pa_pre a) (pa_pre b) && pex_eqb (pa_cond a) (pa_cond b).
  Definition add_pre (t : pex) (l : list passert) : list passert := map (fun a => mk_passert (pa_pre a ++ [t]) (pa_cond a) (pa_label a)) l.
  Definition merge_assert (t : pex) (T F orig : list passert) : list passert :=
    add_pre t (subtract assert_eqb T orig) ++ add_pre (ENot t) (subtract assert_eqb F orig) ++ orig.

  Definition holes (ps : list word) (E : penv) : penv := fold_left (fun E p => set p (SV (CE (EHole p))) E) ps E.

  (** Names a block assigns or defines. *)
  Definition concat_map {A B : Type} (f : A -> list B) : list A -> list B :=
    fix go l := match l with [] => [] | a :: l' => f a ++ go l' end.
  Fixpoint assigned (s : stmt) : list word :=
    match s with
    | SAssign x _ | SCopy x _ | SSetAttr x _ _ => [x]
    | SIf _ b c => concat_map assigned b ++ concat_map assigned c
    | SDef f _ _ => [f]
    | SAssert _ _ | SReturn _ => []
    end.

  Definition is_hole (e : pex) : bool := match e with EHole _ => true | _ => false end.

  Fixpoint last_return (body : list stmt) : option pex :=
    match body with [] => None | [SReturn e] => Some e | _ :: body' => last_return body' end.

  Definition block {A : Type} (f : A -> stmt -> option A) : A -> list stmt -> option A :=
    fix go st l := match l with [] => Some st | s :: l' => do st' <- f st s; go st' l' end.

  (** verse/parser/parser.py:749-952 [proc] on statements, 694-723 [proc_assign] and 215-254 [Lambda.from_ast].  Assigning a
      bare argument to a variable and functions with assertions are not modelled. *)
  Fixpoint proc_s (st : penv * list passert) (s : stmt) {struct s} : option (penv * list passert) :=
    let E := fst st in let A := snd st in
    match s with
    | SAssign x e => do e' <- proc_e E e; if is_hole e' then None else Some (set x (SV (CE e')) E, A)
    | SSetAttr o a e =>
      let E' := if bound o E then E else set o (SO []) E in
      match get o E' with
      | Some (SO fs) => do e' <- proc_e E' e; Some (set o (SO (set a (CE e') fs)) E', A)
      | _ => None
      end
    | SCopy x y =>
      match get y E with
      | Some (SV (CE (EHole y'))) =>
        do vars <- fields_of y';
        let E' := if bound x E then E else set x (SO []) E in
        match get x E' with
        | Some (SO fs) => Some (set x (SO (fold_left (fun fs a => set a (CE (EAttr (EHole y') a)) fs) vars fs)) E', A)
        | _ => None
        end
      | _ => None
      end
    | SIf t b c =>
      do t' <- proc_e E t;
      do T <- block proc_s st b;
      do F <- block proc_s st c;
      do E' <- merge_env t' (fst T) (fst F) E;
      Some (E', merge_assert t' (snd T) (snd F) A)
    | SAssert e l => do e' <- proc_e E e; Some (E, A ++ [mk_passert [] e' l])
    | SReturn _ => Some st
    | SDef f ps body =>
      if existsb (fun x => bound x E) (ps ++ concat_map assigned body) then None else
      do r <- block proc_s (holes ps E, []) body;
      match snd r, last_return body with
      | [], Some e => do e' <- proc_e (fst r) e; Some (set f (SL ps e') E, A)
      | _, _ => None
      end
    end.
  Definition proc_b : penv * list passert -> list stmt -> option (penv * list passert) := block proc_s.

  (** verse/parser/parser.py:17-23. *)
  Definition merge_conds (cs : list pex) : pex :=
    match cs with [] => EConst (w "True") | [c] => c | _ => EBool true cs end.

  (** [ModePath] and [Assert] (the verification forms). *)
  Record ppath := mk_ppath { pp_cond : pex; pp_var : word; pp_val : pex }.
  Record xassert := mk_xassert { xa_pre : pex; xa_cond : pex; xa_label : option word }.

  (** verse/parser/parser.py:402-413, the paths of the returned object. *)
  Definition paths_of (fs : dict word cval) : list ppath :=
    flat_map (fun f => match snd f with
                       | CE _ => []
                       | CC cases => flat_map (fun c => match fst c with [] => [] | _ => [mk_ppath (merge_conds (fst c)) (fst f) (snd c)] end) cases
                       end) fs.

  (** verse/parser/parser.py:370-418, [ControllerIR.from_env]: the module [pre] (definitions before the controller),
      then the controller with parameters [ps] and body [body].  An unnamed assertion keeps the label [None]; the code
      gives it the text "<assert i>". *)
  Definition parse (imports : list word) (pre : list stmt) (ps : list word) (body : list stmt) : option (list ppath * list xassert) :=
    do g <- proc_b (holes imports [], []) pre;
    if existsb (fun x => bound x (fst g)) ps then None else
    do r <- proc_b (holes ps (fst g), []) body;
    match last_return body with
    | Some (EName out) =>
      match get out (fst r) with
      | Some (SO fs) => Some (paths_of fs, map (fun a => mk_xassert (merge_conds (pa_pre a)) (pa_cond a) (pa_label a)) (snd r))
      | _ => None
      end
    | _ => None
    end.
End Parser.
