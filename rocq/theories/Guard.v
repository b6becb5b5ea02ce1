(** Guards of a transition: verse/automaton/guard.py [GuardExpressionAst] (unrolling of any/all, discrete part, lane
    coordinates, continuous part), as called by verse/analysis/verifier.py:1029-1041 and 1155-1168.

    A guard is the one expression [path.cond_veri] ([ast_list] has one element).  Modelled operators: [+ - *] and
    unary minus, comparisons of two operands (the parser splits chains), and/or/not, any/all over a list of agents,
    calls of functions with discrete arguments, and the two lane coordinates.  Mode members are string constants (the
    parser has replaced [Type.Member]).  An exception is [None].  Star sets are not modelled. *)
From Coq Require Import Ascii String DecimalString.
From Verif Require Import Base Dict PyText.
Set Implicit Arguments.
Open Scope nat_scope.

Inductive cmpop := OLt | OLe | OGt | OGe | OEq | ONe.

(** [o.a], or a plain name. *)
Inductive ref := RAttr (o a : word) | RName (n : word).
Definition text (r : ref) : word := match r with RAttr o a => o ++ w "." ++ a | RName n => n end.

(** An argument of a call. *)
Inductive garg := AVar (r : ref) | AStr (s : word) | ANum (q : Q).

(** Expressions.  [true] in [GBoolOp] is [and]; [true] in [GRed] is [any]; [true] in [GLane] is
    [get_lateral_distance(lane, [px, py])], [false] [get_longitudinal_position]. *)
Inductive gex : Type :=
| GBool (b : bool)
| GNum (q : Q)
| GStr (s : word)
| GVar (r : ref)
| GNeg (e : gex)
| GNot (e : gex)
| GBin (o : binop) (l r : gex)
| GCmp (o : cmpop) (l r : gex)
| GBoolOp (conj : bool) (es : list gex)
| GCall (f : word) (args : list garg)
| GLane (lat : bool) (lane px py : ref)
| GRed (ex : bool) (body : gex) (x iter : word).

(** [str(n)] *)
Definition dec (n : nat) : word := w (NilEmpty.string_of_uint (Nat.to_uint n)).

(** ** Unrolling any and all *)

(** verse/automaton/guard.py:1242-1339, [_parse_elt_new]: attributes of the iteration variable become names of the item.
    (The code visits the nodes of the tree while it replaces them; each attribute node is compared by identity.) *)
Definition item_ref (x iter : word) (i : nat) (r : ref) : ref :=
  match r with
  | RAttr o a => if word_eqb o x then RName (iter ++ w "_" ++ dec i ++ w "." ++ a) else r
  | RName _ => r
  end.
Fixpoint item_of (x iter : word) (i : nat) (e : gex) : gex :=
  match e with
  | GBool _ | GNum _ | GStr _ => e
  | GVar r => GVar (item_ref x iter i r)
  | GNeg a => GNeg (item_of x iter i a)
  | GNot a => GNot (item_of x iter i a)
  | GBin o l r => GBin o (item_of x iter i l) (item_of x iter i r)
  | GCmp o l r => GCmp o (item_of x iter i l) (item_of x iter i r)
  | GBoolOp b es => GBoolOp b (map (item_of x iter i) es)
  | GCall f args => GCall f (map (fun a => match a with AVar r => AVar (item_ref x iter i r) | _ => a end) args)
  | GLane b l p q => GLane b (item_ref x iter i l) (item_ref x iter i p) (item_ref x iter i q)
  | GRed b e y it => GRed b (item_of x iter i e) y it
  end.

(** verse/automaton/guard.py:1190-1240 [unroll_any_all_new] and 54-78 [ValueSubstituter.visit_Reduction]. *)
Definition unroll_red (len : word -> option nat) (ex : bool) (body : gex) (x iter : word) : option gex :=
  do n <- len iter;
  match map (fun i => item_of x iter i body) (seq 0 n) with
  | [e] => Some e
  | es => Some (GBoolOp (negb ex) es)
  end.

Definition omapg {A B : Type} (f : A -> option B) : list A -> option (list B) :=
  fix go l := match l with [] => Some [] | a :: l' => do b <- f a; do bs <- go l'; Some (b :: bs) end.

Fixpoint no_red (e : gex) : bool :=
  match e with
  | GNeg a | GNot a => no_red a
  | GBin _ l r | GCmp _ l r => no_red l && no_red r
  | GBoolOp _ es => forallb no_red es
  | GRed _ _ _ _ => false
  | _ => true
  end.

(** verse/automaton/guard.py:1170-1188, [parse_any_all_new].  A reduction inside the body of a reduction is an error in the
    model. *)
Fixpoint unroll (len : word -> option nat) (e : gex) : option gex :=
  match e with
  | GNeg a => do a' <- unroll len a; Some (GNeg a')
  | GNot a => do a' <- unroll len a; Some (GNot a')
  | GBin o l r => do l' <- unroll len l; do r' <- unroll len r; Some (GBin o l' r')
  | GCmp o l r => do l' <- unroll len l; do r' <- unroll len r; Some (GCmp o l' r')
  | GBoolOp b es => do es' <- omapg (unroll len) es; Some (GBoolOp b es')
  | GRed ex body x iter => if no_red body then unroll_red len ex body x iter else None
  | _ => Some e
  end.

(** ** The discrete part *)

(** What evaluating a node gives: a Python value, where [True] also stands for "not known yet". *)
Inductive dval := DB (b : bool) | DN (q : Q) | DS (s : word).
Definition truthy (v : dval) : bool :=
  match v with DB b => b | DN q => negb (Qeq_bool q 0) | DS s => match s with [] => false | _ => true end end.
Definition is_bool (v : dval) : bool := match v with DB _ => true | _ => false end.

Definition qcmp (o : cmpop) (a b : Q) : bool :=
  match o with
  | OLt => negb (Qle_bool b a) | OLe => Qle_bool a b
  | OGt => negb (Qle_bool a b) | OGe => Qle_bool b a
  | OEq => Qeq_bool a b | ONe => negb (Qeq_bool a b)
  end.
(** Comparison of two strings; only equality is modelled. *)
Definition scmp (o : cmpop) (a b : word) : option bool :=
  match o with OEq => Some (word_eqb a b) | ONe => Some (negb (word_eqb a b)) | _ => None end.
(** Python's comparison of two constants; a number compared with a string is an error in the model. *)
Definition dcmp (o : cmpop) (a b : dval) : option bool :=
  match a, b with
  | DN p, DN q => Some (qcmp o p q)
  | DS s, DS t => scmp o s t
  | _, _ => None
  end.

Definition dlook (dd : dict word word) (r : ref) : option word := dget word_eqb (text r) dd.

Section Guard.
  (** A function of the map or of the decision logic, on discrete arguments. *)
  Variable call : word -> list dval -> option dval.
  (** The values of the discrete variables. *)
  Variable dd : dict word word.
  (** The numbers that bound the continuous variables. *)
  Variable num : Type.

  Definition arg_val (a : garg) : option dval :=
    match a with AVar r => option_map DS (dlook dd r) | AStr s => Some (DS s) | ANum q => Some (DN q) end.
  Definition is_var (a : garg) : bool := match a with AVar _ => true | _ => false end.

  (** [ast.parse(str(res))]: a string becomes a name. *)
  Definition quote (v : dval) : gex :=
    match v with
    | DB b => GBool b
    | DN q => if Qle_bool 0 q then GNum q else GNeg (GNum (- q))
    | DS s => GVar (RName s)
    end.

  (** verse/automaton/guard.py:732-905, [_evaluate_guard_disc]; 765-772, the loop for [and], from [res]; 775-781, for [or]. *)
  Definition disc_and (disc : gex -> option (dval * gex)) : dval -> list gex -> option (dval * option (list gex)) :=
    fix go res es :=
      match es with
      | [] => Some (res, Some [])
      | e :: es' =>
        do p <- disc e;
        let res' := if truthy res then fst p else res in
        if truthy res' then
          do q <- go res' es'; Some (fst q, option_map (cons (snd p)) (snd q))
        else Some (res', None)
      end.
  Definition disc_or (disc : gex -> option (dval * gex)) : dval -> list gex -> option (dval * list gex) :=
    fix go res es :=
      match es with
      | [] => Some (res, [])
      | e :: es' =>
        do p <- disc e;
        do q <- go (if truthy res then res else fst p) es';
        Some (fst q, snd p :: snd q)
      end.

  Fixpoint disc (e : gex) : option (dval * gex) :=
    match e with
    | GBool b => Some (DB b, e)
    | GNum q => Some (DN q, e)
    | GStr s => Some (DS s, e)
    | GVar r => Some (match dlook dd r with Some v => DS v | None => DB true end, e)
    | GNeg a => do p <- disc a; Some (DB true, GNeg (snd p))
    | GNot a => do p <- disc a; Some (DB true, if truthy (fst p) then GNot (snd p) else GBool true)
    | GBin o l r => do p <- disc l; do q <- disc r; Some (DB true, GBin o (snd p) (snd q))
    | GCmp o l r =>
      do p <- disc l; do q <- disc r;
      if is_bool (fst p) || is_bool (fst q) then Some (DB true, GCmp o (snd p) (snd q))
      else do b <- dcmp o (fst p) (fst q); Some (DB b, GBool b)
    | GBoolOp true es =>
      do p <- disc_and disc (DB true) es;
      Some (fst p, match snd p with Some es' => GBoolOp true es' | None => GBool false end)
    | GBoolOp false es => do p <- disc_or disc (DB false) es; Some (fst p, GBoolOp false (snd p))
    (* lines 791-846; a call without a discrete variable, or with a continuous one, is left for the next stage, which
       raises ValueError: the error is here in the model *)
    | GCall f args =>
      if existsb is_var args then do vs <- omapg arg_val args; do v <- call f vs; Some (v, quote v) else None
    | GLane _ _ _ _ => Some (DB true, e)
    | GRed _ _ _ _ => None
    end.

  (** ** Lane coordinates *)

  (** [get_phys_lane] of a lane name. *)
  Variable phys : word -> word.

  Definition lane_key (r : ref) : word := match dlook dd r with Some v => v | None => phys (text r) end.

  Section Hybrid.
  (** What is known of a continuous variable: bounds, or a star set (StarLane.v). *)
  Variable V : Type.
  Notation cdict := (dict word V).
  (** What is computed for a coordinate (verse/automaton/guard.py:449-475, 525-552). *)
  Variable coord_set : bool -> word -> V -> V -> option V.
  Definition tmp_name (cd : cdict) : word := w "tmp_variable" ++ dec (length cd + 1).

  (** verse/automaton/guard.py:384-596, [_evaluate_guard_hybrid].  The result is the value, the node after its in-place
      changes, the node returned, and the dictionary.  In [or] the returned nodes are not stored (line 409). *)
  Definition hyb_res : Type := dval * gex * gex * cdict.
  Definition hr_val (r : hyb_res) : dval := fst (fst (fst r)).
  Definition hr_old (r : hyb_res) : gex := snd (fst (fst r)).
  Definition hr_new (r : hyb_res) : gex := snd (fst r).
  Definition hr_cd (r : hyb_res) : cdict := snd r.

  Definition hyb_and (hyb : cdict -> gex -> option hyb_res) : cdict -> dval -> list gex -> option (dval * list gex * cdict) :=
    fix go cd res es :=
      match es with
      | [] => Some (res, [], cd)
      | e :: es' =>
        do p <- hyb cd e;
        let res' := if truthy res then hr_val p else res in
        if truthy res' then
          do q <- go (hr_cd p) res' es'; Some (fst (fst q), hr_new p :: snd (fst q), snd q)
        else Some (res', hr_new p :: es', hr_cd p)
      end.
  Definition hyb_or (hyb : cdict -> gex -> option hyb_res) : cdict -> dval -> list gex -> option (dval * list gex * cdict) :=
    fix go cd res es :=
      match es with
      | [] => Some (res, [], cd)
      | e :: es' =>
        do p <- hyb cd e;
        do q <- go (hr_cd p) (if truthy res then res else hr_val p) es';
        Some (fst (fst q), hr_old p :: snd (fst q), snd q)
      end.

  Fixpoint hyb (cd : cdict) (e : gex) : option hyb_res :=
    match e with
    | GBool b => Some (DB b, e, e, cd)
    | GNum q => Some (DN q, e, e, cd)
    | GStr s => Some (DS s, e, e, cd)
    | GVar r => Some (DB true, e, e, cd)
    | GNeg a => do p <- hyb cd a; let e' := GNeg (hr_new p) in Some (DB true, e', e', hr_cd p)
    | GNot a =>
      do p <- hyb cd a;
      if truthy (hr_val p) then let e' := GNot (hr_new p) in Some (DB true, e', e', hr_cd p)
      else Some (DB true, GNot (GBool false), GBool true, hr_cd p)
    | GBin o l r => do p <- hyb cd l; do q <- hyb (hr_cd p) r; let e' := GBin o (hr_new p) (hr_new q) in Some (DB true, e', e', hr_cd q)
    | GCmp o l r => do p <- hyb cd l; do q <- hyb (hr_cd p) r; let e' := GCmp o (hr_new p) (hr_new q) in Some (DB true, e', e', hr_cd q)
    | GBoolOp true es => do q <- hyb_and hyb cd (DB true) es; let e' := GBoolOp true (snd (fst q)) in Some (fst (fst q), e', e', snd q)
    | GBoolOp false es => do q <- hyb_or hyb cd (DB false) es; let e' := GBoolOp false (snd (fst q)) in Some (fst (fst q), e', e', snd q)
    | GLane lat l px py =>
      do bx <- dget word_eqb (text px) cd;
      do by_ <- dget word_eqb (text py) cd;
      do iv <- coord_set lat (lane_key l) bx by_;
      Some (DB true, e, GVar (RName (tmp_name cd)), dset word_eqb (tmp_name cd) iv cd)
    | GCall _ _ | GRed _ _ _ _ => None
    end.
  End Hybrid.

  (** Bounds of the continuous variables. *)
  Notation cdict := (dict word (num * num)).
  (** The interval computed for a coordinate (verse/automaton/guard.py:449-475, 525-552). *)
  Variable coord_set : bool -> word -> num * num -> num * num -> option (num * num).

  (** ** The continuous part *)

  (** Solver formulas.  [And()] and [Or()] without arguments are true and false in z3. *)
  Inductive form := FAtom (e : gex) | FTrue (b : bool) | FAnd (fs : list form) | FOr (fs : list form) | FNot (f : form).

  (** verse/automaton/guard.py:280-353, [_generate_z3_expression_node]; [inl] is a Python bool. *)
  Definition gen_and (gen : gex -> bool + form) : list gex -> bool + list form :=
    fix go es :=
      match es with
      | [] => inr []
      | e :: es' => match gen e with
                    | inl true => go es'
                    | inl false => inl false
                    | inr f => match go es' with inl b => inl b | inr fs => inr (f :: fs) end
                    end
      end.
  Definition gen_or (gen : gex -> bool + form) : list gex -> bool + list form :=
    fix go es :=
      match es with
      | [] => inr []
      | e :: es' => match gen e with
                    | inl false => go es'
                    | inl true => inl true
                    | inr f => match go es' with inl b => inl b | inr fs => inr (f :: fs) end
                    end
      end.
  Fixpoint gen (e : gex) : bool + form :=
    match e with
    | GBool b => inl b
    | GBoolOp true es => match gen_and gen es with inl b => inl b | inr [f] => inr f | inr fs => inr (FAnd fs) end
    | GBoolOp false es => match gen_or gen es with inl b => inl b | inr [f] => inr f | inr fs => inr (FOr fs) end
    | GNot a => match gen a with inl b => inr (FNot (FTrue b)) | inr f => inr (FNot f) end
    | _ => inr (FAtom e)
    end.

  (** [k.replace(".", "_")] *)
  Definition under (k : word) : word := map (fun c => if Ascii.eqb c "."%char then "_"%char else c) k.
  (** verse/automaton/guard.py:108-109, the replacement of variables, on the text of one variable. *)
  Definition rename (keys : list word) (t : word) : word := fold_left (fun t k => replace k (under k) t) (rev keys) t.

  (** Is the text of an atom a comparison of numbers over known variables? *)
  Fixpoint wf_num (keys : list word) (e : gex) : bool :=
    match e with
    | GNum _ => true
    | GVar r => existsb (word_eqb (rename keys (text r))) (map under keys)
    | GNeg a => wf_num keys a
    | GBin _ l r => wf_num keys l && wf_num keys r
    | _ => false
    end.
  Fixpoint wf_form (keys : list word) (f : form) : bool :=
    match f with
    | FAtom (GCmp _ l r) => wf_num keys l && wf_num keys r
    | FAtom _ => false
    | FTrue _ => true
    | FAnd fs | FOr fs => forallb (wf_form keys) fs
    | FNot f => wf_form keys f
    end.

  (** The variables that occur in a formula. *)
  Fixpoint num_refs (e : gex) : list ref :=
    match e with
    | GVar r => [r]
    | GNeg a => num_refs a
    | GBin _ l r | GCmp _ l r => num_refs l ++ num_refs r
    | _ => []
    end.
  Fixpoint form_refs (f : form) : list ref :=
    match f with
    | FAtom e => num_refs e
    | FTrue _ => []
    | FAnd fs | FOr fs => flat_map form_refs fs
    | FNot f => form_refs f
    end.
  (** verse/automaton/guard.py:106: the variables whose name is in the text. *)
  Definition symbols (cd : cdict) (f : form) : cdict :=
    filter (fun p => existsb (fun r => occurs (fst p) (text r)) (form_refs f)) cd.

  Inductive verdict := Sat | Unsat | Unknown.
  (** z3, given the formula (over the renamed variables), and bounds of renamed variables. *)
  Variable solve : list word -> form -> cdict -> verdict.

  Definition bounds_of (ps : cdict) : cdict := map (fun p => (under (fst p), snd p)) ps.

  (** verse/automaton/guard.py:182-249, [evaluate_guard_cont] for boxes: (satisfiable, contained). *)
  Definition cont_check (cd : cdict) (e : gex) : option (bool * bool) :=
    match gen e with
    | inl b => Some (b, b)
    | inr f =>
      let keys := map fst cd in
      if wf_form keys f then
        let bs := bounds_of (symbols cd f) in
        match solve keys f bs with
        | Sat => Some (true, match solve keys (FNot f) bs with Unsat => true | _ => false end)
        | _ => Some (false, false)
        end
      else None
    end.

  (** verse/analysis/verifier.py:1036-1041, then 1160-1168. *)
  Definition guard_check (cd : cdict) (e : gex) : option (bool * bool) :=
    do p <- disc e;
    if truthy (fst p) then
      do r <- hyb coord_set cd (snd p);
      if truthy (hr_val r) then cont_check (hr_cd r) (hr_new r) else Some (false, false)
    else Some (false, false).
End Guard.
