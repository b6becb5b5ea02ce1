(** What Python and z3 mean by the expressions of Piecewise.v (C58, C72). *)
From Coq Require Import Ascii String Reals Qreals.
From Verif Require Import Base PyText Dict Piecewise.
Set Implicit Arguments.
Open Scope nat_scope.

(** ** Python, over the real numbers; [None] is an exception *)
Section Python.
  (** The functions that may be called. *)
  Variable call : word -> list R -> option R.
  Notation env := (dict word R).

  Definition py_bin (o : binop) (a b : R) : option R :=
    match o with
    | Add => Some (a + b)%R | Sub => Some (a - b)%R | Mul => Some (a * b)%R
    | Div => if Req_EM_T b 0 then None else Some (a / b)%R
    end.
  Fixpoint py_expr (s : env) (e : expr) : option R :=
    match e with
    | EName x => dget word_eqb x s
    | EConst q => Some (Q2R q)
    | EPos a => py_expr s a
    | ENeg a => do v <- py_expr s a; Some (- v)%R
    | EBin o a b => do x <- py_expr s a; do y <- py_expr s b; py_bin o x y
    | ECall f args => 
      do vs <- (fix go l := match l with [] => Some [] | a :: l' => do v <- py_expr s a; do vs <- go l'; Some (v :: vs) end) args;
      call f vs
    end.
  Definition cmp (o : cmpop) (a b : R) : Prop :=
    match o with
    | Gt => (a > b)%R | GtE => (a >= b)%R | Lt => (a < b)%R | LtE => (a <= b)%R | Eq => a = b | NotEq => a <> b
    | OtherOp => False
    end.
  (** [cond_is s c b]: the test [c] evaluates, without an exception, to [b]; evaluation stops at the first operand
      that decides. *)
  Inductive cmps_is (s : env) : R -> list (cmpop * expr) -> bool -> Prop :=
  | cmps_nil v : cmps_is s v [] true
  | cmps_true v o e u rest b : o <> OtherOp -> py_expr s e = Some u -> cmp o v u -> cmps_is s u rest b -> cmps_is s v ((o, e) :: rest) b
  | cmps_false v o e u rest : o <> OtherOp -> py_expr s e = Some u -> ~ cmp o v u -> cmps_is s v ((o, e) :: rest) false.
  Inductive cond_is (s : env) : cond -> bool -> Prop :=
  | is_cmp l rest v b : py_expr s l = Some v -> rest <> [] -> cmps_is s v rest b -> cond_is s (CCmp l rest) b
  | is_and l b : all_is s l b -> cond_is s (CAnd l) b
  | is_or l b : any_is s l b -> cond_is s (COr l) b
  | is_not c b : cond_is s c b -> cond_is s (CNot c) (negb b)
  with all_is (s : env) : list cond -> bool -> Prop :=
  | all_nil : all_is s [] true
  | all_true c l b : cond_is s c true -> all_is s l b -> all_is s (c :: l) b
  | all_false c l : cond_is s c false -> all_is s (c :: l) false
  with any_is (s : env) : list cond -> bool -> Prop :=
  | any_nil : any_is s [] false
  | any_false c l b : cond_is s c false -> any_is s l b -> any_is s (c :: l) b
  | any_true c l : cond_is s c true -> any_is s (c :: l) true.

  (** Running statements: to a returned value, or through to the end with new variables. *)
  Inductive runs : env -> list stmt -> env + R -> Prop :=
  | run_nil s : runs s [] (inl s)
  | run_doc s rest r : runs s rest r -> runs s (SDoc :: rest) r
  | run_assign s x e v rest r : py_expr s e = Some v -> runs (dset word_eqb x v s) rest r -> runs s (SAssign x e :: rest) r
  | run_return s e v rest : py_expr s e = Some v -> runs s (SReturn e :: rest) (inr v)
  | run_if_ret s c b body orelse v rest : cond_is s c b -> runs s (if b then body else orelse) (inr v) ->
      runs s (SIf c body orelse :: rest) (inr v)
  | run_if_on s c b body orelse s' rest r : cond_is s c b -> runs s (if b then body else orelse) (inl s') -> runs s' rest r ->
      runs s (SIf c body orelse :: rest) r.
End Python.

(** ** z3 over the reals: a model gives a value to every variable and to every division by zero *)
Fixpoint zval (p : word -> R) (d0 : R -> R) (e : zexpr) : R :=
  match e with
  | ZVar x => p x
  | ZNum q => Q2R q
  | ZPos a => zval p d0 a
  | ZNeg a => (- zval p d0 a)%R
  | ZBin o a b =>
    let x := zval p d0 a in let y := zval p d0 b in
    match o with
    | Add => (x + y)%R | Sub => (x - y)%R | Mul => (x * y)%R
    | Div => if Req_EM_T y 0 then d0 x else (x / y)%R
    end
  end.
Fixpoint zholds (p : word -> R) (d0 : R -> R) (c : zc) : Prop :=
  match c with
  | ZCmp o a b => cmp o (zval p d0 a) (zval p d0 b)
  | ZAnd l => (fix all l := match l with [] => True | c :: l' => zholds p d0 c /\ all l' end) l
  | ZOr l => (fix any l := match l with [] => False | c :: l' => zholds p d0 c \/ any l' end) l
  | ZNot c => ~ zholds p d0 c
  | ZTrue => True
  end.

(** The optimiser's answers to this query bound the variable at every solution; in particular the check answers
    sat when there is one. *)
Definition opt_sound (opt : bool -> list zc -> word -> option Q) (cs : list zc) (x : word) : Prop :=
  forall p d0, (forall c, In c cs -> zholds p d0 c) ->
    exists mn mx, opt false cs x = Some mn /\ opt true cs x = Some mx /\ (Q2R mn <= p x <= Q2R mx)%R.

(** A value in one of the intervals. *)
Definition within (v : R) (l : list (Q * Q)) : Prop := exists b, In b l /\ (Q2R (fst b) <= v <= Q2R (snd b))%R.
(** Every variable's value is in one of the variable's intervals. *)
Definition state_in (s : dict word R) (cur : bounds) : Prop :=
  forall x v, dget word_eqb x s = Some v -> exists l, dget word_eqb x cur = Some l /\ within v l.

(** ** The shape of function the analysis is meant for *)
(** No chained comparison. *)
Fixpoint unchained (c : cond) : Prop :=
  match c with
  | CCmp _ rest => length rest = 1
  | CAnd l | COr l => (fix all l := match l with [] => True | c :: l' => unchained c /\ all l' end) l
  | CNot c => unchained c
  | COther _ => True
  end.
(** A body that returns [e], perhaps after a docstring. *)
Definition returns (body : list stmt) (e : expr) : Prop :=
  exists docs rest, body = docs ++ SReturn e :: rest /\ Forall (fun s => s = SDoc) docs.
(** An if/elif/else chain of returns. *)
Inductive chain : stmt -> list (cond * expr) -> option expr -> Prop :=
| chain_if c b e : returns b e -> chain (SIf c b []) [(c, e)] None
| chain_else c b e b' e' : returns b e -> returns b' e' -> chain (SIf c b b') [(c, e)] (Some e')
| chain_elif c b e s l o : returns b e -> chain s l o -> chain (SIf c b [s]) ((c, e) :: l) o.
Definition piecewise (f : func) (pieces : list (cond * expr)) (default : option expr) : Prop :=
  exists docs s, fbody f = docs ++ [s] /\ Forall (fun s => s = SDoc) docs /\ chain s pieces default /\
    Forall (fun ce => unchained (fst ce)) pieces.

(** The conditions the optimiser is asked about, branch by branch. *)
Fixpoint branch_conditions (negs : list zc) (bs : list (option zc * expr)) : list zc :=
  match bs with
  | [] => []
  | (Some c, _) :: rest => c :: branch_conditions (negs ++ [ZNot c]) rest
  | (None, _) :: rest => (match negs with [] => ZTrue | _ => ZAnd negs end) :: branch_conditions negs rest
  end.

(** [out] bounds the expression [e]: whenever it answers, every value of [e] on the given intervals is within. *)
Definition expr_sound (call : word -> list R -> option R) (out : expr -> list word -> bounds -> option (list (Q * Q))) (e : expr) : Prop :=
  forall names cur l s v, out e names cur = Some l -> state_in s cur -> py_expr call s e = Some v -> within v l.
(** The same for a function applied to variables. *)
Definition fun_sound (call : word -> list R -> option R) (h : word -> list word -> bounds -> option (list (Q * Q))) (f : word) : Prop :=
  forall args cur l vs v, h f args cur = Some l ->
    Forall2 (fun x u => exists b, dget word_eqb x cur = Some b /\ within u b) args vs -> call f vs = Some v -> within v l.

(** The optimiser is right about the queries made for a call of [f] with the bounds [cur] of its parameters. *)
Definition queries_sound (opt : bool -> list zc -> word -> option Q) (f : func) (cur : bounds) : Prop :=
  forall bs bl comb c x, parse_piecewise f = Some bs -> mapM (fun x => dget word_eqb x cur) (params f) = Some bl -> In comb (product bl) ->
    In c (branch_conditions [] bs) -> In x (params f) -> opt_sound opt (box_constraints (zip_dict (params f) comb) ++ [c]) x.

(** ** Functions analysed statement by statement (C72) *)
Section Statements.
  Variable call : word -> list R -> option R.
  Variable opt : bool -> list zc -> word -> option Q.
  Variable crown : expr -> list word -> bounds -> option (list (Q * Q)).
  Variable angular mapf : word -> list word -> bounds -> option (list (Q * Q)).
  Variable aliases : list (word * word).
  Variable af mf : list word.
  Variable pws : list func.
  Let special : list word := af ++ map fname pws ++ mf.
  Let plain_out := compute_plain crown angular mapf aliases af mf.

  (** A right-hand side the analysis is meant for: after aliasing (which does not change its value) it is an
      expression without any special function, or just a call of one of them on variables. *)
  Inductive rhs_ok (cur : bounds) (e : expr) : Prop :=
  | rhs_plain e' : apply_aliases aliases e = e' -> (forall s, py_expr call s e' = py_expr call s e) ->
      (forall h, In h special -> mentions h e' = false) -> expr_sound call crown e' -> rhs_ok cur e
  | rhs_call g xs : apply_aliases aliases e = ECall g (map EName xs) -> (forall s, py_expr call s (ECall g (map EName xs)) = py_expr call s e) ->
      (forall x, In x xs -> In x (map fst cur)) ->
      (forall h, In h special -> mentions h (ECall g (map EName xs)) = true -> h = g) ->
      (In g af /\ fun_sound call angular g \/
       ~ In g af /\ ~ In g (map fname pws) /\ In g mf /\ fun_sound call mapf g \/
       ~ In g af /\ In g (map fname pws) /\
         (forall f, In f pws -> fname f = g -> xs = params f /\ NoDup xs /\
           (exists pieces default, piecewise f pieces default /\
             forall e, (exists c, In (c, e) pieces) \/ default = Some e -> expr_sound call plain_out e) /\
           (forall vs v, call g vs = Some v -> runs call (combine xs vs) (fbody f) (inr v)) /\
           queries_sound opt f cur)) -> rhs_ok cur e.

  (** All assignments up to the first [return] are of this kind, with the bounds known when they are reached. *)
  Inductive body_ok : list stmt -> bounds -> Prop :=
  | ok_nil cur : body_ok [] cur
  | ok_return e rest cur : body_ok (SReturn e :: rest) cur
  | ok_assign x e rest cur : rhs_ok cur e ->
      (forall b, compute opt crown angular mapf aliases af mf pws e cur = Some b -> body_ok rest (dset word_eqb x b cur)) ->
      body_ok (SAssign x e :: rest) cur.

  (** The statements before the first top-level [return]. *)
  Fixpoint before_return (body : list stmt) : list stmt :=
    match body with [] => [] | SReturn _ :: _ => [] | s :: rest => s :: before_return rest end.
End Statements.
