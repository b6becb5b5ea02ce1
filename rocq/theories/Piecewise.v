(** Bounds of parsed sensor functions: verse/analysis/parsed_wrap/bounded_piecewise.py and parser_wrapper.py.

    Simplifications: the source of a function is its syntax tree, and [ast.unparse] followed by [ast.parse] gives
    the tree back.  A test "name in expr_code" is made identifier by identifier.  Numbers are rationals (no
    rounding, no inf or nan); comparisons between two constants are kept as formulas where Python folds them to a
    bool.  z3's [Optimize] and the handlers of angular, map and CROWN expressions are parameters. *)
From Coq Require Import Ascii String QArith.Qminmax.
From Verif Require Import Base PyText Dict.
Set Implicit Arguments.
Open Scope nat_scope.

(** ** Python syntax *)
Inductive binop := Add | Sub | Mul | Div.
Inductive expr :=
| EName (x : word) | EConst (q : Q) | EPos (e : expr) | ENeg (e : expr)
| EBin (o : binop) (a b : expr) | ECall (f : word) (args : list expr).
Inductive cmpop := Gt | GtE | Lt | LtE | Eq | NotEq | OtherOp.
(** [CCmp l [(o1, e1); (o2, e2)]] is the chained comparison [l o1 e1 o2 e2]. *)
Inductive cond :=
| CCmp (l : expr) (rest : list (cmpop * expr)) | CAnd (l : list cond) | COr (l : list cond) | CNot (c : cond)
| COther (e : expr).
Inductive stmt :=
| SDoc                                               (** an expression statement, e.g. a docstring *)
| SAssign (x : word) (e : expr) | SReturn (e : expr) | SIf (c : cond) (body orelse : list stmt).
Record func := mkfunc { fname : word; params : list word; fbody : list stmt }.

(** ** z3 terms *)
Inductive zexpr := ZVar (x : word) | ZNum (q : Q) | ZPos (e : zexpr) | ZNeg (e : zexpr) | ZBin (o : binop) (a b : zexpr).
Inductive zc := ZCmp (o : cmpop) (a b : zexpr) | ZAnd (l : list zc) | ZOr (l : list zc) | ZNot (c : zc) | ZTrue.

(** [ast_to_z3_expr], bounded_piecewise.py:181-227; Python folds operations on two plain numbers. *)
Definition zpos (a : zexpr) : zexpr := match a with ZNum q => ZNum q | _ => ZPos a end.
Definition zneg (a : zexpr) : zexpr := match a with ZNum q => ZNum (- q) | _ => ZNeg a end.
Definition zbin (o : binop) (a b : zexpr) : option zexpr :=
  match a, b with
  | ZNum p, ZNum q =>
    match o with
    | Add => Some (ZNum (p + q)) | Sub => Some (ZNum (p - q)) | Mul => Some (ZNum (p * q))
    | Div => if Qeq_bool q 0 then None else Some (ZNum (p / q))
    end
  | _, _ => Some (ZBin o a b)
  end.
Fixpoint z3_expr (vars : list word) (e : expr) : option zexpr :=
  match e with
  | EName x => if existsb (word_eqb x) vars then Some (ZVar x) else None
  | EConst q => Some (ZNum q)
  | EPos a => do z <- z3_expr vars a; Some (zpos z)
  | ENeg a => do z <- z3_expr vars a; Some (zneg z)
  | EBin o a b => do x <- z3_expr vars a; do y <- z3_expr vars b; zbin o x y
  | ECall _ _ => None
  end.

(** The comparison loop of [ast_to_z3_condition], bounded_piecewise.py:137-162: [left] stays the same. *)
Fixpoint z3_cmps (vars : list word) (left : zexpr) (acc : option zc) (rest : list (cmpop * expr)) : option (option zc) :=
  match rest with
  | [] => Some acc
  | (o, e) :: rest' =>
    do r <- z3_expr vars e;
    match o with
    | OtherOp => None
    | _ => z3_cmps vars left (Some (match acc with None => ZCmp o left r | Some c => ZAnd [c; ZCmp o left r] end)) rest'
    end
  end.
(** [ast_to_z3_condition], bounded_piecewise.py:132-178. *)
Fixpoint z3_cond (vars : list word) (c : cond) : option zc :=
  match c with
  | CCmp l rest => do lhs <- z3_expr vars l; do r <- z3_cmps vars lhs None rest; r
  | CAnd l =>
    do zs <- (fix go l := match l with [] => Some [] | c :: l' => do z <- z3_cond vars c; do zs <- go l'; Some (z :: zs) end) l;
    Some (ZAnd zs)
  | COr l =>
    do zs <- (fix go l := match l with [] => Some [] | c :: l' => do z <- z3_cond vars c; do zs <- go l'; Some (z :: zs) end) l;
    Some (ZOr zs)
  | CNot c => do z <- z3_cond vars c; Some (ZNot z)
  | COther _ => None
  end.

(** [extract_return_value], bounded_piecewise.py:230-245. *)
Fixpoint return_value (body : list stmt) : option expr :=
  match body with
  | [] => None
  | SReturn e :: _ => Some e
  | _ :: rest => return_value rest
  end.

(** The loop of [parse_piecewise_function], bounded_piecewise.py:110-129, from the [if] statement [s]. *)
Fixpoint parse_chain (vars : list word) (s : stmt) : option (list (option zc * expr)) :=
  match s with
  | SIf c body orelse =>
    do z <- z3_cond vars c;
    do o <- return_value body;
    match orelse with
    | [] => Some [(Some z, o)]
    | [SIf _ _ _ as s'] => do rest <- parse_chain vars s'; Some ((Some z, o) :: rest)
    | _ => do o' <- return_value orelse; Some [(Some z, o); (None, o')]
    end
  | _ => None
  end.
(** [parse_piecewise_function], bounded_piecewise.py:81-129: the first [if] statement at the top level. *)
Fixpoint first_if (body : list stmt) : option stmt :=
  match body with
  | [] => None
  | SIf c b o :: _ => Some (SIf c b o)
  | _ :: rest => first_if rest
  end.
Definition parse_piecewise (f : func) : option (list (option zc * expr)) :=
  do s <- first_if (fbody f); parse_chain (params f) s.

Notation box := (dict word (Q * Q)).
Notation bounds := (dict word (list (Q * Q))).

(** The constraints on the inputs, bounded_piecewise.py:52-54 and 63-65. *)
Definition box_constraints (d : box) : list zc :=
  flat_map (fun xb => [ZCmp GtE (ZVar (fst xb)) (ZNum (fst (snd xb))); ZCmp LtE (ZVar (fst xb)) (ZNum (snd (snd xb)))]) d.

Section Bounds.
  (** [opt up cs x]: the supremum ([up]) or infimum of variable [x] under [cs] as a float, or [None] when the
      check does not answer sat. *)
  Variable opt : bool -> list zc -> word -> option Q.

  (** The loop over the variables, bounded_piecewise.py:48-76: the branch is kept when all have bounds. *)
  Definition branch_bounds (d : box) (c : zc) : option box :=
    let cs := box_constraints d ++ [c] in
    mapM (fun xb => do mn <- opt false cs (fst xb); do mx <- opt true cs (fst xb); Some (fst xb, (mn, mx))) d.

  (** [bounded_piecewise_z3], bounded_piecewise.py:23-78. *)
  Fixpoint bounded_piecewise (d : box) (negs : list zc) (bs : list (option zc * expr)) : list (box * expr) :=
    match bs with
    | [] => []
    | (oc, o) :: rest =>
      let c := match oc with Some c => c | None => match negs with [] => ZTrue | _ => ZAnd negs end end in
      let negs' := match oc with Some c => negs ++ [ZNot c] | None => negs end in
      match branch_bounds d c with
      | Some cb => (cb, o) :: bounded_piecewise d negs' rest
      | None => bounded_piecewise d negs' rest
      end
    end.

  (** ** parser_wrapper.py *)
  (** [crown code names cur], [angular f args cur], [mapf f args cur]: the bounds computed by
      [handle_crown_function], [handle_angular_function] and [handle_map_function]. *)
  Variable crown : expr -> list word -> bounds -> option (list (Q * Q)).
  Variable angular mapf : word -> list word -> bounds -> option (list (Q * Q)).
  (** wrapper_consts.py: [ALIASES], [ANGULAR_FUNCTIONS], [MAP_FUNCTIONS]. *)
  Variable aliases : list (word * word).
  Variable angular_functions map_functions : list word.

  (** Identifiers of an expression. *)
  Fixpoint idents (e : expr) : list word :=
    match e with
    | EName x => [x] | EConst _ => [] | EPos a => idents a | ENeg a => idents a
    | EBin _ a b => idents a ++ idents b
    | ECall f args => f :: flat_map idents args
    end.
  (** [name in expr_code] *)
  Definition mentions (name : word) (e : expr) : bool := existsb (occurs name) (idents e).
  (** [expr_code.replace(alias, func_name)] for every alias, parser_wrapper.py:230-232. *)
  Fixpoint rename_with (f : word -> word) (e : expr) : expr :=
    match e with
    | EName x => EName (f x) | EConst q => EConst q | EPos a => EPos (rename_with f a) | ENeg a => ENeg (rename_with f a)
    | EBin o a b => EBin o (rename_with f a) (rename_with f b)
    | ECall g args => ECall (f g) (map (rename_with f) args)
    end.
  Definition apply_aliases (e : expr) : expr :=
    fold_left (fun e a => if mentions (fst a) e then rename_with (replace (fst a) (snd a)) e else e) aliases e.

  (** The first call met by [ast.walk] (breadth first), parser_wrapper.py:237-241. *)
  Definition children (e : expr) : list expr :=
    match e with
    | EName _ | EConst _ => [] | EPos a => [a] | ENeg a => [a] | EBin _ a b => [a; b] | ECall _ args => args
    end.
  Fixpoint size (e : expr) : nat :=
    match e with
    | EName _ | EConst _ => 1 | EPos a => S (size a) | ENeg a => S (size a) | EBin _ a b => S (size a + size b)
    | ECall _ args => S (list_sum (map size args))
    end.
  Fixpoint walk (fuel : nat) (queue : list expr) : option (list expr) :=
    match fuel with
    | 0 => None
    | S n => match queue with
             | [] => None
             | ECall _ args :: _ => Some args
             | e :: q => walk n (q ++ children e)
             end
    end.
  Definition call_args (e : expr) (names : list word) : list word :=
    match walk (S (size e)) [e] with
    | None => []
    | Some args => flat_map (fun a => match a with EName x => if existsb (word_eqb x) names then [x] else [] | _ => [] end) args
    end.

  (** [handle_piecewise_function], parser_wrapper.py:321-360; [out] bounds the output expression of a branch. *)
  Definition Qfold (f : Q -> Q -> Q) (l : list Q) : option Q :=
    match l with [] => None | a :: l' => Some (fold_left f l' a) end.
  Definition zip_dict (names : list word) (comb : list (Q * Q)) : box :=
    fold_left (fun d xb => dset word_eqb (fst xb) (snd xb) d) (combine names comb) [].
  Definition handle_piecewise (out : expr -> list word -> bounds -> option (list (Q * Q))) (f : func) (args : list word) (cur : bounds)
    : option (list (Q * Q)) :=
    do bl <- mapM (fun x => dget word_eqb x cur) args;
    do pf <- parse_piecewise f;
    do outs <- mapM (fun comb =>
        mapM (fun r => out (snd r) args (map (fun xb => (fst xb, [snd xb])) (fst r)))
             (bounded_piecewise (zip_dict args comb) [] pf)) (product bl);
    let all := concat (concat outs) in
    do mn <- Qfold Qmin (map (fun b => Qmin (fst b) (snd b)) all);
    do mx <- Qfold Qmax (map (fun b => Qmax (fst b) (snd b)) all);
    Some [(mn, mx)].

  (** [compute_expression_bounds_with_parsed_sensor], parser_wrapper.py:208-262, first without piecewise functions
      (as called for the outputs of a piecewise function). *)
  Definition dispatch (pw : expr -> list word -> option (option (list (Q * Q)))) (e : expr) (names : list word) (cur : bounds)
    : option (list (Q * Q)) :=
    let e := apply_aliases e in
    let args := call_args e names in
    match find (fun f => mentions f e) angular_functions with
    | Some f => angular f args cur
    | None =>
      match pw e args with
      | Some r => r
      | None =>
        match find (fun f => mentions f e) map_functions with
        | Some f => mapf f args cur
        | None => crown e names cur
        end
      end
    end.
  Definition compute_plain : expr -> list word -> bounds -> option (list (Q * Q)) := dispatch (fun _ _ => None).
  Definition compute (pws : list func) (e : expr) (cur : bounds) : option (list (Q * Q)) :=
    dispatch (fun e args => match find (fun f => mentions (fname f) e) pws with
                            | Some f => Some (handle_piecewise compute_plain f args cur)
                            | None => None end) e (map fst cur) cur.

  (** [parse_function], parser_wrapper.py:138-205, without the cache: the final bounds. *)
  Fixpoint parse_body (pws : list func) (body : list stmt) (cur : bounds) : option bounds :=
    match body with
    | [] => Some cur
    | SReturn _ :: _ => Some cur
    | SAssign x e :: rest => do b <- compute pws e cur; parse_body pws rest (dset word_eqb x b cur)
    | _ => None
    end.
  Definition parse_function (pws : list func) (f : func) (cur : bounds) : option bounds := parse_body pws (fbody f) cur.
End Bounds.

(** wrapper_consts.py:5-21. *)
Definition ALIASES : list (word * word) :=
  [(w "atan2", w "angular_span_rect_parser"); (w "arctan2", w "angular_span_rect_parser");
   (w "get_lane_heading", w "get_heading_bounds_optimized"); (w "get_lateral_distance", w "get_lateral_distance_bounds_optimized");
   (w "minus_angular", w "angular_bounds_diff_correct")].
Definition ANGULAR_FUNCTIONS : list word := [w "angular_span_rect_parser"; w "angular_bounds_diff_correct"].
Definition MAP_FUNCTIONS : list word := [w "get_heading_bounds_optimized"; w "get_lateral_distance_bounds_optimized"].
