(** What UnparseProps.v states: how Python reads a text.

    [parse] follows the grammar in the Python language reference ("Full Grammar specification", the part for expressions), from the loosest to the
    tightest operators.  Its first argument bounds the recursion; [reads] does not depend on it. *)
From Coq Require Import Ascii String.
From Verif Require Import Base PyText Unparse.
Set Implicit Arguments.
Open Scope nat_scope.

(** ** Lexemes: blanks separate, and nothing else may run together *)
Definition wordlike (t : tok) : bool := match t with TName _ | TConst _ _ | TKw _ => true | _ => false end.
Definition symbolic (t : tok) : bool := match t with TBin _ | TTilde | TRel _ | TAssign => true | _ => false end.
(** Without a blank between them, the two would be read as other lexemes: 1.x is not 1 .x, "ab" is not "a b", "< =" is not "<=", ... *)
Definition glue (a b : tok) : bool :=
  (wordlike a && wordlike b) || (symbolic a && symbolic b) ||
  match a, b with
  | TConst KInt _, TDot | TDot, TConst _ _ | TDot, TDot | TColon, TAssign => true
  | _, _ => false
  end.
Fixpoint lexable (ps : list piece) : bool :=
  match ps with
  | T a :: (T b :: _) as r => negb (glue a b) && lexable r
  | _ :: r => lexable r
  | [] => true
  end.
Fixpoint lexemes (ps : list piece) : list tok :=
  match ps with [] => [] | Sp :: r => lexemes r | T t :: r => t :: lexemes r end.

(** ** The grammar *)
Definition parser (A : Type) : Type := list tok -> option (A * list tok).
Inductive level := LExpr | LOr | LPrim.

Definition binop_eqb (a b : binop) : bool :=
  match a, b with
  | Add, Add | Sub, Sub | Mult, Mult | MatMult, MatMult | Div, Div | Mod, Mod | LShift, LShift | RShift, RShift | BitOr, BitOr | BitXor, BitXor
  | BitAnd, BitAnd | FloorDiv, FloorDiv | Pow, Pow => true
  | _, _ => false
  end.
(** Left-associative operators, loosest first. *)
Definition levels : list (list binop) := [[BitOr]; [BitXor]; [BitAnd]; [LShift; RShift]; [Add; Sub]; [Mult; Div; FloorDiv; Mod; MatMult]].

(** What a [for] may bind. *)
Fixpoint is_target (e : pexpr) : bool :=
  match e with
  | Name _ | Attribute _ _ | Subscript _ _ => true
  | List es | Tuple es => forallb is_target es
  | _ => false
  end.

Section Grammar.
  Variable n : nat.
  Variable P : level -> parser pexpr.

  (** sep p sep p ... *)
  Fixpoint more (k : nat) (is_sep : tok -> bool) (p : parser pexpr) (ts : list tok) : option (list pexpr * list tok) :=
    match k with
    | 0 => None
    | S k' =>
      match ts with
      | t :: r => if is_sep t then do x <- p r; do y <- more k' is_sep p (snd x); Some (fst x :: fst y, snd y) else Some ([], ts)
      | [] => Some ([], [])
      end
    end.
  (** comma-separated, up to the closing bracket, with or without a last comma *)
  Fixpoint items (k : nat) (p : parser pexpr) (close : tok -> bool) (ts : list tok) : option (list pexpr * list tok) :=
    match k with
    | 0 => None
    | S k' =>
      match ts with
      | [] => None
      | t :: r =>
        if close t then Some ([], r) else
        do x <- p ts;
        match snd x with
        | TComma :: r1 => do y <- items k' p close r1; Some (fst x :: fst y, snd y)
        | t1 :: r1 => if close t1 then Some ([fst x], r1) else None
        | [] => None
        end
      end
    end.
  Definition is_R (t : tok) : bool := match t with TR => true | _ => false end.
  Definition is_RB (t : tok) : bool := match t with TRB => true | _ => false end.
  Definition is_if (t : tok) : bool := match t with TKw KIf => true | _ => false end.
  Definition is_and (t : tok) : bool := match t with TKw KAnd => true | _ => false end.
  Definition is_or (t : tok) : bool := match t with TKw KOr => true | _ => false end.

  (** for_if_clauses *)
  Fixpoint gens (k : nat) (ts : list tok) : option (list (pexpr * pexpr * list pexpr) * list tok) :=
    match k with
    | 0 => None
    | S k' =>
      match ts with
      | TKw KFor :: r =>
        do x <- P LPrim r;
        if is_target (fst x) then
          match snd x with
          | TKw KIn :: r1 => do y <- P LOr r1; do z <- more n is_if (P LOr) (snd y); do w <- gens k' (snd z); Some ((fst x, fst y, fst z) :: fst w, snd w)
          | _ => None
          end
        else None
      | _ => Some ([], ts)
      end
    end.
  (** after an opening bracket: nothing, one expression, a comprehension, or several expressions *)
  Definition bracketed (close : tok -> bool) (single : pexpr -> pexpr) (several : list pexpr -> pexpr) (comp : pexpr -> list (pexpr * pexpr * list pexpr) -> pexpr) : parser pexpr :=
    fun ts =>
    match ts with
    | [] => None
    | t :: r =>
      if close t then Some (several [], r) else
      do x <- P LExpr ts;
      match snd x with
      | TComma :: r1 => do y <- items n (P LExpr) close r1; Some (several (fst x :: fst y), snd y)
      | TKw KFor :: _ => do y <- gens n (snd x); match snd y with t1 :: r1 => if close t1 then Some (comp (fst x) (fst y), r1) else None | [] => None end
      | t1 :: r1 => if close t1 then Some (single (fst x), r1) else None
      | [] => None
      end
    end.
  Definition atom : parser pexpr := fun ts =>
    match ts with
    | TName x :: r => Some (Name x, r)
    | TConst k t :: r => Some (Const false k t, r)
    | TL :: r => bracketed is_R (fun e => e) Tuple GeneratorExp r
    | TLB :: r => bracketed is_RB (fun e => List [e]) List ListComp r
    | _ => None
    end.

  (** arguments of a call: positional ones, then keywords *)
  Fixpoint arguments (k : nat) (kw : bool) (ts : list tok) : option (list pexpr * list (option word * pexpr) * list tok) :=
    match k with
    | 0 => None
    | S k' =>
      let next (r : list tok) (kw : bool) :=
        match r with
        | TComma :: r1 => arguments k' kw r1
        | TR :: r1 => Some ([], [], r1)
        | _ => None
        end in
      match ts with
      | TR :: r => Some ([], [], r)
      | TName x :: TAssign :: r => do y <- P LExpr r; do z <- next (snd y) true; Some (fst (fst z), (Some x, fst y) :: snd (fst z), snd z)
      | TBin Pow :: r => do y <- P LExpr r; do z <- next (snd y) true; Some (fst (fst z), (None, fst y) :: snd (fst z), snd z)
      | _ => if kw then None else do y <- P LExpr ts; do z <- next (snd y) false; Some (fst y :: fst (fst z), snd (fst z), snd z)
      end
    end.
  Definition optional : parser (option pexpr) := fun ts =>
    match ts with
    | TColon :: _ | TRB :: _ | TComma :: _ => Some (None, ts)
    | _ => do x <- P LExpr ts; Some (Some (fst x), snd x)
    end.
  Definition slice : parser pexpr := fun ts =>
    do x <- optional ts;
    match snd x with
    | TColon :: r =>
      do y <- optional r;
      match snd y with
      | TColon :: r1 => do z <- optional r1; Some (Slice (fst x) (fst y) (fst z), snd z)
      | _ => Some (Slice (fst x) (fst y) None, snd y)
      end
    | _ => match fst x with Some e => Some (e, snd x) | None => None end
    end.
  Definition subscript : parser pexpr := fun ts =>
    do x <- slice ts;
    match snd x with
    | TRB :: r => Some (fst x, r)
    | TComma :: r => do y <- items n slice is_RB r; Some (Tuple (fst x :: fst y), snd y)
    | _ => None
    end.
  (** a comprehension as the only argument needs no parentheses of its own *)
  Definition lone : parser pexpr := fun ts =>
    do x <- P LExpr ts;
    match snd x with
    | TKw KFor :: _ => do y <- gens n (snd x); match snd y with TR :: r => Some (GeneratorExp (fst x) (fst y), r) | _ => None end
    | _ => None
    end.
  Fixpoint trailers (k : nat) (a : pexpr) (ts : list tok) : option (pexpr * list tok) :=
    match k with
    | 0 => None
    | S k' =>
      match ts with
      | TDot :: TName x :: r => trailers k' (Attribute a x) r
      | TDot :: _ => None
      | TL :: r =>
        match lone r with
        | Some (g, r1) => trailers k' (Call a [g] []) r1
        | None => do y <- arguments n false r; trailers k' (Call a (fst (fst y)) (snd (fst y))) (snd y)
        end
      | TLB :: r => do y <- subscript r; trailers k' (Subscript a (fst y)) (snd y)
      | _ => Some (a, ts)
      end
    end.
  Definition primary : parser pexpr := fun ts => do x <- atom ts; trailers n (fst x) (snd x).

  Fixpoint factor (k : nat) (ts : list tok) : option (pexpr * list tok) :=
    match k with
    | 0 => None
    | S k' =>
      match ts with
      | TBin Add :: r => do x <- factor k' r; Some (UnaryOp UAdd (fst x), snd x)
      | TBin Sub :: r => do x <- factor k' r; Some (UnaryOp USub (fst x), snd x)
      | TTilde :: r => do x <- factor k' r; Some (UnaryOp Invert (fst x), snd x)
      | _ =>
        do x <- primary ts;
        match snd x with
        | TBin Pow :: r => do y <- factor k' r; Some (BinOp Pow (fst x) (fst y), snd y)
        | _ => Some x
        end
      end
    end.
  Fixpoint left_assoc (k : nat) (ops : list binop) (p : parser pexpr) (a : pexpr) (ts : list tok) : option (pexpr * list tok) :=
    match k with
    | 0 => None
    | S k' =>
      match ts with
      | TBin o :: r => if existsb (binop_eqb o) ops then do x <- p r; left_assoc k' ops p (BinOp o a (fst x)) (snd x) else Some (a, ts)
      | _ => Some (a, ts)
      end
    end.
  Fixpoint binary (ls : list (list binop)) : parser pexpr :=
    match ls with
    | [] => factor n
    | ops :: ls' => fun ts => do x <- binary ls' ts; left_assoc n ops (binary ls') (fst x) (snd x)
    end.
  Definition read_cmp (ts : list tok) : option (cmpop * list tok) :=
    match ts with
    | TRel r :: ts' => Some (Rel r, ts')
    | TKw KIs :: TKw KNot :: ts' => Some (IsNot, ts')
    | TKw KIs :: ts' => Some (Is, ts')
    | TKw KIn :: ts' => Some (In_, ts')
    | TKw KNot :: TKw KIn :: ts' => Some (NotIn, ts')
    | _ => None
    end.
  Fixpoint compares (k : nat) (ts : list tok) : option (list (cmpop * pexpr) * list tok) :=
    match k with
    | 0 => None
    | S k' =>
      match read_cmp ts with
      | Some (o, r) => do x <- binary levels r; do y <- compares k' (snd x); Some ((o, fst x) :: fst y, snd y)
      | None => Some ([], ts)
      end
    end.
  Definition comparison : parser pexpr := fun ts =>
    do x <- binary levels ts; do y <- compares n (snd x); Some (match fst y with [] => fst x | _ => Compare (fst x) (fst y) end, snd y).
  Fixpoint inversion (k : nat) (ts : list tok) : option (pexpr * list tok) :=
    match k with
    | 0 => None
    | S k' => match ts with TKw KNot :: r => do x <- inversion k' r; Some (UnaryOp Not (fst x), snd x) | _ => comparison ts end
    end.
  Definition joined (o : boolop) (is_sep : tok -> bool) (p : parser pexpr) : parser pexpr := fun ts =>
    do x <- p ts; do y <- more n is_sep p (snd x); Some (match fst y with [] => fst x | _ => BoolOp o (fst x :: fst y) end, snd y).
  Definition disjunction : parser pexpr := joined Or is_or (joined And is_and (inversion n)).

  Fixpoint parameters (k : nat) (ts : list tok) : option (list word * list tok) :=
    match k with
    | 0 => None
    | S k' =>
      match ts with
      | TColon :: r => Some ([], r)
      | TName x :: TColon :: r => Some ([x], r)
      | TName x :: TComma :: r => do y <- parameters k' r; Some (x :: fst y, snd y)
      | _ => None
      end
    end.
  Definition expression : parser pexpr := fun ts =>
    match ts with
    | TKw KLambda :: r => do x <- parameters n r; do y <- P LExpr (snd x); Some (Lambda (fst x) (fst y), snd y)
    | _ =>
      do x <- disjunction ts;
      match snd x with
      | TKw KIf :: r =>
        do y <- disjunction r;
        match snd y with TKw KElse :: r1 => do z <- P LExpr r1; Some (IfExp (fst x) (fst y) (fst z), snd z) | _ => None end
      | _ => Some x
      end
    end.
End Grammar.

Fixpoint parse (n : nat) (l : level) (ts : list tok) : option (pexpr * list tok) :=
  match n with
  | 0 => None
  | S m => match l with LExpr => expression m (parse m) ts | LOr => disjunction m (parse m) ts | LPrim => primary m (parse m) ts end
  end.

(** Python reads the lexemes as the expression [e]; they are not an expression. *)
Definition reads (ts : list tok) (e : pexpr) : Prop := exists m, forall n, m <= n -> parse n LExpr ts = Some (e, []).
Definition reads_text (ps : list piece) (e : pexpr) : Prop := lexable ps = true /\ reads (lexemes ps) e.

(** An expression as Python's parser builds them: no negative constants, at least two values in a [BoolOp], and so on. *)
Fixpoint proper (e : pexpr) : bool :=
  match e with
  | Name _ => true
  | Const neg _ _ => negb neg
  | UnaryOp _ a => proper a
  | BinOp _ a b => proper a && proper b
  | Compare a rest => proper a && negb (length rest =? 0) && forallb (fun r => proper (snd r)) rest
  | BoolOp _ vs => (2 <=? length vs) && forallb proper vs
  | IfExp a b c => proper a && proper b && proper c
  | Attribute a _ => proper a
  | Call f args kws => proper f && forallb proper args && forallb (fun k => proper (snd k)) kws
  | Subscript a (Slice lo up st) =>
    proper a && match lo with None => true | Some e => proper e end && match up with None => true | Some e => proper e end && match st with None => true | Some e => proper e end
  | Subscript a s => proper a && proper s
  | Slice _ _ _ => false                                     (* only directly as a subscript *)
  | List es | Tuple es => forallb proper es
  | Lambda _ b => proper b
  | ListComp a gs | GeneratorExp a gs =>
    proper a && negb (length gs =? 0) &&
    forallb (fun g => is_target (fst (fst g)) && proper (fst (fst g)) && proper (snd (fst g)) && forallb proper (snd g)) gs
  end.

(** Nowhere in the expression is there a subscript with several slices, as in x[1:2, 3]. *)
Definition is_slice (e : pexpr) : bool := match e with Slice _ _ _ => true | _ => false end.
Fixpoint no_multi (e : pexpr) : bool :=
  match e with
  | Name _ | Const _ _ _ => true
  | UnaryOp _ a | Attribute a _ | Lambda _ a => no_multi a
  | BinOp _ a b => no_multi a && no_multi b
  | Compare a rest => no_multi a && forallb (fun r => no_multi (snd r)) rest
  | BoolOp _ es | List es | Tuple es => forallb no_multi es
  | IfExp a b c => no_multi a && no_multi b && no_multi c
  | Call f args kws => no_multi f && forallb no_multi args && forallb (fun k => no_multi (snd k)) kws
  | Subscript a s => no_multi a && no_multi s && match s with Tuple es => negb (existsb is_slice es) | _ => true end
  | Slice lo up st => match lo with None => true | Some e => no_multi e end && match up with None => true | Some e => no_multi e end && match st with None => true | Some e => no_multi e end
  | ListComp a gs | GeneratorExp a gs => no_multi a && forallb (fun g => no_multi (fst (fst g)) && no_multi (snd (fst g)) && forallb no_multi (snd g)) gs
  end.
