(** Printing Python expressions: verse/parser/astunparser.py [Unparser] (expressions) and verse/parser/parser.py:30-31 [unparse].

    The text is a list of lexemes and blanks, in the order in which the methods write them.  A name is never a keyword.  The text of a
    number (without its sign) or of a string is opaque.

    Not modelled: statements, f-strings, sets, dictionaries, starred expressions, asynchronous comprehensions, default values and
    annotations of parameters, tuples as constants, and the nodes [Reduction] and [CondVal] of Verse, which are not Python. *)
From Coq Require Import Ascii String.
From Verif Require Import Base PyText.
Set Implicit Arguments.
Open Scope nat_scope.

Inductive unop := Invert | Not | UAdd | USub.
Inductive binop := Add | Sub | Mult | MatMult | Div | Mod | LShift | RShift | BitOr | BitXor | BitAnd | FloorDiv | Pow.
Inductive rel := Eq | NotEq | Lt | LtE | Gt | GtE.
Inductive cmpop := Rel (r : rel) | Is | IsNot | In_ | NotIn.
Inductive boolop := And | Or.
Inductive kind := KInt | KBool | KOther.           (** an [int], a [bool], anything else (a float, a string, [None], ...) *)

(** Python's [ast.expr]; a constant has a sign, a kind and a text. *)
Inductive pexpr :=
| Name (x : word)
| Const (negative : bool) (k : kind) (text : word)
| UnaryOp (o : unop) (a : pexpr)
| BinOp (o : binop) (a b : pexpr)
| Compare (a : pexpr) (rest : list (cmpop * pexpr))
| BoolOp (o : boolop) (values : list pexpr)
| IfExp (body test orelse : pexpr)
| Attribute (a : pexpr) (x : word)
| Call (f : pexpr) (args : list pexpr) (keywords : list (option word * pexpr))
| Subscript (a : pexpr) (slice : pexpr)
| Slice (lower upper step : option pexpr)
| List (elts : list pexpr)
| Tuple (elts : list pexpr)
| Lambda (args : list word) (body : pexpr)
| ListComp (elt : pexpr) (gens : list (pexpr * pexpr * list pexpr))
| GeneratorExp (elt : pexpr) (gens : list (pexpr * pexpr * list pexpr)).

Inductive keyword := KIf | KElse | KFor | KIn | KNot | KIs | KAnd | KOr | KLambda.
Inductive tok :=
| TName (x : word) | TConst (k : kind) (text : word) | TKw (k : keyword) | TBin (o : binop) | TTilde | TRel (r : rel) | TAssign
| TL | TR | TLB | TRB | TComma | TColon | TDot.
Inductive piece := T (t : tok) | Sp.

(** astunparser.py:22-32, [interleave] *)
Fixpoint interleave (sep : list piece) (l : list (list piece)) : list piece :=
  match l with [] => [] | [a] => a | a :: l' => a ++ sep ++ interleave sep l' end.
Definition comma : list piece := [T TComma; Sp].

(** astunparser.py:698, [unop] *)
Definition unop_tok (o : unop) : tok := match o with Invert => TTilde | Not => TKw KNot | UAdd => TBin Add | USub => TBin Sub end.
(** astunparser.py:740-751, [cmpops] *)
Definition cmp_text (o : cmpop) : list piece :=
  match o with Rel r => [T (TRel r)] | Is => [T (TKw KIs)] | IsNot => [T (TKw KIs); Sp; T (TKw KNot)] | In_ => [T (TKw KIn)] | NotIn => [T (TKw KNot); Sp; T (TKw KIn)] end.
(** astunparser.py:761, [boolops] *)
Definition bool_tok (o : boolop) : tok := match o with And => TKw KAnd | Or => TKw KOr end.
(** astunparser.py:566-588; [repr] of a negative number starts with a minus sign *)
Definition const_text (neg : bool) (k : kind) (text : word) : list piece := (if neg then [T (TBin Sub)] else []) ++ [T (TConst k text)].
(** astunparser.py:773-776: [isinstance(t.value.n, int)], which holds of a [bool], too *)
Definition is_int (e : pexpr) : bool := match e with Const _ KInt _ | Const _ KBool _ => true | _ => false end.

(** astunparser.py:65-72 (dispatch) and the methods cited below *)
Fixpoint unparse (e : pexpr) : list piece :=
  match e with
  | Name x => [T (TName x)]                                                     (* 555-556 *)
  | Const neg k text => const_text neg k text                                   (* 573-588 *)
  | UnaryOp o a => [T TL; T (unop_tok o); Sp] ++ unparse a ++ [T TR]            (* 700-715 *)
  | BinOp o a b => [T TL] ++ unparse a ++ [Sp; T (TBin o); Sp] ++ unparse b ++ [T TR]   (* 717-738 *)
  | Compare a rest =>                                                           (* 753-759 *)
    [T TL] ++ unparse a ++ flat_map (fun r => [Sp] ++ cmp_text (fst r) ++ [Sp] ++ unparse (snd r)) rest ++ [T TR]
  | BoolOp o vs => [T TL] ++ interleave [Sp; T (bool_tok o); Sp] (map unparse vs) ++ [T TR]   (* 763-767 *)
  | IfExp b t o =>                                                              (* 652-659 *)
    [T TL] ++ unparse b ++ [Sp; T (TKw KIf); Sp] ++ unparse t ++ [Sp; T (TKw KElse); Sp] ++ unparse o ++ [T TR]
  | Attribute a x => unparse a ++ (if is_int a then [Sp] else []) ++ [T TDot; T (TName x)]   (* 769-779 *)
  | Call f args kws =>                                                          (* 781-812, 918-925 *)
    unparse f ++ [T TL] ++
    interleave comma (map unparse args ++
                      map (fun k => match fst k with None => [T (TBin Pow)] | Some x => [T (TName x); T TAssign] end ++ unparse (snd k)) kws) ++ [T TR]
  | Subscript a s => unparse a ++ [T TLB] ++ unparse s ++ [T TRB]               (* 814-818, 828-829 *)
  | Slice lo up st =>                                                           (* 831-839 *)
    match lo with None => [] | Some a => unparse a end ++ [T TColon] ++ match up with None => [] | Some a => unparse a end ++
    match st with None => [] | Some a => [T TColon] ++ unparse a end
  | List es => [T TLB] ++ interleave comma (map unparse es) ++ [T TRB]          (* 605-608 *)
  | Tuple es =>                                                                 (* 688-696 *)
    [T TL] ++ match es with [a] => unparse a ++ [T TComma] | _ => interleave comma (map unparse es) end ++ [T TR]
  | Lambda xs b =>                                                              (* 845-865, 927-933 *)
    [T TL; T (TKw KLambda); Sp] ++ interleave comma (map (fun x => [T (TName x)]) xs) ++ [T TColon; Sp] ++ unparse b ++ [T TR]
  | ListComp a gs =>                                                            (* 610-615, 640-650 *)
    [T TLB] ++ unparse a ++
    flat_map (fun g => [Sp; T (TKw KFor); Sp] ++ unparse (fst (fst g)) ++ [Sp; T (TKw KIn); Sp] ++ unparse (snd (fst g)) ++
                       flat_map (fun c => [Sp; T (TKw KIf); Sp] ++ unparse c) (snd g)) gs ++ [T TRB]
  | GeneratorExp a gs =>                                                        (* 617-622, 640-650 *)
    [T TL] ++ unparse a ++
    flat_map (fun g => [Sp; T (TKw KFor); Sp] ++ unparse (fst (fst g)) ++ [Sp; T (TKw KIn); Sp] ++ unparse (snd (fst g)) ++
                       flat_map (fun c => [Sp; T (TKw KIf); Sp] ++ unparse c) (snd g)) gs ++ [T TR]
  end.
