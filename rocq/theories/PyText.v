(** Text of arithmetic expressions: the printer, Python's [str.replace] and [eval], as used by
    verse/analysis/verifier.py [apply_reset], verse/automaton/reset.py and verse/parser/astunparser.py.

    Simplifications: a printed expression is kept as a list of lexemes (parentheses, operators, words)
    rather than one character string; the names that are substituted contain no blank, parenthesis or
    operator character, so a textual replacement never crosses a lexeme and is applied word by word.
    Numbers are rationals; how a number is written is a parameter ([show]/[read]).  Powers have literal
    natural-number exponents.  Division, calls and comparisons in resets are not modelled. *)
From Coq Require Import Ascii String.
From Verif Require Import Base.
Set Implicit Arguments.
Open Scope nat_scope.

Notation word := (list ascii).
Definition w (s : String.string) : word := String.list_ascii_of_string s.

(** ** Words: substring test and [str.replace] *)
Fixpoint prefix_of (p s : word) : bool :=
  match p, s with
  | [], _ => true
  | a :: p', b :: s' => Ascii.eqb a b && prefix_of p' s'
  | _ :: _, [] => false
  end.

(** Python's [p in s] on strings. *)
Fixpoint occurs (p s : word) : bool :=
  prefix_of p s || match s with [] => false | _ :: s' => occurs p s' end.

(** Python's [s.replace(old, new)]: left to right, non-overlapping; [skip] characters of the last match
    are still to be dropped.  [old] is not empty. *)
Fixpoint replace_from (old new : word) (skip : nat) (s : word) : word :=
  match s with
  | [] => []
  | c :: s' =>
    match skip with
    | S k => replace_from old new k s'
    | 0 => if prefix_of old s then new ++ replace_from old new (length old - 1) s' else c :: replace_from old new 0 s'
    end
  end.
Definition replace (old new s : word) : word := replace_from old new 0 s.

Fixpoint word_eqb (a b : word) : bool :=
  match a, b with
  | [], [] => true
  | x :: a', y :: b' => Ascii.eqb x y && word_eqb a' b'
  | _, _ => false
  end.

(** ** Expressions and their printed form *)
Inductive binop := Add | Sub | Mul.
Inductive expr :=
| Num (q : Q)                 (** a non-negative literal; a negative one is [Neg (Num q)] in Python's ast *)
| Var (x : word)              (** a dotted name such as [ego.x] *)
| Neg (e : expr)
| Bin (o : binop) (a b : expr)
| Pow (a : expr) (n : nat).

Inductive tok := TL | TR | TPlus | TMinus | TStar | TPow | TWord (x : word).

Definition op_tok (o : binop) : tok := match o with Add => TPlus | Sub => TMinus | Mul => TStar end.

Section Text.
  (** How Python writes a number ([repr]/[str]) and reads a numeric literal. *)
  Variable show : Q -> word.
  Variable read : word -> option Q.

  (** verse/parser/astunparser.py:555 ([_Name]), 573 ([_Constant]), 700-715 ([_UnaryOp]), 733-738
      ([_BinOp]), 769-779 ([_Attribute]); every operator application is parenthesised. *)
  Fixpoint unparse (e : expr) : list tok :=
    match e with
    | Num q => [TWord (show q)]
    | Var x => [TWord x]
    | Neg a => TL :: TMinus :: unparse a ++ [TR]
    | Bin o a b => TL :: unparse a ++ op_tok o :: unparse b ++ [TR]
    | Pow a n => TL :: unparse a ++ TPow :: [TWord (show (inject_Z (Z.of_nat n)))] ++ [TR]
    end.

  (** [text.replace(old, new)] on the printed expression. *)
  Definition replace_tok (old new : word) (t : tok) : tok :=
    match t with TWord x => TWord (replace old new x) | _ => t end.
  Definition replace_text (old new : word) (ts : list tok) : list tok := map (replace_tok old new) ts.

  (** [var in expr] on the printed expression. *)
  Definition occurs_text (x : word) (ts : list tok) : bool :=
    existsb (fun t => match t with TWord y => occurs x y | _ => false end) ts.

  (** Lexing a word after replacement: minus signs are operators. *)
  Fixpoint lex_word (cur s : word) : list tok :=
    match s with
    | [] => match cur with [] => [] | _ => [TWord (rev cur)] end
    | c :: s' =>
      if Ascii.eqb c "-"%char then match cur with [] => [] | _ => [TWord (rev cur)] end ++ TMinus :: lex_word [] s'
      else lex_word (c :: cur) s'
    end.
  Definition lex (ts : list tok) : list tok :=
    flat_map (fun t => match t with TWord x => lex_word [] x | _ => [t] end) ts.

  (** Natural-number exponents only. *)
  Definition qpow (v e : Q) : option Q :=
    let r := Qred e in
    if Pos.eqb (Qden r) 1 && Z.leb 0 (Qnum r) then Some (Qpower v (Qnum r)) else None.

  (** Python's grammar for arithmetic, evaluated on the fly: [a_expr], [m_expr], [u_expr], [power], atoms.
      Unary minus binds weaker than [**].  The environment is empty ([eval(tmp, {}, {})]), so a word that
      is not a number is a NameError.  [n] bounds the recursion. *)
  Fixpoint p_expr (n : nat) (ts : list tok) : option (Q * list tok) :=
    match n with
    | 0 => None
    | S n' => do p <- p_term n' ts; p_expr_rest n' (fst p) (snd p)
    end
  with p_expr_rest (n : nat) (v : Q) (ts : list tok) : option (Q * list tok) :=
    match n with
    | 0 => None
    | S n' =>
      match ts with
      | TPlus :: r => do p <- p_term n' r; p_expr_rest n' (v + fst p)%Q (snd p)
      | TMinus :: r => do p <- p_term n' r; p_expr_rest n' (v - fst p)%Q (snd p)
      | _ => Some (v, ts)
      end
    end
  with p_term (n : nat) (ts : list tok) : option (Q * list tok) :=
    match n with
    | 0 => None
    | S n' => do p <- p_factor n' ts; p_term_rest n' (fst p) (snd p)
    end
  with p_term_rest (n : nat) (v : Q) (ts : list tok) : option (Q * list tok) :=
    match n with
    | 0 => None
    | S n' =>
      match ts with
      | TStar :: r => do p <- p_factor n' r; p_term_rest n' (v * fst p)%Q (snd p)
      | _ => Some (v, ts)
      end
    end
  with p_factor (n : nat) (ts : list tok) : option (Q * list tok) :=
    match n with
    | 0 => None
    | S n' =>
      match ts with
      | TMinus :: r => do p <- p_factor n' r; Some (Qopp (fst p), snd p)
      | _ =>
        do p <- p_atom n' ts;
        match snd p with
        | TPow :: r => do e <- p_factor n' r; do v <- qpow (fst p) (fst e); Some (v, snd e)
        | _ => Some p
        end
      end
    end
  with p_atom (n : nat) (ts : list tok) : option (Q * list tok) :=
    match n with
    | 0 => None
    | S n' =>
      match ts with
      | TWord x :: r => do v <- read x; Some (v, r)
      | TL :: r =>
        do p <- p_expr n' r;
        match snd p with
        | TR :: r' => Some (fst p, r')
        | _ => None
        end
      | _ => None
      end
    end.

  (** Python's [eval(text, {}, {})]. *)
  Definition eval_text (ts : list tok) : option Q :=
    let l := lex ts in
    match p_expr (8 * length l + 8) l with
    | Some (v, []) => Some v
    | _ => None
    end.

  (** verse/analysis/verifier.py:1361-1365: substitute the symbols one after the other, then evaluate. *)
  Definition eval_subst (symbols : list word) (comb : list Q) (ts : list tok) : option Q :=
    eval_text (fold_left (fun t p => replace_text (fst p) (show (snd p)) t) (combine symbols comb) ts).
End Text.
