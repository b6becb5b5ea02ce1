(** What a guard means, for GuardProps.v: evaluating it as Python on a state. *)
From Coq Require Import Ascii String.
From Verif Require Import Base Dict PyText Guard.
Set Implicit Arguments.
Open Scope nat_scope.

Section Sem.
  (** The numbers the state variables range over. *)
  Variable num : Type.
  Variable of_q : Q -> num.
  Variable n_neg : num -> num.
  Variable n_bin : binop -> num -> num -> num.
  Variable n_cmp : cmpop -> num -> num -> bool.
  (** Functions with discrete arguments, and the true lane coordinates of a position. *)
  Variable call : word -> list dval -> option dval.
  Variable coord : bool -> word -> num -> num -> option num.

  Inductive gval := VB (b : bool) | VN (x : num) | VS (s : word).
  Definition of_d (v : dval) : gval := match v with DB b => VB b | DN q => VN (of_q q) | DS s => VS s end.

  (** The constants of the model and the numbers of the state are compared the same way. *)
  Definition numbers_agree : Prop :=
    (forall o a b, n_cmp o (of_q a) (of_q b) = qcmp o a b) /\ (forall q, n_neg (of_q (- q)) = of_q q) /\
    (forall x, n_cmp OLe x x = true).

  (** A state: attributes of objects, plain names, and lists of objects. *)
  Record env := mk_env { e_attr : word -> word -> option gval; e_name : word -> option gval;
                         e_list : word -> option (list (word -> option gval)) }.
  Definition bind (E : env) (x : word) (it : word -> option gval) : env :=
    mk_env (fun o => if word_eqb o x then it else e_attr E o) (e_name E) (e_list E).
  Definition look (E : env) (r : ref) : option gval := match r with RAttr o a => e_attr E o a | RName n => e_name E n end.

  Definition as_bool (v : gval) : option bool := match v with VB b => Some b | _ => None end.
  Definition as_num (v : gval) : option num := match v with VN x => Some x | _ => None end.
  Definition as_str (v : gval) : option word := match v with VS s => Some s | _ => None end.

  (** All of (or one of) the values. *)
  Definition junction (all : bool) (bs : list bool) : bool := if all then forallb id bs else existsb id bs.

  (** The lane a reference gives: the value of a variable, or the physical lane of that (plain) name. *)
  Variable phys : word -> word.
  Definition lane_of (E : env) (r : ref) : option word :=
    match look E r, r with
    | Some (VS s), _ => Some s
    | _, RName n => if existsb (Ascii.eqb "."%char) n then None else Some (phys n)
    | _, RAttr _ _ => None
    end.

  (** The value of a guard.  Every part must have a value of the right type. *)
  Fixpoint geval (E : env) (e : gex) {struct e} : option gval :=
    match e with
    | GBool b => Some (VB b)
    | GNum q => Some (VN (of_q q))
    | GStr s => Some (VS s)
    | GVar r => look E r
    | GNeg a => do v <- geval E a; do x <- as_num v; Some (VN (n_neg x))
    | GNot a => do v <- geval E a; do b <- as_bool v; Some (VB (negb b))
    | GBin o l r => do u <- geval E l; do v <- geval E r; do x <- as_num u; do y <- as_num v; Some (VN (n_bin o x y))
    | GCmp o l r =>
      do u <- geval E l; do v <- geval E r;
      match u, v with
      | VN x, VN y => Some (VB (n_cmp o x y))
      | VS s, VS t => option_map VB (scmp o s t)
      | _, _ => None
      end
    | GBoolOp all es => do vs <- omapg (geval E) es; do bs <- omapg as_bool vs; Some (VB (junction all bs))
    | GCall f args =>
      do vs <- omapg (fun a => match a with
                               | AVar r => do v <- look E r; option_map DS (as_str v)
                               | AStr s => Some (DS s)
                               | ANum q => Some (DN q)
                               end) args;
      option_map of_d (call f vs)
    | GLane lat l px py =>
      do k <- lane_of E l; do u <- look E px; do v <- look E py; do x <- as_num u; do y <- as_num v;
      option_map VN (coord lat k x y)
    | GRed ex body x iter =>
      do items <- e_list E iter;
      do vs <- omapg (fun it => geval (bind E x it) body) items;
      do bs <- omapg as_bool vs;
      Some (VB (junction (negb ex) bs))
    end.

  (** The state given by the values [dd] of the discrete variables and [s] of the continuous variables [keys], all
      known by the text of their names. *)
  Definition value_of (dd : dict word word) (keys : list word) (s : word -> num) (t : word) : option gval :=
    match dget word_eqb t dd with
    | Some v => Some (VS v)
    | None => if existsb (word_eqb t) keys then Some (VN (s t)) else None
    end.
  Definition flat (dd : dict word word) (keys : list word) (s : word -> num) : env :=
    mk_env (fun o a => value_of dd keys s (text (RAttr o a))) (fun n => value_of dd keys s n) (fun _ => None).

  (** Attribute [a] of the [i]-th agent of the list [iter] in the dictionaries. *)
  Definition item_name (iter : word) (i : nat) (a : word) : word := iter ++ w "_" ++ dec i ++ w "." ++ a.
  (** The same state with the lists of agents, of the lengths [len]. *)
  Definition agents (dd : dict word word) (keys : list word) (len : word -> option nat) (s : word -> num) : env :=
    mk_env (e_attr (flat dd keys s)) (e_name (flat dd keys s))
           (fun iter => option_map (fun n => map (fun i a => value_of dd keys s (item_name iter i a)) (seq 0 n)) (len iter)).
  (** The items of the lists also have names. *)
  Definition lists_named (len : word -> option nat) (E : env) : Prop :=
    forall iter items, e_list E iter = Some items ->
      len iter = Some (length items) /\
      forall i it a, nth_error items i = Some it -> e_name E (item_name iter i a) = it a.

  (** [s] is inside the box [cd]. *)
  Definition inside (cd : dict word (num * num)) (s : word -> num) : Prop :=
    forall k lo hi, In (k, (lo, hi)) cd -> n_cmp OLe lo (s k) = true /\ n_cmp OLe (s k) hi = true.

  (** The solver's answers are right: formulas speak about the renamed variables. *)
  Fixpoint nval (keys : list word) (m : word -> num) (e : gex) : option num :=
    match e with
    | GNum q => Some (of_q q)
    | GVar r => Some (m (rename keys (text r)))
    | GNeg a => option_map n_neg (nval keys m a)
    | GBin o l r => do x <- nval keys m l; do y <- nval keys m r; Some (n_bin o x y)
    | _ => None
    end.
  Fixpoint holds (keys : list word) (m : word -> num) (f : form) : option bool :=
    match f with
    | FAtom (GCmp o l r) => do x <- nval keys m l; do y <- nval keys m r; Some (n_cmp o x y)
    | FAtom _ => None
    | FTrue b => Some b
    | FAnd fs => do bs <- omapg (holds keys m) fs; Some (forallb id bs)
    | FOr fs => do bs <- omapg (holds keys m) fs; Some (existsb id bs)
    | FNot f => option_map negb (holds keys m f)
    end.
  Definition solver_right (solve : list word -> form -> dict word (num * num) -> verdict) : Prop :=
    forall keys f bs,
      match solve keys f bs with
      | Sat => exists m, inside bs m /\ holds keys m f = Some true
      | Unsat => forall m, inside bs m -> holds keys m f <> Some true
      | Unknown => True
      end.

  (** A computed interval contains the coordinate of every position in a box. *)
  Definition coord_sound (coord_set : bool -> word -> num * num -> num * num -> option (num * num)) : Prop :=
    forall lat k bx by_ lo hi x y c,
      coord_set lat k bx by_ = Some (lo, hi) -> coord lat k x y = Some c ->
      n_cmp OLe (fst bx) x = true -> n_cmp OLe x (snd bx) = true ->
      n_cmp OLe (fst by_) y = true -> n_cmp OLe y (snd by_) = true ->
      n_cmp OLe lo c = true /\ n_cmp OLe c hi = true.

  (** A dictionary of bounds as the sensor builds it: names with one dot, which stay different when the dot becomes an
      underscore (and from the names the code makes up); no empty interval. *)
  Definition dotted (t : word) : Prop := exists a b, t = a ++ w "." ++ b /\ ~ In "."%char a /\ ~ In "."%char b.
  Record well_named (dd : dict word word) (cd : dict word (num * num)) : Prop := {
    wn_dotted : forall k, In k (map fst cd) -> dotted k;
    wn_dd : forall k, In k (map fst dd) -> dotted k;
    wn_nodup : NoDup (map under (map fst cd ++ map fst dd));
    wn_tmp : forall k, In k (map fst cd ++ map fst dd) -> prefix_of (w "tmp_variable") (under k) = false;
    wn_box : forall k lo hi, In (k, (lo, hi)) cd -> n_cmp OLe lo hi = true }.
End Sem.

(** No lane coordinate occurs in a guard. *)
Fixpoint lane_free (e : gex) : bool :=
  match e with
  | GNeg a | GNot a => lane_free a
  | GBin _ l r | GCmp _ l r => lane_free l && lane_free r
  | GBoolOp _ es => forallb lane_free es
  | GRed _ body _ _ => lane_free body
  | GLane _ _ _ _ => false
  | _ => true
  end.
