(** Cached analysis of sensor functions: [parse_function_array], [parse_function] and [clear_parse_cache] of
    verse/analysis/parsed_wrap/parser_wrapper.py.

    Simplifications: the analysis of one box ([Piecewise.parse_function]) and [combine_angular_bounds] are parameters.
    The pickle directory is a dictionary from keys to bounds; the history of intermediate bounds that is pickled along
    with them is left out.  Numbers are rationals (no rounding, no inf or nan); the pairs of [input_bounds] are pairs. *)
From Coq Require Import QArith.Qminmax.
From Verif Require Import Base PyText Dict Piecewise.
Set Implicit Arguments.
Open Scope nat_scope.

Section ParseArray.
  (** The options [piecewise_functions], [track_mode], [track_map]. *)
  Variable O : Type.
  Variable analyse : O -> func -> bounds -> option bounds.
  Variable merge : list (list (Q * Q)) -> list (Q * Q).
  (** Keys.  [get_cache_key], parser_wrapper.py:19-23, hashes the text of the bounds and the function's name;
      [pkey] is the key of bounds made of numpy numbers, whose text differs from that of Python floats. *)
  Variable K : Type.
  Variable keqb : K -> K -> bool.
  Variable key pkey : bounds -> word -> K.

  Definition store : Type := dict K bounds.

  (** The dictionary built from argument names and intervals, parser_wrapper.py:74-76, 90-93 and 112-114. *)
  Definition named (names : list word) (bs : list (Q * Q)) : bounds :=
    fold_left (fun d xb => dset word_eqb (fst xb) [snd xb] d) (combine names bs) [].

  (** [parse_function], parser_wrapper.py:138-205, with the key of its bounds. *)
  Definition parse_cached (o : O) (st : store) (f : func) (cur : bounds) (k : K) (cache parent_cache : bool) : option (store * bounds) :=
    match dget keqb k st with
    | Some b => Some (st, b)
    | None =>
      do r <- analyse o f cur;
      Some (if cache && negb parent_cache then dset keqb k r st else st, r)
    end.

  (** [np.linspace(min_val, max_val, num_splits + 1)] and the pairs of neighbours, parser_wrapper.py:97-105. *)
  Definition split_point (lo hi : Q) (n i : nat) : Q :=
    if i =? n then hi else (lo + inject_Z (Z.of_nat i) * ((hi - lo) / inject_Z (Z.of_nat n)))%Q.
  Definition splits (n : nat) (b : Q * Q) : list (Q * Q) :=
    if Qeq_bool (fst b) (snd b) then [b]
    else map (fun i => (split_point (fst b) (snd b) n i, split_point (fst b) (snd b) n (S i))) (seq 0 n).

  (** The union over the pieces, parser_wrapper.py:119-129. *)
  Definition union_var (all : list bounds) (x : word) : option (list (Q * Q)) :=
    do bl <- mapM (fun cb => dget word_eqb x cb) all;
    if existsb (fun l => 1 <? length l) bl then Some (merge bl)
    else
      do b0 <- mapM (@hd_error (Q * Q)) bl;
      do mn <- Qfold Qmin (map fst b0);
      do mx <- Qfold Qmax (map snd b0);
      Some [(mn, mx)].
  Definition union_all (all : list bounds) : option bounds :=
    do first <- hd_error all;
    mapM (fun xl => do l <- union_var all (fst xl); Some (fst xl, l)) first.

  (** A result: the pair returned by [parse_function] or the bounds alone. *)
  Inductive answer := Pair (b : bounds) | Only (b : bounds).
  Definition answer_bounds (a : answer) : bounds := match a with Pair b => b | Only b => b end.

  (** [parse_function_array], parser_wrapper.py:32-135. *)
  Definition parse_array (o : O) (st : store) (f : func) (input : list (Q * Q)) (cache : bool) (n : nat) : option (store * answer) :=
    if negb (length input =? length (params f)) then None
    else if existsb (fun b => negb (Qle_bool (fst b) (snd b))) input then None
    else
      let cur := named (params f) input in
      let k := key cur (fname f) in
      match dget keqb k st with
      | Some b => Some (st, Only b)
      | None =>
        if n =? 1 then do r <- parse_cached o st f cur k cache false; Some (fst r, Pair (snd r))
        else
          do all <- mapM (fun sb =>
              let c := named (params f) sb in
              do r <- parse_cached o st f c (pkey c (fname f)) cache true;
              Some (snd r)) (product (map (splits n) input));
          do u <- union_all all;
          Some (if cache then dset keqb k u st else st, Only u)
      end.

  (** What users do with the module: call the analysis or empty the cache ([clear_parse_cache],
      parser_wrapper.py:25-30).  A call that raises leaves the cache alone. *)
  Inductive event :=
  | Call (o : O) (f : func) (input : list (Q * Q)) (cache : bool) (n : nat)
  | Clear.
  Definition step (st : store) (e : event) : store * option answer :=
    match e with
    | Call o f input cache n =>
      match parse_array o st f input cache n with Some (st', a) => (st', Some a) | None => (st, None) end
    | Clear => ([], None)
    end.
  Fixpoint steps (st : store) (es : list event) : store * list (option answer) :=
    match es with
    | [] => (st, [])
    | e :: es' =>
      let (st', a) := step st e in
      let (st'', l) := steps st' es' in
      (st'', a :: l)
    end.
End ParseArray.
Arguments Clear {O}.
