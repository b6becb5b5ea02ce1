(** The tree of results: verse/analysis/analysis_tree.py 91-171, 262-316, 532-571 (contains is in Contains.v). *)
From Coq Require Import Ascii String.
From Verif Require Import Base Dict PyText Guard.
Set Implicit Arguments.
Open Scope nat_scope.

(** A node with its child list; [A] is everything else in the node (analysis_tree.py 91-119). *)
Inductive tree (A : Type) := Node (a : A) (ch : list (tree A)).
Arguments Node {A}.

Section Tree.
  Variable A : Type.
  Notation tree := (tree A).
  Definition content (t : tree) : A := match t with Node a _ => a end.
  Definition child (t : tree) : list tree := match t with Node _ ch => ch end.

  Fixpoint size (t : tree) : nat := match t with Node _ ch => S (list_sum (map size ch)) end.

  (** AnalysisTree._get_all_nodes, analysis_tree.py 270-281.  The loop runs once per node; [fuel] bounds it and None
      means that it did not end within the bound. *)
  Fixpoint bfs (fuel : nat) (queue : list tree) : option (list tree) :=
    match queue with
    | [] => Some []
    | node :: q =>
      match fuel with
      | 0 => None
      | S f => do res <- bfs f (q ++ child node); Some (node :: res)
      end
    end.
  Definition nodes (root : tree) : option (list tree) := bfs (size root) [root].

  Definition is_leaf (t : tree) : bool := length (child t) =? 0.
  (** leaves, analysis_tree.py 532-538, on tree.nodes *)
  Definition leaves (ns : list tree) : nat := fold_left (fun count n => if is_leaf n then count + 1 else count) ns 0.

  (** get_leaf_nodes / collect_leaf_nodes, analysis_tree.py 541-552 *)
  Fixpoint get_leaf_nodes (t : tree) : list tree :=
    match t with Node a ch => (if length ch =? 0 then [t] else []) ++ flat_map get_leaf_nodes ch end.

  (** height, analysis_tree.py 555-560 *)
  Fixpoint height (t : tree) : nat :=
    match t with Node _ ch => match ch with [] => 1 | _ => 1 + list_max (map height ch) end end.
End Tree.

(** ** dump and load, analysis_tree.py 173-199, 226-246, 283-316 *)
(** str of an integer *)
Definition decz (z : Z) : word :=
  match z with
  | Z0 => dec 0
  | Zpos p => dec (Pos.to_nat p)
  | Zneg p => "-"%char :: dec (Pos.to_nat p)
  end.

Section Dump.
  (** A node's contents: its id, the rest of what _to_dict writes ([B]), and the agents, of which only a description of
      the class ([G] from [Ag]) is written (190-193). *)
  Variables B Ag G : Type.
  Variable describe : Ag -> G.
  Record item (X : Type) := mk_item { i_id : Z; i_body : B; i_agent : X }.
  Arguments mk_item {X}. Arguments i_id {X}. Arguments i_body {X}. Arguments i_agent {X}.
  (** One entry of the file.  Simplification: the JSON text of the body is the body itself (numbers, strings, lists and
      dictionaries with string keys survive json.dump and json.load; tuples become lists). *)
  Record entry := mk_entry { n_item : item G; n_parent : option Z; n_child : list Z }.
  Definition to_dict (parent : option Z) (a : item Ag) : entry :=
    mk_entry (mk_item (i_id a) (i_body a) (describe (i_agent a))) parent [].

  (** The loop over the children of a node, 291-296.  None: KeyError. *)
  Fixpoint dump_children (pid : Z) (ch : list (tree (item Ag))) (res : dict Z entry) : option (dict Z entry) :=
    match ch with
    | [] => Some res
    | c :: r =>
      let res1 := dset Z.eqb (i_id (content c)) (to_dict (Some pid) (content c)) res in
      do e <- dget Z.eqb pid res1;
      dump_children pid r (dset Z.eqb pid (mk_entry (n_item e) (n_parent e) (n_child e ++ [i_id (content c)])) res1)
    end.
  Fixpoint dump_loop (fuel : nat) (queue : list (tree (item Ag))) (res : dict Z entry) : option (dict Z entry) :=
    match queue with
    | [] => Some res
    | parent :: q =>
      match fuel with
      | 0 => None
      | S f => do res' <- dump_children (i_id (content parent)) (child parent) res; dump_loop f (q ++ child parent) res'
      end
    end.
  (** dump, 283-299: in the file the keys are the ids in decimal (json.dump). *)
  Definition dump (root : tree (item Ag)) : option (dict word entry) :=
    do res <- dump_loop (size root) [root] [(i_id (content root), to_dict None (content root))];
    Some (map (fun p => (decz (fst p), snd p)) res).

  (** load, 301-316.  Nodes are objects: the heap lists for each object its contents and its children.  A new object gets
      the next number. *)
  Notation object := (item G * list nat)%type.
  Fixpoint load_children (data : dict word entry) (po : nat) (ids : list Z) (heap : list object) (queue : list (entry * nat))
    : option (list object * list (entry * nat)) :=
    match ids with
    | [] => Some (heap, queue)
    | c :: r =>
      do e <- dget word_eqb (decz c) data;
      let o := length heap in
      let heap1 := heap ++ [(n_item e, [])] in
      do p <- nth_error heap1 po;
      load_children data po r (set_nth po (fst p, snd p ++ [o]) heap1) (queue ++ [(e, o)])
    end.
  Fixpoint load_loop (fuel : nat) (data : dict word entry) (queue : list (entry * nat)) (heap : list object) : option (list object) :=
    match queue with
    | [] => Some heap
    | (e, o) :: q =>
      match fuel with
      | 0 => None
      | S f => do hq <- load_children data o (n_child e) heap q; load_loop f data (snd hq) (fst hq)
      end
    end.
  (** The root object is number 0. *)
  Definition load (fuel : nat) (data : dict word entry) : option (list object) :=
    do e <- dget word_eqb (decz 0%Z) data;
    load_loop fuel data [(e, 0)] [(n_item e, [])].
End Dump.
Arguments mk_item {B X}. Arguments i_id {B X}. Arguments i_body {B X}. Arguments i_agent {B X}.

(** ** first_transitions, analysis_tree.py 562-571 *)
Section First.
  (** A node: the mode of each agent, the start time. *)
  Variables Md : Type.
  Variable md_eqb : Md -> Md -> bool.
  Record tnode := mk_tnode { t_mode : dict nat Md; t_start : Q }.
  (** The agents of a node are those that have a mode.  None: KeyError for an agent the child does not have. *)
  Definition ft_agent (m c : tnode) (d : option (dict nat Q)) (aid : nat) : option (dict nat Q) :=
    do d <- d;
    if dmem Nat.eqb aid d then Some d
    else do x <- dget Nat.eqb aid (t_mode m); do y <- dget Nat.eqb aid (t_mode c);
         if md_eqb x y then Some d else Some (dset Nat.eqb aid (t_start c) d).
  Definition ft_child (m : tree tnode) (d : option (dict nat Q)) (c : tree tnode) : option (dict nat Q) :=
    fold_left (ft_agent (content m) (content c)) (map fst (t_mode (content m))) d.
  Definition ft_node (d : option (dict nat Q)) (n : tree tnode) : option (dict nat Q) := fold_left (ft_child n) (child n) d.
  Definition first_transitions (root : tree tnode) : option (dict nat Q) :=
    do ns <- nodes root; fold_left ft_node ns (Some []).
End First.
