(** Pictures of the tree of results: AnalysisTree.visualize and visualize_dot, verse/analysis/analysis_tree.py 452-523.

    Simplifications: a trace is the number of its rows; colours are the weight of the second colour (blue) in
    [_color_interp]; the layout of the picture, its labels and tooltips other than those of the edges, and fonts are left
    out.  The texts joined for an edge are kept as a list. *)
From Coq Require Import Ascii String.
From Verif Require Import Base Dict PyText Guard Tree.
Set Implicit Arguments.
Open Scope nat_scope.

(** analysis_tree.py 91-119 *)
Record vnode := mk_vnode { v_id : Z; v_start : Q; v_rows : list nat; v_agents : list word; v_mode : dict word (list word) }.
Notation vtree := (tree vnode).
Definition vid (t : vtree) : Z := v_id (content t).

(** _get_len, 453-458: the number of rows of the longest branch below the node.  None: a node without traces. *)
Fixpoint get_len (t : vtree) (lens : dict Z nat) : option (nat * dict Z nat) :=
  match t with
  | Node a ch =>
    do first <- nth_error (v_rows a) 0;
    do r <- (fix go (ch : list vtree) (m : nat) (lens : dict Z nat) : option (nat * dict Z nat) :=
               match ch with
               | [] => Some (m, lens)
               | c :: ch' => do r <- get_len c lens; go ch' (Nat.max m (fst r)) (snd r)
               end) ch 0 lens;
    let res := first + fst r in
    Some (res, dset Z.eqb (v_id a) res (snd r))
  end.

(** lens[id] / total_len; None: KeyError or ZeroDivisionError *)
Definition mix (lens : dict Z nat) (total : nat) (i : Z) : option Q :=
  do l <- dget Z.eqb i lens;
  if total =? 0 then None else Some (inject_Z (Z.of_nat l) / inject_Z (Z.of_nat total))%Q.

(** A graph of networkx: nodes with their attribute, edges in the order of insertion (undirected, a repeated one is the
    same edge). *)
Record graph := mk_graph { g_nodes : dict Z Q; g_edges : list (Z * Z); g_colors : list Q }.
(** 470-474 *)
Definition add_node (g : dict Z Q * list (Z * Z)) (n : vtree) : dict Z Q * list (Z * Z) :=
  fold_left (fun g c => (dset Z.eqb (vid c) (v_start (content c)) (fst g), snd g ++ [(vid n, vid c)])) (child n)
            (dset Z.eqb (vid n) (v_start (content n)) (fst g), snd g).
(** visualize, 460-481 *)
Definition visualize (root : vtree) : option graph :=
  do r <- get_len root [];
  do ns <- nodes root;
  let g := fold_left add_node ns ([], []) in
  do cs <- mapM (fun kv => mix (snd r) (fst r) (fst kv)) (fst g);
  Some (mk_graph (fst g) (snd g) cs).

(** A file for graphviz: nodes with colours, edges with the agents on their labels and their modes before and after. *)
Record dot := mk_dot { d_nodes : list (Z * Q); d_edges : list (Z * Z * list (word * (list word * list word))) }.
(** diff and the tooltip of the edge, 495-496, 511-512; None: KeyError *)
Definition diff (a b : vnode) : option (list (word * (list word * list word))) :=
  do l <- mapM (fun x => do m <- dget word_eqb x (v_mode a); do m' <- dget word_eqb x (v_mode b); Some (x, (m, m'))) (v_agents a);
  Some (filter (fun p => negb (list_eqb word_eqb (fst (snd p)) (snd (snd p)))) l).
(** visualize_dot, 483-523 *)
Definition visualize_dot (root : vtree) : option dot :=
  do r <- get_len root [];
  do ns <- nodes root;
  do parts <- mapM (fun n =>
      do col <- mix (snd r) (fst r) (vid n);
      do es <- mapM (fun c => do d <- diff (content n) (content c); Some (vid n, vid c, d)) (child n);
      Some ((vid n, col), es)) ns;
  Some (mk_dot (map fst parts) (flat_map snd parts)).
