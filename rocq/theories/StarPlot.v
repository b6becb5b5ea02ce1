(** Plots of star sets: verse/plotter/plotterStar.py, and [get_verts] and [maximize] of verse/stars/starset.py.

    The 100 pairs (cos a, sin a) of [get_verts] are a parameter.  scipy's linprog is a parameter.  A plot is the list of the paths
    drawn, each with the number of its colour.  An exception is [None]. *)
From Coq Require Import Ascii String.
From Verif Require Import Base Dict PyText Tree Plot Star.
Set Implicit Arguments.
Open Scope nat_scope.

(** [l[i] = v] *)
Fixpoint put (l : vec) (i : nat) (v : Q) : option vec :=
  match l, i with
  | [], _ => None
  | _ :: l', 0 => Some (v :: l')
  | a :: l', S i' => do r <- put l' i' v; Some (a :: r)
  end.

Section StarPlot.
  Variable linprog : bool -> vec -> list vec -> vec -> lp.
  Variable circle : list (Q * Q).                    (** [(np.cos(angle), np.sin(angle)) for angle in np.linspace(0, 2*np.pi, 100)] *)

  (** [row @ m] for a matrix of one row *)
  Definition row_times (row : vec) (m : list vec) : option vec := do r <- matmul [row] m; hd_error r.
  (** starset.py:463-491; [res.x] is [None] unless the program was solved *)
  Definition maximize (s : star) (direction : vec) : option vec :=
    let opt_direction := vopp direction in
    do domain_direction <- row_times opt_direction (basis s);
    do res <- run_lp linprog true domain_direction (C s) (g s);
    match res with
    | Optimal x => do p <- row_times x (basis s); Some (vadd (center s) p)
    | _ => None
    end.

  (** starset.py:430-436.  Simplification: both dimensions are given, or none is. *)
  Definition direction (s : star) (dims : option (nat * nat)) (cs : Q * Q) : option vec :=
    match dims with
    | None => Some ([fst cs; snd cs] ++ repeat 0%Q (length (center s) - 2))
    | Some (d1, d2) => do v <- put (repeat 0%Q (dim s)) d1 (fst cs); put v d2 (snd cs)
    end.
  (** starset.py:412-460 *)
  Definition get_verts (s : star) (dims : option (nat * nat)) : option (vec * vec) :=
    let d := match dims with None => (0, 1) | Some d => d end in
    do pts <- mapM (fun cs =>
      do dir <- direction s dims cs;
      do pt <- maximize s dir;
      do x <- nth_error pt (fst d);
      do y <- nth_error pt (snd d);
      Some (x, y)) circle;
    do p0 <- hd_error pts;
    Some (map fst pts ++ [fst p0], map snd pts ++ [snd p0]).

  (** The traces of a node, rows of a time and a star; [root.agent.keys()], [root.type] and the root. *)
  Notation snode := (dict word (list (Q * star))).
  Record stree := mkst { s_agents : list word; s_type : node_type; s_root : tree snode }.
  (** plotterStar.py:79-107; the first branch is for a type that equals a string, which no type does ([eq_str] in Plot.v).  It
      changes the tree.  A step of 0 is an exception. *)
  Definition take_every {A} (l : list A) (rate : nat) : option (list A) :=
    if rate =? 0 then None else mapM (nth_error l) (range_by 0 (length l) rate).
  Definition take_pairs {A} (l : list A) (rate : nat) : option (list A) :=
    let k := rate * 2 in
    if k =? 0 then None else
    do ls <- mapM (fun i => if i + k - 1 <? length l then mapM (nth_error l) [i; i + k - 1] else Some []) (range_by 0 (length l) k);
    Some (concat ls).
  Definition sample_stars (t : stree) (rate : nat) : option stree :=
    let f := if eq_str (s_type t) (w "reachtube") then fun l : list (Q * star) => take_pairs l rate else fun l => take_every l rate in
    do r <- treeM (fun n : snode => mapM (fun kv => do tr <- f (snd kv); Some (fst kv, tr)) n) (s_root t);
    Some (mkst (s_agents t) (s_type t) r).

  (** plotterStar.py:54-75: the children of a node are visited only if the agent has a trace there.  The loop runs at most once
      per node; [fuel] bounds it.  [x_dim] and [y_dim] are not used. *)
  Fixpoint draw_agent (fuel : nat) (queue : list (tree snode)) (agent : word) (x_dim y_dim : nat) : option (list (vec * vec)) :=
    match queue with
    | [] => Some []
    | node :: q =>
      match fuel with
      | 0 => None
      | S f =>
        match dget word_eqb agent (content node) with
        | Some tr => do ps <- mapM (fun r => get_verts (snd r) None) tr; do rest <- draw_agent f (q ++ child node) agent x_dim y_dim; Some (ps ++ rest)
        | None => draw_agent f q agent x_dim y_dim
        end
      end
    end.
  (** plotterStar.py:14-37; returns the tree, as changed by the sampling, and what is drawn: colour [i % 7] and path. *)
  Definition plot_reachtube_stars (t : stree) (x_dim y_dim filter : nat) : option (stree * list (nat * (vec * vec))) :=
    do t' <- sample_stars t filter;
    do ls <- mapM (fun ia => do ps <- draw_agent (size (s_root t')) [s_root t'] (snd ia) x_dim y_dim; Some (map (fun p => (fst ia mod 7, p)) ps))
                  (combine (seq 0 (length (s_agents t'))) (s_agents t'));
    Some (t', concat ls).
End StarPlot.
