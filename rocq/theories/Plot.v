(** The static plots: verse/plotter/plotter2D.py [reachtube_tree], [reachtube_tree_single], [reachtube_tree_slice],
    [reachtube_tree_single_slice], [simulation_tree], [simulation_tree_single], [sample_trace], [check_dim],
    [get_text_pos].

    Simplifications: numbers are rationals; a plotted state is a row of numbers, time first.  A figure is the list of
    the traces added to it, in order, and the ranges of its two axes; of a trace only what kind of mark it is, its
    points, its texts and its colours are kept (not legends, sizes, hover texts).  What [draw_map] adds is a
    parameter ([lanes]).  Dimensions, sample rates and [combine_rect] are natural numbers.  Loops that only read the tree are folds over
    the breadth-first list of nodes ([bfs], the order of [queue.pop(0)] and [queue += node.child]).  An exception is [None]. *)
From Coq Require Import Ascii String.
From Verif Require Import Base Dict PyText Tree.
Set Implicit Arguments.
Open Scope nat_scope.

(** analysis_tree.py 27-43: an enumeration that is not a string, so that comparing a member with a string is False. *)
Inductive node_type := SimTrace | ReachTube.
Definition eq_str (t : node_type) (s : word) : bool := false.

(** What is read of a node, analysis_tree.py 46-119. *)
Record pnode := mkp {
  p_trace : dict word (list vec);
  p_mode : dict word (list word);
  p_hits : option (dict word (list word)) }.
(** A root node with its agents (the keys of [root.agent]) and its type. *)
Record ptree := mkt { t_agents : list word; t_type : node_type; t_root : tree pnode }.

Notation pt := (Q * Q)%type.
(** The traces of a figure. *)
Inductive shape :=
| Dot (p : pt) (line : word)                          (** one marker *)
| Filled (path : list pt) (line fill : word)          (** a path with [fill="toself"] *)
| Line (path : list pt) (line : word)                 (** a path *)
| Label (p : pt) (text : word) (line : word)          (** a mode label *)
| Hit (p : pt) (texts : list word)                    (** a violated assertion *)
| Lane (path : list pt).                              (** a part of the map *)
Record figure := mkf { f_shapes : list shape; f_x : option (Q * Q); f_y : option (Q * Q) }.
Definition add (s : shape) (f : figure) : figure := mkf (f_shapes f ++ [s]) (f_x f) (f_y f).
Definition adds (l : list shape) (f : figure) : figure := mkf (f_shapes f ++ l) (f_x f) (f_y f).
(** [go.Figure()] *)
Definition blank : figure := mkf [] None None.

(** ** Colours, plotter2D.py 17-51 *)
Definition colors : list (list word) := map (map w)
  [ ["#CC0000"; "#FF0000"; "#FF3333"; "#FF6666"; "#FF9999"; "#FFCCCC"];
    ["#0000CC"; "#0000FF"; "#3333FF"; "#6666FF"; "#9999FF"; "#CCCCFF"];
    ["#00CC00"; "#00FF00"; "#33FF33"; "#66FF66"; "#99FF99"; "#CCFFCC"];
    ["#CCCC00"; "#FFFF00"; "#FFFF33"; "#FFFF66"; "#FFFF99"; "#FFE5CC"];
    ["#CC00CC"; "#FF00FF"; "#FF33FF"; "#FF66FF"; "#FF99FF"; "#FFCCFF"];
    ["#00CCCC"; "#00FFFF"; "#33FFFF"; "#66FFFF"; "#99FFFF"; "#CCFFE5"];
    ["#CC6600"; "#FF8000"; "#FF9933"; "#FFB266"; "#FFCC99"; "#FFE5CC"];
    ["#00CC00"; "#00FF00"; "#33FF33"; "#66FF66"; "#99FF99"; "#E5FFCC"];
    ["#CC0066"; "#FF007F"; "#FF3399"; "#FF66B2"; "#FF99CC"; "#FFCCE5"] ]%string.
Definition scheme_list : list word := map w
  ["red"; "orange"; "green"; "yellow"; "yellowgreen"; "lime"; "springgreen"; "cyan"; "cyanblue"; "blue"; "purple"; "magenta"; "pink"]%string.
Definition scheme_dict : dict word nat := combine scheme_list (seq 0 13).
Definition num_theme : nat := length colors.
(** [plot_color[scheme_dict[color]][k]] *)
Definition shade (plot_color : list (list word)) (color : word) (k : nat) : option word :=
  do i <- dget word_eqb color scheme_dict; do r <- nth_error plot_color i; nth_error r k.

(** ** Python's range, loops and array access *)
Definition range_by (a b k : nat) : list nat := map (fun i => a + i * k) (seq 0 ((b - a + (k - 1)) / k)).
Definition foldM {A B} (f : B -> A -> option B) : list A -> B -> option B :=
  fix go l b := match l with [] => Some b | a :: l' => do b' <- f b a; go l' b' end.
(** [trace[i][d]] *)
Definition cell (tr : list vec) (i d : nat) : option Q := do r <- nth_error tr i; nth_error r d.
(** [np.array([trace[i][d] for i in idxs])] *)
Definition column (tr : list vec) (d : nat) (idxs : list nat) : option (list Q) := mapM (fun i => cell tr i d) idxs.
Fixpoint zip (xs ys : list Q) : list pt :=
  match xs, ys with x :: xs', y :: ys' => (x, y) :: zip xs' ys' | _, _ => [] end.
(** [len(np.unique(l)) == 1] *)
Definition unique1 (l : list Q) : bool := match l with [] => false | a :: l' => forallb (Qeq_bool a) l' end.
(** [l[-1]], [l[-2]] *)
Definition back (l : list Q) (i : nat) : option Q := nth_error (rev l) (i - 1).

(** ** sample_trace, plotter2D.py 2366-2391.  It changes the tree it is given; nodes are visited in any order.  A step of 0 is
    an exception. *)
Definition take_rows (tr : list vec) (idxs : list nat) : option (list vec) := mapM (nth_error tr) idxs.
Definition sample_tube (tr : list vec) (rate : nat) : option (list vec) :=
  let k := rate * 2 in
  if k =? 0 then None else
  do ls <- mapM (fun i => if i + k - 1 <? length tr then take_rows tr [i; i + k - 1] else Some []) (range_by 0 (length tr) k);
  Some (concat ls).
Definition sample_sim (tr : list vec) (rate : nat) : option (list vec) :=
  if rate =? 0 then None else take_rows tr (range_by 0 (length tr) rate).
Definition on_traces (f : list vec -> option (list vec)) (n : pnode) : option pnode :=
  do d <- mapM (fun kv => do tr <- f (snd kv); Some (fst kv, tr)) (p_trace n); Some (mkp d (p_mode n) (p_hits n)).
Fixpoint treeM {A B} (f : A -> option B) (t : tree A) : option (tree B) :=
  match t with
  | Node a ch =>
    do b <- f a;
    do bs <- (fix go l := match l with [] => Some [] | c :: r => do c' <- treeM f c; do r' <- go r; Some (c' :: r') end) ch;
    Some (Node b bs)
  end.
Definition sample_trace (t : ptree) (rate : nat) : option ptree :=
  do r <- (if eq_str (t_type t) (w "reachtube") then treeM (on_traces (fun tr => sample_tube tr rate)) (t_root t)
           else treeM (on_traces (fun tr => sample_sim tr rate)) (t_root t));
  Some (mkt (t_agents t) (t_type t) r).

(** ** check_dim, plotter2D.py 2265-2275.  [y_dim] is what is checked for every entry of [print_dim_list]. *)
Definition check_dim (num_dim x_dim y_dim : nat) : option unit :=
  if num_dim <=? x_dim then None else if num_dim <=? y_dim then None else Some tt.

(** ** One node of a tube, plotter2D.py 1816-2017 *)
Section Tube.
  Variables (x_dim y_dim : nat) (line fill : word).

  (** The rectangle of rows [i] and [i + 1], 1856-1888 and 1892-1925. *)
  Definition rectangle (tr : list vec) (i : nat) : option shape :=
    do x0 <- cell tr i x_dim; do x1 <- cell tr (i + 1) x_dim; do y0 <- cell tr i y_dim; do y1 <- cell tr (i + 1) y_dim;
    Some (Filled (zip [x0; x1; x1; x0; x0] [y0; y0; y1; y1; y0]) line fill).

  (** One corner added at the end and one at the beginning, 1932-1990. *)
  Definition grows (a b : list Q) : option bool :=
    do a1 <- back a 1; do a2 <- back a 2; do b1 <- back b 1; do b2 <- back b 2;
    Some (Qle_bool a2 a1 && Qle_bool b2 b1).
  Definition x_end_of (xo xe : list Q) : option Q :=
    do g <- grows xo xe; if g then back xe 1 else back xo 1.
  Definition first_le (a b : list Q) : option bool :=
    do a0 <- nth_error a 0; do a1 <- nth_error a 1; do b0 <- nth_error b 0; do b1 <- nth_error b 1;
    Some (Qle_bool a0 a1 && Qle_bool b0 b1).
  Definition first_ge (a b : list Q) : option bool :=
    do a0 <- nth_error a 0; do a1 <- nth_error a 1; do b0 <- nth_error b 0; do b1 <- nth_error b 1;
    Some (Qle_bool a1 a0 && Qle_bool b1 b0).
  Definition x_start_of (xo xe : list Q) : option Q :=
    do g <- first_ge xo xe; if g then nth_error xe 0 else nth_error xo 0.
  Definition ends_of (xo xe yo ye : list Q) : option pt :=
    do x <- x_end_of xo xe;
    do g <- grows yo ye;
    if g then do y <- back ye 1; do gx <- grows xo xe; if gx then do x' <- back xo 1; Some (x', y) else Some (x, y)
    else do y <- back yo 1; Some (x, y).
  Definition starts_of (xo xe yo ye : list Q) : option pt :=
    do x <- x_start_of xo xe;
    do g <- first_ge yo ye;
    if g then do y <- nth_error ye 0; Some (x, y)
    else do l <- first_le yo ye;
         if l then do y <- nth_error yo 0; do lx <- first_le xo xe; if lx then do x' <- nth_error xe 0; Some (x', y) else Some (x, y)
         else do y <- nth_error ye 0; Some (x, y).
  Definition combined (xo xe yo ye : list Q) : option shape :=
    do e <- ends_of xo xe yo ye; do s <- starts_of xo xe yo ye; do x0 <- nth_error xo 0; do y0 <- nth_error yo 0;
    Some (Filled (zip (xo ++ [fst e] ++ rev xe ++ [fst s] ++ [x0]) (yo ++ [snd e] ++ rev ye ++ [snd s] ++ [y0])) line fill).
  (** One group of rectangles, 1889-2017; [max_id] is the number of rows of the group. *)
  Definition group (seg : list vec) : option shape :=
    let m := length seg in
    if m <=? 2 then rectangle seg 0
    else
      do xo <- column seg x_dim (range_by 0 m 2); do xe <- column seg x_dim (range_by 1 (m + 1) 2);
      do yo <- column seg y_dim (range_by 0 m 2); do ye <- column seg y_dim (range_by 1 (m + 1) 2);
      combined xo xe yo ye.
  (** The whole node as one outline, 1835-1854. *)
  Definition outline (tr : list vec) : option shape :=
    let m := length tr - 1 in
    do xo <- column tr x_dim (range_by 0 m 2); do xe <- column tr x_dim (range_by 1 (m + 1) 2);
    do yo <- column tr y_dim (range_by 0 m 2); do ye <- column tr y_dim (range_by 1 (m + 1) 2);
    do x0 <- nth_error xo 0; do y0 <- nth_error yo 0;
    Some (Filled (zip (xo ++ rev xe ++ [x0]) (yo ++ rev ye ++ [y0])) line fill).
  (** 1816-1834: the test for a node that stands still leaves out the last row. *)
  Definition still (tr : list vec) : option bool :=
    do xs <- column tr x_dim (range_by 0 (length tr - 1) 1); do ys <- column tr y_dim (range_by 0 (length tr - 1) 1);
    Some (unique1 xs && unique1 ys).
  Definition tube_shapes (combine_rect : option nat) (tr : list vec) : option (list shape) :=
    do s <- still tr;
    if s then do x <- cell tr 0 x_dim; do y <- cell tr 0 y_dim; Some [Dot (x, y) line]
    else match combine_rect with
         | None => do s <- outline tr; Some [s]
         | Some k =>
           if k <=? 1 then mapM (rectangle tr) (range_by 0 (length tr) 2)
           else mapM (fun i => group (firstn (k * 2) (skipn i tr))) (range_by 0 (length tr) (k * 2))
         end.
End Tube.

(** ** reachtube_tree_single, plotter2D.py 1785-2019: the loop ends at the first node without the agent. *)
Definition each_node (t : tree pnode) (a : word) (f : list vec -> option (list shape)) : option (list shape) :=
  do ns <- nodes t;
  (fix go l := match l with
               | [] => Some []
               | n :: l' =>
                 match dget word_eqb a (p_trace (content n)) with
                 | None => Some []
                 | Some tr => do s <- f tr; do r <- go l'; Some (s ++ r)
                 end
               end) ns.
Definition reachtube_tree_single (t : tree pnode) (a : word) (x_dim y_dim : nat) (color : word) (combine_rect : option nat)
    (plot_color : list (list word)) (fig : figure) : option figure :=
  do fill <- shade plot_color color 1; do line <- shade plot_color color 0;
  do l <- each_node t a (tube_shapes x_dim y_dim line fill combine_rect);
  Some (adds l fig).

(** ** The colour of agent number [i], plotter2D.py 515-528 *)
Definition scheme_of (i : nat) : option word := nth_error scheme_list (i mod num_theme).

(** ** Labels and axis ranges, plotter2D.py 529-585 (reachtube_tree), 113-167 (simulation_tree) *)
Definition text_of (mode : word) : word :=
  if word_eqb mode (w "Normal") then w "N" else if word_eqb mode (w "Brake") then w "B"
  else if word_eqb mode (w "Accelerate") then w "A" else if word_eqb mode (w "SwitchLeft") then w "SL"
  else if word_eqb mode (w "SwitchRight") then w "SR" else if word_eqb mode (w "Stop") then w "S" else mode.
(** [min(m, ...)] where [None] is [float("inf")], and [max] *)
Definition omin (m : option Q) (q : Q) : option Q := Some (match m with None => q | Some p => if Qle_bool p q then p else q end).
Definition omax (m : option Q) (q : Q) : option Q := Some (match m with None => q | Some p => if Qle_bool q p then p else q end).
Record acc := mka { a_prev : dict word (list word); a_lo : option Q * option Q; a_hi : option Q * option Q; a_new : list shape }.
Definition index (a : word) (l : list word) : option nat :=
  (fix go i l := match l with [] => None | b :: l' => if word_eqb a b then Some i else go (S i) l' end) 0 l.
(** [str(agent_id) + ": " + text] *)
Definition caption (a mode : word) : word := a ++ w ": " ++ text_of mode.
Definition hit_text (s : word) : word := (w "HIT:" ++ [ascii_of_nat 10]) ++ s.

Section Marks.
  Variables (agents : list word) (x_dim y_dim : nat) (label_mode : bool) (plot_color : list (list word)).
  (** Where the marks of the violated assertions are drawn: in reachtube_tree only with labels (560), in simulation_tree
      always (144). *)
  Variable hits_need_labels : bool.

  (** One trace of a node; an empty trace is an exception ([min] of an empty sequence). *)
  Definition mark (n : pnode) (s : acc) (kv : word * list vec) : option acc :=
    let (a, tr) := kv in
    do xs <- column tr x_dim (seq 0 (length tr)); do ys <- column tr y_dim (seq 0 (length tr));
    do x0 <- nth_error xs 0; do y0 <- nth_error ys 0;
    do xl <- back xs 1; do yl <- back ys 1;
    do i <- index a agents;
    do c <- (do r <- nth_error plot_color (i mod num_theme); nth_error r 0);
    do lab <- (if label_mode then
                 do p <- dget word_eqb a (a_prev s); do m <- dget word_eqb a (p_mode n);
                 if list_eqb word_eqb p m then Some (a_prev s, [])
                 else do m0 <- nth_error m 0; Some (dset word_eqb a m (a_prev s), [Label (x0, y0) (caption a m0) c])
               else Some (a_prev s, []));
    let hit := match p_hits n with
               | Some h => match dget word_eqb a h with
                           | Some texts => if hits_need_labels && negb label_mode then [] else [Hit (xl, yl) (map hit_text texts)]
                           | None => []
                           end
               | None => []
               end in
    Some (mka (fst lab) (fold_left omin xs (fst (a_lo s)), fold_left omin ys (snd (a_lo s)))
              (fold_left omax xs (fst (a_hi s)), fold_left omax ys (snd (a_hi s))) (a_new s ++ snd lab ++ hit)).
  Definition marks (t : tree pnode) : option acc :=
    do ns <- nodes t;
    foldM (fun s n => foldM (mark (content n)) (p_trace (content n)) s) ns
      (mka (map (fun kv => (fst kv, [])) (p_mode (content t))) (None, None) (None, None) []).
  (** [[lo - 0.25 * (hi - lo), hi + 0.25 * (hi - lo)]], 578-584 *)
  Definition widen (lo hi : option Q) : option (Q * Q) :=
    match lo, hi with Some l, Some h => Some ((l - (1 # 4) * (h - l))%Q, (h + (1 # 4) * (h - l))%Q) | _, _ => None end.
End Marks.

(** The number of dimensions of the first agent's trace, 509-512. *)
Definition num_dim_of (t : ptree) : option nat :=
  do a <- nth_error (t_agents t) 0; do tr <- dget word_eqb a (p_trace (content (t_root t))); do r <- nth_error tr 0; Some (length r).
Definition scaled (scale : bool) (s : acc) (f : figure) : figure :=
  let f' := adds (a_new s) f in
  if scale then mkf (f_shapes f') (widen (fst (a_lo s)) (fst (a_hi s))) (widen (snd (a_lo s)) (snd (a_hi s))) else f'.

(** ** reachtube_tree, plotter2D.py 481-586.  [scale] is [scale_type == "trace"], [labels] is [label_mode != "None"]; the results are
    the tree, as changed by [sample_trace], and the figure. *)
Definition reachtube_tree (t : ptree) (lanes : list shape) (fig : figure) (x_dim y_dim : nat) (scale labels : bool)
    (sample_rate : nat) (combine_rect : option nat) (plot_color : list (list word)) : option (ptree * figure) :=
  do t' <- sample_trace t sample_rate;
  let fig := adds lanes fig in
  do num_dim <- num_dim_of t';
  do _ <- check_dim num_dim x_dim y_dim;
  do fig <- foldM (fun f ia => do c <- scheme_of (fst ia);
                    reachtube_tree_single (t_root t') (snd ia) x_dim y_dim c combine_rect plot_color f)
              (combine (seq 0 (length (t_agents t'))) (t_agents t')) fig;
  do s <- marks (t_agents t') x_dim y_dim labels plot_color true (t_root t');
  Some (t', scaled scale s fig).

(** ** simulation_tree_single, plotter2D.py 2022-2089: [return] at the first node without the agent; the shade changes
    from node to node. *)
Definition sim_shapes (x_dim y_dim : nat) (line : word) (tr : list vec) : option shape :=
  do xs <- column tr x_dim (seq 0 (length tr)); do ys <- column tr y_dim (seq 0 (length tr));
  do _ <- nth_error tr 0;
  Some (Line (zip xs ys) line).
Definition simulation_tree_single (t : tree pnode) (a : word) (x_dim y_dim : nat) (color : word) (plot_color : list (list word))
    (fig : figure) : option figure :=
  do ns <- nodes t;
  do l <- (fix go l color_id :=
             match l with
             | [] => Some []
             | n :: l' =>
               match dget word_eqb a (p_trace (content n)) with
               | None => Some []
               | Some tr =>
                 do c <- shade plot_color color color_id;
                 do s <- sim_shapes x_dim y_dim c tr; do r <- go l' ((color_id + 4) mod 5); Some (s :: r)
               end
             end) ns 0;
  Some (adds l fig).

(** ** simulation_tree, plotter2D.py 61-170; labels take their colour from [colors]. *)
Definition simulation_tree (t : ptree) (lanes : list shape) (fig : figure) (x_dim y_dim : nat) (scale labels : bool)
    (sample_rate : nat) (plot_color : list (list word)) : option (ptree * figure) :=
  do t' <- sample_trace t sample_rate;
  let fig := adds lanes fig in
  do num_dim <- num_dim_of t';
  do _ <- check_dim num_dim x_dim y_dim;
  do fig <- foldM (fun f ia => do c <- scheme_of (fst ia);
                    simulation_tree_single (t_root t') (snd ia) x_dim y_dim c plot_color f)
              (combine (seq 0 (length (t_agents t'))) (t_agents t')) fig;
  do s <- marks (t_agents t') x_dim y_dim labels colors false (t_root t');
  Some (t', scaled scale s fig).

(** ** reachtube_tree_single_slice, plotter2D.py 2555-2795.  [t_upper] None is infinity. *)
Definition until (t_upper : option Q) (q : Q) : bool := match t_upper with None => true | Some u => Qle_bool q u end.
Section Slice.
  Variables (x_dim y_dim : nat) (line fill : word) (t_lower : Q) (t_upper : option Q).

  (** [[seg[i][d] for i in idxs if trace[i][0] >= t_lower and trace[i+1][0] <= t_upper]] *)
  Definition column_if (tr seg : list vec) (d : nat) (idxs : list nat) : option (list Q) :=
    do ls <- mapM (fun i => do t0 <- cell tr i 0;
                     if Qle_bool t_lower t0 then do t1 <- cell tr (i + 1) 0; if until t_upper t1 then do v <- cell seg i d; Some [v] else Some []
                     else Some []) idxs;
    Some (concat ls).
  (** 2638-2672 *)
  Fixpoint slice_rects (tr : list vec) (idxs : list nat) : option (list shape) :=
    match idxs with
    | [] => Some []
    | i :: idxs' =>
      do t0 <- cell tr i 0;
      if negb (Qle_bool t_lower t0) then slice_rects tr idxs'
      else do t1 <- cell tr (i + 1) 0;
           if negb (until t_upper t1) then Some []
           else do s <- rectangle x_dim y_dim line fill tr i; do r <- slice_rects tr idxs'; Some (s :: r)
    end.
  (** 2618-2636 *)
  Definition slice_outline (tr : list vec) : option shape :=
    let m := length tr - 1 in
    do xo <- column_if tr tr x_dim (range_by 0 m 2); do xe <- column_if tr tr x_dim (range_by 1 (m + 1) 2);
    do yo <- column_if tr tr y_dim (range_by 0 m 2); do ye <- column_if tr tr y_dim (range_by 1 (m + 1) 2);
    do x0 <- nth_error xo 0; do y0 <- nth_error yo 0;
    Some (Filled (zip (xo ++ rev xe ++ [x0]) (yo ++ rev ye ++ [y0])) line fill).
  (** 2674-2793: the times are read from [trace], not from the group. *)
  Definition slice_group (tr seg : list vec) : option shape :=
    let m := length seg in
    if m <=? 2 then rectangle x_dim y_dim line fill seg 0
    else
      do xo <- column_if tr seg x_dim (range_by 0 m 2); do xe <- column_if tr seg x_dim (range_by 1 (m + 1) 2);
      do yo <- column_if tr seg y_dim (range_by 0 m 2); do ye <- column_if tr seg y_dim (range_by 1 (m + 1) 2);
      combined line fill xo xe yo ye.
  Definition slice_shapes (combine_rect : option nat) (tr : list vec) : option (list shape) :=
    do s <- still x_dim y_dim tr;
    if s then do x <- cell tr 0 x_dim; do y <- cell tr 0 y_dim; Some [Dot (x, y) line]
    else match combine_rect with
         | None => do s <- slice_outline tr; Some [s]
         | Some k =>
           if k <=? 1 then slice_rects tr (range_by 0 (length tr) 2)
           else mapM (fun i => slice_group tr (firstn (k * 2) (skipn i tr))) (range_by 0 (length tr) (k * 2))
         end.
End Slice.

(** A node without the agent is a KeyError here (2596). *)
Definition reachtube_tree_single_slice (t : tree pnode) (a : word) (x_dim y_dim : nat) (color : word) (combine_rect : option nat)
    (plot_color : list (list word)) (t_lower : Q) (t_upper : option Q) (fig : figure) : option figure :=
  do fill <- shade plot_color color 1; do line <- shade plot_color color 0;
  do ns <- nodes t;
  do ls <- mapM (fun n => do tr <- dget word_eqb a (p_trace (content n)); slice_shapes x_dim y_dim line fill t_lower t_upper combine_rect tr) ns;
  Some (adds (concat ls) fig).

(** ** reachtube_tree_slice, plotter2D.py 2435-2549; [t_lower] defaults to 0, [t_upper] to infinity. *)
Definition reachtube_tree_slice (t : ptree) (lanes : list shape) (fig : figure) (x_dim y_dim : nat) (scale labels : bool)
    (sample_rate : nat) (combine_rect : option nat) (plot_color : list (list word)) (t_lower t_upper : option Q) : option (ptree * figure) :=
  do t' <- sample_trace t sample_rate;
  let fig := adds lanes fig in
  do num_dim <- num_dim_of t';
  do _ <- check_dim num_dim x_dim y_dim;
  let lo := match t_lower with None => 0%Q | Some q => q end in
  do fig <- foldM (fun f ia => do c <- scheme_of (fst ia);
                    reachtube_tree_single_slice (t_root t') (snd ia) x_dim y_dim c combine_rect plot_color lo t_upper f)
              (combine (seq 0 (length (t_agents t'))) (t_agents t')) fig;
  do s <- marks (t_agents t') x_dim y_dim labels plot_color true (t_root t');
  Some (t', scaled scale s fig).

(** ** A session: what is drawn when no figure is given goes to the one default object of the function, plotter2D.py 61-64 and
    481-484 ([fig=go.Figure()] is evaluated once).  Here for reachtube_tree with its default options. *)
Definition plot_call (dflt : figure) (c : ptree * option figure) : option (figure * figure) :=
  do r <- reachtube_tree (fst c) [] (match snd c with Some f => f | None => dflt end) 1 2 true false 1 (Some 1) colors;
  Some (match snd c with Some _ => dflt | None => snd r end, snd r).
