(** The animations: verse/plotter/plotter2D.py [reachtube_tree_video], [reachtube_anime], [simulation_anime].

    Simplifications: as in Plot.v; times are rounded to [digits] decimals, and a rounded time is the whole number of units
    of 10^-digits (3 unless time_step is given; [num_digits] is not modelled); the video is the page (.html) or the figure
    alone, not .gif and .mp4; legends, extra traces, the video configuration, sizes, texts and durations are left out (the
    division by the number of frames is kept); of [reachtube_anime] and [simulation_anime] only the frames and the first picture are modelled, not what is
    drawn behind them.  [np.linspace] is exact. *)
From Coq Require Import Ascii String.
From Verif Require Import Base Dict PyText Round Tree Plot.
Set Implicit Arguments.
Open Scope nat_scope.

(** [round(t, digits)] *)
Definition tick (digits : nat) (t : Q) : Z := round_half_even (t * pow10 digits).
(** [sorted] *)
Fixpoint insert (z : Z) (l : list Z) : list Z :=
  match l with [] => [z] | y :: l' => if (z <=? y)%Z then z :: l else y :: insert z l' end.
Definition sorted (l : list Z) : list Z := fold_right insert [] l.
(** [np.linspace(0, n - 1, m, dtype=int)] *)
Definition linspace (n m : nat) : list nat :=
  match m with 0 => [] | 1 => [0] | S m' => map (fun i => i * (n - 1) / m') (seq 0 m) end.
(** 882-898: [times], or [m] of them *)
Definition thin (m : option nat) (times : list Z) : option (list Z) :=
  match m with
  | None => Some times
  | Some m => if m <? length times then mapM (nth_error times) (linspace (length times) m) else Some times
  end.

(** ** reachtube_tree_video, plotter2D.py 765-1065 *)
Notation boxrow := (vec * vec)%type.
Record vacc := mkv { v_timed : dict Z (list (word * boxrow)); v_lo : option Q * option Q; v_hi : option Q * option Q }.
Section Video.
  Variables (x_dim y_dim digits : nat).
  (** 859-873 *)
  Definition video_box (a : word) (tr : list vec) (s : vacc) (i : nat) : option vacc :=
    do lo <- nth_error tr i; do hi <- nth_error tr (i + 1);
    do x0 <- nth_error lo x_dim; do x1 <- nth_error hi x_dim; do y0 <- nth_error lo y_dim; do y1 <- nth_error hi y_dim;
    do t0 <- nth_error lo 0;
    Some (mkv (dappend Z.eqb (tick digits t0) (a, (lo, hi)) (v_timed s))
              (omin (omin (fst (v_lo s)) x0) x1, omin (omin (snd (v_lo s)) y0) y1)
              (omax (omax (fst (v_hi s)) x0) x1, omax (omax (snd (v_hi s)) y0) y1)).
  (** 855-873: traces of fewer than two rows are skipped. *)
  Definition video_trace (s : vacc) (kv : word * list vec) : option vacc :=
    let (a, tr) := kv in
    if length tr <? 2 then Some s else foldM (video_box a tr) (range_by 0 (length tr - 1) 2) s.
  (** 849-874 *)
  Definition video_collect (t : tree pnode) : option vacc :=
    do ns <- nodes t;
    foldM (fun s n => foldM video_trace (p_trace (content n)) s) ns (mkv [] (None, None) (None, None)).

  (** 931-957: the rectangles, and which of them belong to each time. *)
  Variables (agents : list word) (plot_color : list (list word)).
  Definition video_rect (ar : word * boxrow) : option shape :=
    let '(a, (lo, hi)) := ar in
    do i <- index a agents;
    if length plot_color =? 0 then None else
    do row <- nth_error plot_color (i mod length plot_color);
    do line <- nth_error row 0; do fill <- nth_error row 1;
    rectangle x_dim y_dim line fill [lo; hi] 0.
  Definition video_add (T : Z) (s : list shape * dict Z (list nat)) (ar : word * boxrow) : option (list shape * dict Z (list nat)) :=
    do sh <- video_rect ar;
    do l <- dget Z.eqb T (snd s);
    Some (fst s ++ [sh], dset Z.eqb T (l ++ [length (fst s)]) (snd s)).
  Definition video_time (timed : dict Z (list (word * boxrow))) (s : list shape * dict Z (list nat)) (T : Z) : option (list shape * dict Z (list nat)) :=
    let idx := if dmem Z.eqb T (snd s) then snd s else dset Z.eqb T [] (snd s) in
    do l <- dget Z.eqb T timed;
    foldM (video_add T) l (fst s, idx).

  (** 961-975; [rest] are the times from [cursor] on. *)
  Fixpoint advance (idx : dict Z (list nat)) (rest : list Z) (T : Z) (visible : list bool) : option (list Z * list bool) :=
    match rest with
    | [] => Some ([], visible)
    | t :: rest' =>
      if (t <=? T)%Z then do is <- dget Z.eqb t idx; advance idx rest' T (fold_left (fun v i => set_nth i true v) is visible)
      else Some (rest, visible)
    end.
  Fixpoint video_frames (idx : dict Z (list nat)) (times rest : list Z) (visible : list bool) : option (list (Z * list bool)) :=
    match times with
    | [] => Some []
    | T :: times' =>
      do rv <- advance idx rest T visible;
      do fs <- video_frames idx times' (fst rv) (snd rv);
      Some ((T, snd rv) :: fs)
    end.
End Video.

(** A clip: its traces, which are visible at first, the frames (their time and which traces are visible), the steps of the
    slider, the map and the ranges. *)
Record clip := mkc {
  c_data : list shape; c_start : list bool; c_frames : list (Z * list bool); c_slider : list Z;
  c_map : list shape; c_x : option (Q * Q); c_y : option (Q * Q) }.
Definition mem_Z (z : Z) (l : list Z) : bool := existsb (Z.eqb z) l.
(** The result is the figure given, with the map, if there is nothing to show (877-880). *)
Definition reachtube_tree_video (t : ptree) (lanes : list shape) (fig : figure) (x_dim y_dim : nat) (scale : bool) (sample_rate : nat)
    (plot_color : list (list word)) (digits : nat) (max_slider max_frame : option nat) (html : bool) : option (ptree * (figure + clip)) :=
  do t' <- sample_trace t sample_rate;
  do num_dim <- num_dim_of t';
  do _ <- check_dim num_dim x_dim y_dim;
  let max_frame := match max_frame with None => if html then Some 150 else None | Some m => Some m end in
  do s <- video_collect x_dim y_dim digits (t_root t');
  let times := sorted (map fst (v_timed s)) in
  if length times =? 0 then Some (t', inl (adds lanes fig)) else
  do frame_times <- thin max_frame times;
  do slider_times <- thin max_slider frame_times;
  if length frame_times =? 0 then None else
  do d <- foldM (video_time x_dim y_dim (t_agents t') plot_color (v_timed s)) times ([], []);
  do fs <- video_frames (snd d) frame_times times (repeat false (length (fst d)));
  Some (t', inr (mkc (fst d) (match fs with [] => repeat false (length (fst d)) | f :: _ => snd f end) fs
                     (filter (fun T => mem_Z T slider_times) frame_times) lanes
                     (if scale then widen (fst (v_lo s)) (fst (v_hi s)) else None)
                     (if scale then widen (snd (v_lo s)) (snd (v_hi s)) else None))).

(** ** The nodes in the order of [queue.pop()] and [queue += node.child], plotter2D.py 205-231 and 616-646.  The head of [stack] is
    the end of [queue]. *)
Fixpoint dfs {A} (fuel : nat) (stack : list (tree A)) : option (list (tree A)) :=
  match stack with
  | [] => Some []
  | n :: r => match fuel with 0 => None | S f => do l <- dfs f (rev (child n) ++ r); Some (n :: l) end
  end.
Definition nodes_dfs {A} (t : tree A) : option (list (tree A)) := dfs (size t) [t].

(** [timed[T][a].append(x)], creating what is missing; [keep] decides whether [x] is added to a list that exists. *)
Definition put {X} (keep : X -> list X -> bool) (T : Z) (a : word) (x : X) (d : dict Z (dict word (list X))) : dict Z (dict word (list X)) :=
  dalter Z.eqb (fun o => match o with
                         | None => [(a, [x])]
                         | Some m => dalter word_eqb (fun o' => match o' with None => [x] | Some l => if keep x l then l ++ [x] else l end) a m
                         end) T d.

(** ** reachtube_anime, plotter2D.py 589-762: the frames. *)
Section Anime.
  Variables (x_dim y_dim digits : nat).
  Definition anime_box (a : word) (tr : list vec) (d : dict Z (dict word (list boxrow))) (i : nat) : option (dict Z (dict word (list boxrow))) :=
    do lo <- nth_error tr i; do hi <- nth_error tr (i + 1); do _ <- nth_error lo x_dim; do _ <- nth_error lo y_dim; do t0 <- nth_error lo 0;
    Some (put (fun _ _ => true) (tick digits t0) a (lo, hi) d).
  (** 620-643: of a trace that starts after time 0 the first eight rows are left out. *)
  Definition anime_trace (d : dict Z (dict word (list boxrow))) (kv : word * list vec) : option (dict Z (dict word (list boxrow))) :=
    let (a, tr) := kv in
    do t0 <- cell tr 0 0;
    let tr := if Qle_bool t0 0 then tr else skipn 8 tr in
    foldM (anime_box a tr) (range_by 0 (length tr - 1) 2) d.
  Definition anime_collect (t : tree pnode) : option (dict Z (dict word (list boxrow))) :=
    do ns <- nodes_dfs t; foldM (fun d n => foldM anime_trace (p_trace (content n)) d) ns [].
  (** A "rect" shape, 655-665: two opposite corners. *)
  Definition anime_rect (b : boxrow) : option (pt * pt) :=
    do x0 <- nth_error (fst b) x_dim; do y0 <- nth_error (fst b) y_dim; do x1 <- nth_error (snd b) x_dim; do y1 <- nth_error (snd b) y_dim;
    Some ((x0, y0), (x1, y1)).
  Definition anime_frame (kv : Z * dict word (list boxrow)) : option (Z * list (pt * pt)) :=
    do ls <- mapM (fun al => mapM anime_rect (snd al)) (snd kv); Some (fst kv, concat ls).
End Anime.
Definition reachtube_anime (t : ptree) (x_dim y_dim digits sample_rate : nat) : option (ptree * list (Z * list (pt * pt))) :=
  do t' <- sample_trace t sample_rate;
  do num_dim <- num_dim_of t';
  do _ <- check_dim num_dim x_dim y_dim;
  do d <- anime_collect x_dim y_dim digits (t_root t');
  if length d =? 0 then None else
  do fs <- mapM (anime_frame x_dim y_dim) d;
  Some (t', fs).

(** ** simulation_anime, plotter2D.py 173-478: the first picture and the frames. *)
Section Motion.
  Variables (x_dim y_dim digits : nat).
  (** [tmp_trace not in l] *)
  Definition absent (r : vec) (l : list vec) : bool := negb (existsb (list_eqb Qeq_bool r) l).
  Definition motion_row (a : word) (tr : list vec) (d : dict Z (dict word (list vec))) (i : nat) : option (dict Z (dict word (list vec))) :=
    do r <- nth_error tr i; do _ <- nth_error r x_dim; do _ <- nth_error r y_dim; do t0 <- nth_error r 0;
    Some (put absent (tick digits t0) a r d).
  Definition motion_trace (d : dict Z (dict word (list vec))) (kv : word * list vec) : option (dict Z (dict word (list vec))) :=
    let (a, tr) := kv in foldM (motion_row a tr) (seq 0 (length tr)) d.
  Definition motion_collect (t : tree pnode) : option (dict Z (dict word (list vec))) :=
    do ns <- nodes_dfs t; foldM (fun d n => foldM motion_trace (p_trace (content n)) d) ns [].
  Definition points (rs : list vec) : option (list pt) :=
    mapM (fun r => do x <- nth_error r x_dim; do y <- nth_error r y_dim; Some (x, y)) rs.
  (** The markers of one agent: its number, its name and the points, 249-274 and 279-306. *)
  Variable agents : list word.
  Definition markers (al : word * list vec) : option (word * word * list pt) :=
    let (a, rs) := al in
    do i <- index a agents;
    do c <- (do row <- nth_error colors (i mod num_theme); nth_error row 1);
    do ps <- points rs; Some (a, c, ps).
  Definition motion_frame (kv : Z * dict word (list vec)) : option (Z * list (word * word * list pt)) :=
    do l <- mapM markers (snd kv); Some (fst kv, l).
  (** Trail mode, 347-391: the frame at position [k] of the times; [d[...][a]] is an exception if the agent is not there. *)
  Definition trail_frame (d : dict Z (dict word (list vec))) (trail : nat) (k : nat) : option (Z * list (word * nat * list pt)) :=
    do kv <- nth_error d k;
    do ls <- mapM (fun a => mapM (fun id => do m <- nth_error d (k - id); do rs <- dget word_eqb a (snd m); do ps <- points rs; Some (a, id, ps))
                              (range_by 0 trail 2)) agents;
    Some (fst kv, concat ls).
End Motion.
(** [d[0]] is an exception if no state is at time 0 (245). *)
Definition simulation_anime (t : ptree) (x_dim y_dim digits sample_rate : nat)
  : option (ptree * (list (word * word * list pt) * list (Z * list (word * word * list pt)))) :=
  do t' <- sample_trace t sample_rate;
  do num_dim <- num_dim_of t';
  do _ <- check_dim num_dim x_dim y_dim;
  do d <- motion_collect x_dim y_dim digits (t_root t');
  do d0 <- dget Z.eqb 0%Z d;
  do l <- mapM (markers x_dim y_dim (t_agents t')) d0;
  do fs <- mapM (motion_frame x_dim y_dim (t_agents t')) d;
  Some (t', (l, fs)).
(** The frames of trail mode, 347-404 (the first pictures, which are invisible, are left out). *)
Definition simulation_trail (t : ptree) (x_dim y_dim digits sample_rate : nat) : option (ptree * list (Z * list (word * nat * list pt))) :=
  do t' <- sample_trace t sample_rate;
  do num_dim <- num_dim_of t';
  do _ <- check_dim num_dim x_dim y_dim;
  do d <- motion_collect x_dim y_dim digits (t_root t');
  do d0 <- dget Z.eqb 0%Z d;
  let trail := Nat.min 10 (length d) in
  do fs <- mapM (trail_frame x_dim y_dim (t_agents t') d trail) (seq trail (length d - trail));
  Some (t', fs).
