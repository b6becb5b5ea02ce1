(** What a plot shows, for PlotProps.v. *)
From Coq Require Import Ascii String.
From Verif Require Import Base Dict PyText Tree TreeSpec Plot.
Set Implicit Arguments.
Open Scope nat_scope.

(** ** The region filled by a closed path (the nonzero rule of the drawing library): the points on its edges and the points
    it winds around.  The winding number is counted along the upward ray from the point. *)
Definition edges (path : list pt) : list (pt * pt) :=
  match path with [] => [] | a :: l => combine path (l ++ [a]) end.
Definition on_edge (p : pt) (e : pt * pt) : Prop :=
  exists s : Q, (0 <= s /\ s <= 1 /\ fst p == fst (fst e) + s * (fst (snd e) - fst (fst e))
                 /\ snd p == snd (fst e) + s * (snd (snd e) - snd (fst e)))%Q.
(** 1 if the vertical line through [p] has [a] on its right, else 0. *)
Definition right_of (p a : pt) : Z := if Qle_bool (fst a) (fst p) then 0%Z else 1%Z.
(** The height at which the edge passes the vertical line through [p]. *)
Definition height_at (p : pt) (e : pt * pt) : Q :=
  (snd (fst e) + (fst p - fst (fst e)) * ((snd (snd e) - snd (fst e)) / (fst (snd e) - fst (fst e))))%Q.
Definition turn (p : pt) (e : pt * pt) : Z :=
  if Qle_bool (height_at p e) (snd p) then 0%Z else (right_of p (fst e) - right_of p (snd e))%Z.
Definition winding (p : pt) (path : list pt) : Z := fold_right Z.add 0%Z (map (turn p) (edges path)).
Definition filled (path : list pt) (p : pt) : Prop := Exists (on_edge p) (edges path) \/ winding p path <> 0%Z.

(** The points filled in a figure, in any colour or in one. *)
Definition shown (f : figure) (p : pt) : Prop := exists path l c, In (Filled path l c) (f_shapes f) /\ filled path p.
Definition shown_in (f : figure) (c : word) (p : pt) : Prop := exists path l, In (Filled path l c) (f_shapes f) /\ filled path p.

(** ** Trees *)
(** The trace of agent [a] at the node reached by [q]. *)
Definition trace_at (t : ptree) (q : list nat) (a : word) (tr : list vec) : Prop :=
  exists n, at_path (t_root t) q = Some n /\ dget word_eqb a (p_trace (content n)) = Some tr.
(** Box number [j] of a tube: two rows, lower and upper bounds. *)
Definition box_at (tr : list vec) (j : nat) (lo hi : vec) : Prop := nth_error tr (2 * j) = Some lo /\ nth_error tr (2 * j + 1) = Some hi.
(** [p] is the projection of a state of the box. *)
Definition inside (x_dim y_dim : nat) (lo hi : vec) (p : pt) : Prop :=
  exists x0 x1 y0 y1, nth_error lo x_dim = Some x0 /\ nth_error hi x_dim = Some x1 /\ nth_error lo y_dim = Some y0 /\ nth_error hi y_dim = Some y1 /\
    (x0 <= fst p /\ fst p <= x1 /\ y0 <= snd p /\ snd p <= y1)%Q.
(** [p] is the projection of a state in the tube of agent [a]. *)
Definition reached (t : ptree) (x_dim y_dim : nat) (a : word) (p : pt) : Prop :=
  exists q tr j lo hi, trace_at t q a tr /\ box_at tr j lo hi /\ inside x_dim y_dim lo hi p.

(** Rows that have the two dimensions. *)
Definition has_dims (x_dim y_dim : nat) (r : vec) : Prop := x_dim < length r /\ y_dim < length r.
(** Every node has a nonempty trace for every agent, and for nobody else. *)
Definition complete (t : ptree) (x_dim y_dim : nat) : Prop :=
  t_agents t <> [] /\
  forall q n, at_path (t_root t) q = Some n ->
    NoDup (map fst (p_trace (content n))) /\
    (forall a, In a (map fst (p_trace (content n))) <-> In a (t_agents t)) /\
    (forall a tr, dget word_eqb a (p_trace (content n)) = Some tr -> tr <> [] /\ Forall (has_dims x_dim y_dim) tr).
(** For labels: every node has a mode for every agent. *)
Definition named (t : ptree) : Prop :=
  forall q n a, at_path (t_root t) q = Some n -> In a (t_agents t) -> exists m, dget word_eqb a (p_mode (content n)) = Some m /\ m <> [].
(** Traces are lists of boxes with ordered bounds in the two dimensions. *)
Definition boxed (t : ptree) (x_dim y_dim : nat) : Prop :=
  forall q a tr, trace_at t q a tr ->
    (exists m, length tr = 2 * m) /\
    forall j lo hi x0 x1 y0 y1, box_at tr j lo hi -> nth_error lo x_dim = Some x0 -> nth_error hi x_dim = Some x1 ->
      nth_error lo y_dim = Some y0 -> nth_error hi y_dim = Some y1 -> (x0 <= x1 /\ y0 <= y1)%Q.
(** Two rows of the trace, none of them the last, differ in a plotted dimension. *)
Definition varies (tr : list vec) (x_dim y_dim : nat) : Prop :=
  exists i j ri rj d u v, (d = x_dim \/ d = y_dim) /\ i + 1 < length tr /\ j + 1 < length tr /\
    nth_error tr i = Some ri /\ nth_error tr j = Some rj /\ nth_error ri d = Some u /\ nth_error rj d = Some v /\ ~ (u == v)%Q.
(** A plotted row. *)
Definition point_of (x_dim y_dim : nat) (r : vec) (p : pt) : Prop :=
  nth_error r x_dim = Some (fst p) /\ nth_error r y_dim = Some (snd p).
(** The violations recorded for agent [a] in the node at [q]. *)
Definition violated (t : ptree) (q : list nat) (a : word) (texts : list word) : Prop :=
  exists n h, at_path (t_root t) q = Some n /\ p_hits (content n) = Some h /\ dget word_eqb a h = Some texts.
Definition only_lanes (l : list shape) : Prop := forall s, In s l -> exists path, s = Lane path.
(** Enough colours: two shades for each of the first nine agents, and six schemes at least as given. *)
Definition enough (plot_color : list (list word)) (n : nat) : Prop :=
  forall i, i < n -> i < num_theme -> exists r, nth_error plot_color i = Some r /\ 2 <= length r.
(** The two shades of agent number [i]. *)
Definition agent_colors (plot_color : list (list word)) (i : nat) (line fill : word) : Prop :=
  exists row, nth_error plot_color (i mod num_theme) = Some row /\ nth_error row 0 = Some line /\ nth_error row 1 = Some fill.
Definition last_row (tr : list vec) (r : vec) : Prop := nth_error tr (length tr - 1) = Some r.
Definition in_range (r : option (Q * Q)) (v : Q) : Prop := exists lo hi, r = Some (lo, hi) /\ (lo <= v /\ v <= hi)%Q.

(** ** Sampling: [tr'] has every [k]-th row of [tr], from the first. *)
Definition every (k : nat) (tr tr' : list vec) : Prop := forall j, nth_error tr' j = nth_error tr (j * k).
(** [t'] is [t] with the traces sampled, and the same otherwise. *)
Definition sampled (k : nat) (t t' : ptree) : Prop :=
  t_agents t' = t_agents t /\ t_type t' = t_type t /\
  forall q, (at_path (t_root t) q = None /\ at_path (t_root t') q = None) \/
    exists n n', at_path (t_root t) q = Some n /\ at_path (t_root t') q = Some n' /\
      p_mode (content n') = p_mode (content n) /\ p_hits (content n') = p_hits (content n) /\
      Forall2 (fun kv kv' => fst kv' = fst kv /\ every k (snd kv) (snd kv')) (p_trace (content n)) (p_trace (content n')).

(** ** Slices: the box lies in the interval of time ([None] is infinity), and [p] is the projection of a state of it. *)
Definition reached_during (t : ptree) (lower : Q) (upper : option Q) (x_dim y_dim : nat) (a : word) (p : pt) : Prop :=
  exists q tr j lo hi t0 t1, trace_at t q a tr /\ box_at tr j lo hi /\ nth_error lo 0 = Some t0 /\ nth_error hi 0 = Some t1 /\
    (lower <= t0)%Q /\ (forall u, upper = Some u -> (t1 <= u)%Q) /\ inside x_dim y_dim lo hi p.
(** Boxes end in the order in which they are listed. *)
Definition timed (tr : list vec) : Prop :=
  forall i j lo hi lo' hi' t1 t1', i <= j -> box_at tr i lo hi -> box_at tr j lo' hi' -> nth_error hi 0 = Some t1 -> nth_error hi' 0 = Some t1' -> (t1 <= t1')%Q.

(** ** Grouped boxes: from box to box both corners move right and down, or left and up. *)
Definition moves (R S : Q -> Q -> Prop) (tr : list vec) (x_dim y_dim : nat) : Prop :=
  forall i j lo hi lo' hi' x0 x1 y0 y1 x0' x1' y0' y1', i < j -> box_at tr i lo hi -> box_at tr j lo' hi' ->
    nth_error lo x_dim = Some x0 -> nth_error hi x_dim = Some x1 -> nth_error lo y_dim = Some y0 -> nth_error hi y_dim = Some y1 ->
    nth_error lo' x_dim = Some x0' -> nth_error hi' x_dim = Some x1' -> nth_error lo' y_dim = Some y0' -> nth_error hi' y_dim = Some y1' ->
    R x0 x0' /\ R x1 x1' /\ S y0 y0' /\ S y1 y1'.
Definition falling (tr : list vec) (x_dim y_dim : nat) : Prop :=
  moves Qlt (fun a b => (b < a)%Q) tr x_dim y_dim \/ moves (fun a b => (b < a)%Q) Qlt tr x_dim y_dim.
