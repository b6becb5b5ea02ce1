(** What an animation shows, for PlotAnimeProps.v. *)
From Coq Require Import Ascii String Sorted.
From Verif Require Import Base Dict PyText Round Tree TreeSpec Plot PlotSpec PlotAnime.
Set Implicit Arguments.
Open Scope nat_scope.

(** A box of agent [a] in the tree, which starts at time [t0]. *)
Definition has_box (t : ptree) (a : word) (t0 : Q) (lo hi : vec) : Prop :=
  exists q tr j, trace_at t q a tr /\ box_at tr j lo hi /\ nth_error lo 0 = Some t0.
(** [p] is the projection of a state in a box of [a] whose rounded starting time has the property [P]. *)
Definition reached_when (t : ptree) (digits : nat) (P : Z -> Prop) (x_dim y_dim : nat) (a : word) (p : pt) : Prop :=
  exists t0 lo hi, has_box t a t0 lo hi /\ P (tick digits t0) /\ inside x_dim y_dim lo hi p.
(** The point is filled with the colour by a visible trace. *)
Definition clip_shows (v : clip) (visible : list bool) (c : word) (p : pt) : Prop :=
  exists k path l, nth_error (c_data v) k = Some (Filled path l c) /\ nth_error visible k = Some true /\ filled path p.
(** The two shades of agent number [i]: the palette is used again when there are more agents than colours. *)
Definition video_colors (plot_color : list (list word)) (i : nat) (line fill : word) : Prop :=
  exists row, nth_error plot_color (i mod length plot_color) = Some row /\ nth_error row 0 = Some line /\ nth_error row 1 = Some fill.
Definition palette (plot_color : list (list word)) : Prop := plot_color <> [] /\ forall row, In row plot_color -> 2 <= length row.
Definition increasing (l : list Z) : Prop := StronglySorted Z.lt l.
(** The largest and the smallest element. *)
Definition greatest (l : list Z) (z : Z) : Prop := In z l /\ forall y, In y l -> (y <= z)%Z.
Definition least (l : list Z) (z : Z) : Prop := In z l /\ forall y, In y l -> (z <= y)%Z.
(** The rounded times at which boxes start. *)
Definition starts (t : ptree) (digits : nat) (T : Z) : Prop := exists a t0 lo hi, has_box t a t0 lo hi /\ T = tick digits t0.

(** The point lies in the rectangle with the two corners. *)
Definition in_rect (r : pt * pt) (p : pt) : Prop :=
  (fst (fst r) <= fst p /\ fst p <= fst (snd r) /\ snd (fst r) <= snd p /\ snd p <= snd (snd r))%Q.
(** A box which is not among the first four of a node that starts after time 0. *)
Definition late_box (t : ptree) (a : word) (t0 : Q) (lo hi : vec) : Prop :=
  exists q tr j r s, trace_at t q a tr /\ box_at tr j lo hi /\ nth_error lo 0 = Some t0 /\ nth_error tr 0 = Some r /\ nth_error r 0 = Some s /\ ((s <= 0)%Q \/ 4 <= j).

(** A state of agent [a] in the tree, at time [t0]. *)
Definition has_state (t : ptree) (a : word) (t0 : Q) (r : vec) : Prop :=
  exists q tr, trace_at t q a tr /\ In r tr /\ nth_error r 0 = Some t0.
(** Two rows with the same numbers. *)
Definition same_row (r s : vec) : Prop := Forall2 Qeq r s.
(** No two rows of the list are the same. *)
Definition distinct_rows (l : list vec) : Prop := forall i j r s, i < j -> nth_error l i = Some r -> nth_error l j = Some s -> ~ same_row s r.
(** The markers [ps] of agent [a] in a frame at rounded time [T]: one for each of its states at that time, as many as there are different ones. *)
Definition marked_states (t : ptree) (x_dim y_dim digits : nat) (T : Z) (a : word) (ps : list pt) : Prop :=
  exists rs, Forall2 (point_of x_dim y_dim) rs ps /\ distinct_rows rs /\
    (forall r, In r rs -> exists t0, has_state t a t0 r /\ tick digits t0 = T) /\
    forall t0 r, has_state t a t0 r -> tick digits t0 = T -> exists s, In s rs /\ same_row r s.
