(** Crossings: verse/map/example_map/intersection.py.

    Simplifications: widths and distances are real numbers (Lane.v).  [int] is modelled on strings of decimal digits; any
    other string is an error (Python also takes signs, blanks and underscores).  The attributes [left_lane_dict],
    [right_lane_dict] and [h_dict], which this map does not use, are left out. *)
From Coq Require Import Ascii String Reals DecimalString.
From Verif Require Import Base PyText Dict Lane.
Set Implicit Arguments.
Open Scope nat_scope.

(** [str(i)] and [int(s)]. *)
Definition str (i : nat) : word := w (NilZero.string_of_uint (Nat.to_uint i)).
Definition int (s : word) : option nat := option_map Nat.of_uint (NilZero.uint_of_string (String.string_of_list_ascii s)).

(** [s.split(c)] *)
Fixpoint split (c : ascii) (s : word) : list word :=
  match s with
  | [] => [[]]
  | a :: s' => if Ascii.eqb a c then [] :: split c s' else match split c s' with [] => [[a]] | p :: ps => (a :: p) :: ps end
  end.
(** [s.split(c, n)]: the first [n] separators. *)
Fixpoint split_max (c : ascii) (n : nat) (s : word) : list word :=
  match s with
  | [] => [[]]
  | a :: s' =>
    match n with
    | 0 => [s]
    | S n' => if Ascii.eqb a c then [] :: split_max c n' s' else match split_max c n s' with [] => [[a]] | p :: ps => (a :: p) :: ps end
    end
  end.

(** intersection.py:100-127 [h].  The outer [None] is an exception, the inner one Python's None. *)
Definition h (lanes : nat) (lane_idx mode_src mode_dest : word) : option (option word) :=
  let src_sw := prefix_of (w "Switch") mode_src in
  let dst_sw := prefix_of (w "Switch") mode_dest in
  if src_sw then
    if dst_sw then Some None
    else
      match split_max "_" 2 lane_idx with
      | [ln; _; ind] => do i <- int ind; Some (Some (ln ++ w "_" ++ str i))
      | _ => None
      end
  else if dst_sw then
    match split "_" lane_idx with
    | [ln; ind] =>
      do i <- int ind;
      if occurs (w "Left") mode_dest && (0 <? i) then Some (Some (ln ++ w "_" ++ str i ++ w "_" ++ str (i - 1)))
      else if occurs (w "Right") mode_dest && (i <? lanes - 1) then Some (Some (ln ++ w "_" ++ str i ++ w "_" ++ str (i + 1)))
      else Some None
    | _ => None
    end
  else Some (Some lane_idx).

(** ** The roads *)
Open Scope R_scope.
Section Roads.
  Variables (width size len : R) (lanes : nat).
  Definition outer_edge : R := size + len.

  (** intersection.py:26-41: the straight segments of lane [i], in the order of the assignments. *)
  Definition straight_segs (i : nat) : list (word * segment) :=
    let off := width * (INR i + 1 / 2) in
    let add name sx sy ex ey := (w name ++ str i, Straight sx sy ex ey width) in
    [add "NR"%string (- off) outer_edge (- off) size;
     add "SR"%string off (- outer_edge) off (- size);
     add "ER"%string outer_edge off size off;
     add "WR"%string (- outer_edge) (- off) (- size) (- off);
     add "NL"%string off size off outer_edge;
     add "EL"%string size (- off) outer_edge (- off);
     add "SL"%string (- off) (- size) (- off) (- outer_edge);
     add "WL"%string (- size) off (- outer_edge) off;
     add "NSR"%string (- off) size (- off) (- size);
     add "NSL"%string off (- size) off size;
     add "WER"%string (- size) (- off) size (- off);
     add "WEL"%string size off (- size) off].

  (** intersection.py:42-47 *)
  Definition curve_params : list (word * (R * R) * R) :=
    [(w "NW", (- size, size), 3); (w "NE", (size, size), 2); (w "SW", (- size, - size), 0); (w "SE", (size, - size), 1)].

  (** intersection.py:48-67: [inner] is [io == 0]. *)
  Definition curve_seg (p : word * (R * R) * R) (inner : bool) (lane : nat) : word * segment :=
    let '(k, center, start) := p in
    (k ++ (if inner then w "I" else w "O") ++ str lane,
     Circular (fst center) (snd center)
       (size + width * (INR lane + 1 / 2) * (if inner then -1 else 1))
       ((start + (if inner then 1 else 0)) * PI / 2)
       ((start + (if inner then 0 else 1)) * PI / 2)
       inner width).
  Definition curve_segs : list (word * segment) :=
    flat_map (fun p => flat_map (fun inner => map (curve_seg p inner) (seq 0 lanes)) [true; false]) curve_params.

  (** The dictionary [segs], intersection.py:25-67. *)
  Definition put_all (l : list (word * segment)) (d : dict word segment) : dict word segment :=
    fold_left (fun d e => dset word_eqb (fst e) (snd e) d) l d.
  Definition segs : dict word segment := put_all curve_segs (put_all (flat_map straight_segs (seq 0 lanes)) []).
  Definition seg (name : word) : option segment := dget word_eqb name segs.

  (** intersection.py:68-81: name, and the segments of the way in, across and out. *)
  Definition straights : list (word * list word) :=
    [(w "NS", [w "NR"; w "NSR"; w "SL"]); (w "SN", [w "SR"; w "NSL"; w "NL"]);
     (w "WE", [w "WR"; w "WER"; w "EL"]); (w "EW", [w "ER"; w "WEL"; w "WL"])].
  Definition straight_lane (s : word * list word) (i : nat) : option (word * list segment) :=
    do l <- mapM (fun n => seg (n ++ str i)) (snd s);
    Some (fst s ++ w "_" ++ str i, l).

  (** intersection.py:82-97 *)
  Definition curves : list (word * word * word) :=
    [(w "N", w "W", w "I"); (w "N", w "E", w "O"); (w "W", w "N", w "O"); (w "E", w "N", w "I");
     (w "S", w "W", w "O"); (w "S", w "E", w "I"); (w "W", w "S", w "I"); (w "E", w "S", w "O")].
  Definition curve_lane (c : word * word * word) (i : nat) : option (word * list segment) :=
    let '(s, e, d) := c in
    do a <- seg (s ++ w "R" ++ str i);
    do b <- match seg (s ++ e ++ d ++ str i) with Some b => Some b | None => seg (e ++ s ++ d ++ str i) end;
    do c <- seg (e ++ w "L" ++ str i);
    Some (s ++ e ++ w "_" ++ str i, [a; b; c]).

  (** verse/map/lane_map.py:27-31 [add_lanes] *)
  Definition add_lanes (l : list (word * list segment)) (d : dict word (list segment)) : dict word (list segment) :=
    fold_left (fun d e => dset word_eqb (fst e) (snd e) d) l d.

  (** intersection.py:19-98, the constructor: the dictionary of lanes.  [None]: an assertion fails or a segment is missing. *)
  Definition intersection : option (dict word (list segment)) :=
    if Rlt_dec 0 width then if (0 <? lanes)%nat then if Rlt_dec 0 len then
      if Rle_dec ((1 + INR lanes) * width) size then
        do a <- mapM (fun p => straight_lane (fst p) (snd p)) (list_prod straights (seq 0 lanes));
        do b <- mapM (fun p => curve_lane (fst p) (snd p)) (list_prod curves (seq 0 lanes));
        Some (add_lanes b (add_lanes a []))
      else None
    else None else None else None.

  (** The segment objects of each lane, by the key they have in [segs], in the order in which the lanes are made
      (intersection.py:75-80 and 84-96). *)
  Definition straight_objects : list (list word) :=
    flat_map (fun s => map (fun i => map (fun n => n ++ str i) (snd s)) (seq 0 lanes)) straights.
  Definition curve_objects : list (list word) :=
    flat_map (fun c => let '(s, e, d) := c in
      map (fun i => [s ++ w "R" ++ str i; (match seg (s ++ e ++ d ++ str i) with Some _ => s ++ e ++ d | None => e ++ s ++ d end) ++ str i; e ++ w "L" ++ str i])
        (seq 0 lanes)) curves.
  (** verse/map/lane.py:12-22: making a lane writes [longitudinal_start] into its segments. *)
  Fixpoint write_starts (objs : list word) (start : R) (h : dict word R) : option (dict word R) :=
    match objs with
    | [] => Some h
    | o :: rest => do s <- seg o; write_starts rest (start + length_of s) (dset word_eqb o start h)
    end.
  (** The attribute [longitudinal_start] of the segments when the map is made. *)
  Definition stored_starts : option (dict word R) :=
    fold_left (fun h objs => do h <- h; write_starts objs 0 h) (straight_objects ++ curve_objects) (Some []).
End Roads.
