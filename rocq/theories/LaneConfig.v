(** Configurations of lane segments: [to_config] and [from_config] of verse/map/lane_segment.py and
    verse/map/lane_segment_3d.py.

    Simplifications: a segment is the dictionary of the attributes that its constructor sets from its parameters; what it
    derives from them (length, direction, axes) is left out, except for the parameters of the base class that
    CircularLane_3d_v2 computes, which come from the parameter [geometry].  The unit vector and the phases that
    CircularLane_3d_v1 keeps come from the parameters [unit] and [phases].  Arrays and lists of numbers are the same. *)
From Coq Require Import Ascii String.
From Verif Require Import Base Dict PyText.
Set Implicit Arguments.
Open Scope nat_scope.

Inductive value := Num (q : Q) | Vec (v : list Q) | Flag (b : bool) | Text (t : word) | Lines (l : list nat) | Nothing.
Inductive lane_class := Straight2 | Circular2 | Straight3 | Circular3 | Circular3_v2.

(** The keyword parameters of the constructors and their defaults.  The last five are those of every class:
    lane_segment.py 164-168, lane_segment_3d.py 181-185. *)
Definition last_five : list (word * option value) :=
  [(w "width", Some (Num 4)); (w "line_types", Some Nothing); (w "forbidden", Some (Flag false));
   (w "speed_limit", Some (Num 20)); (w "priority", Some (Num 0))].
(** lane_segment.py 159-169, 236-249; lane_segment_3d.py 176-186, 297-311, 494-507 *)
Definition params (c : lane_class) : list (word * option value) :=
  match c with
  | Straight2 | Straight3 => [(w "id", None); (w "start", None); (w "end", None)] ++ last_five
  | Circular2 => [(w "id", None); (w "center", None); (w "radius", None); (w "start_phase", None); (w "end_phase", None);
                  (w "clockwise", Some (Flag true))] ++ last_five
  | Circular3 => [(w "id", None); (w "center", None); (w "radius", None); (w "norm_vec", None); (w "start_phase", None);
                  (w "end_phase", None); (w "right_rotate", Some (Flag true))] ++ last_five
  | Circular3_v2 => [(w "id", None); (w "start", None); (w "end", None); (w "norm_vec", None); (w "delta_phase", None);
                     (w "right_rotate", Some (Flag true))] ++ last_five
  end.

(** cls( **config): None is the TypeError for an unexpected or a missing argument. *)
Definition fill (kwargs : dict word value) (p : word * option value) : option (word * value) :=
  match dget word_eqb (fst p) kwargs with
  | Some v => Some (fst p, v)
  | None => option_map (pair (fst p)) (snd p)
  end.
Definition call (c : lane_class) (kwargs : dict word value) : option (dict word value) :=
  if forallb (fun kv => existsb (fun p => word_eqb (fst kv) (fst p)) (params c)) kwargs
  then mapM (fill kwargs) (params c) else None.

Section Lanes.
  Variable unit : value -> value.
  Variable phases : value -> value -> value -> value * value.
  Variable geometry : value -> value -> value -> value -> value -> option (value * value * value * value).

  (** line_types or [STRIPED, STRIPED], lane_segment.py 184, 254; lane_segment_3d.py 206, 345 *)
  Definition striped (kv : word * value) : word * value :=
    if word_eqb (fst kv) (w "line_types")
    then match snd kv with Nothing | Lines [] => (fst kv, Lines [1; 1]) | _ => kv end else kv.
  (** CircularLane_3d_v1: self.norm_vec and the phases, lane_segment_3d.py 315, 332-340 *)
  Definition arc3 (a : dict word value) : option (dict word value) :=
    do n <- dget word_eqb (w "norm_vec") a; do r <- dget word_eqb (w "right_rotate") a;
    do s <- dget word_eqb (w "start_phase") a; do e <- dget word_eqb (w "end_phase") a;
    let se := phases r s e in
    Some (dset word_eqb (w "norm_vec") (unit n) (dset word_eqb (w "start_phase") (fst se) (dset word_eqb (w "end_phase") (snd se) (map striped a)))).
  (** CircularLane_3d_v2, lane_segment_3d.py 508-526: the attributes of the base class. *)
  Definition arc3_v2 (a : dict word value) : option (dict word value) :=
    do s <- dget word_eqb (w "start") a; do e <- dget word_eqb (w "end") a; do n <- dget word_eqb (w "norm_vec") a;
    do d <- dget word_eqb (w "delta_phase") a; do r <- dget word_eqb (w "right_rotate") a;
    do g <- geometry s e n d r;
    let '(center, radius, sp, ep) := g in
    do b <- call Circular3 ([(w "center", center); (w "radius", radius); (w "start_phase", sp); (w "end_phase", ep)] ++
                            filter (fun kv => negb (existsb (word_eqb (fst kv)) [w "start"; w "end"; w "delta_phase"])) a);
    arc3 b.
  (** The constructors: lane_segment.py 179-193, 250-263; lane_segment_3d.py 195-213, 312-351, 508-526. *)
  Definition new (c : lane_class) (kwargs : dict word value) : option (dict word value) :=
    do a <- call c kwargs;
    match c with
    | Straight2 | Straight3 | Circular2 => Some (map striped a)
    | Circular3 => arc3 a
    | Circular3_v2 => arc3_v2 a
    end.

  (** The names in to_config()["config"], lane_segment.py 217-229, 294-309; lane_segment_3d.py 278-290, 475-490 (also of
      CircularLane_3d_v2, which inherits it). *)
  Definition config_names (c : lane_class) : list word :=
    match c with
    | Straight2 | Straight3 => [w "start"; w "end"]
    | Circular2 => [w "center"; w "radius"; w "start_phase"; w "end_phase"; w "clockwise"]
    | Circular3 | Circular3_v2 => [w "center"; w "radius"; w "start_phase"; w "end_phase"; w "right_rotate"]
    end ++ [w "width"; w "line_types"; w "forbidden"; w "speed_limit"; w "priority"].
  Definition to_config (c : lane_class) (lane : dict word value) : option (dict word value) :=
    mapM (fun x => option_map (pair x) (dget word_eqb x lane)) (config_names c).
  (** from_config, lane_segment.py 212-215, 290-292; lane_segment_3d.py 273-276, 471-473 *)
  Definition from_config (c : lane_class) (config : dict word value) : option (dict word value) :=
    match c with
    | Straight2 | Straight3 => do s <- dget word_eqb (w "start") config; do e <- dget word_eqb (w "end") config; new c config
    | _ => do s <- dget word_eqb (w "center") config; new c config
    end.
End Lanes.
