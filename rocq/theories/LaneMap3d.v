(** Lane adjacency of three-dimensional lane maps: verse/map/lane_map_3d.py, and the naming of physical
    lanes in verse/map/lane_map.py.

    Simplifications: a lane object is anything with an id ([lid]); Enum members are resolved to their names
    before the call (each method starts with that test).  A method that raises returns [false] (or [None])
    together with the state it leaves behind.  [deepcopy] of a string is the string.  Waypoints
    ([get_next_point]) and the geometry queries, which delegate to the lanes, are not modelled here. *)
From Coq Require Import Ascii String.
From Verif Require Import Base PyText Dict.
Set Implicit Arguments.
Open Scope nat_scope.

(** The four dictionaries are indexed by the relation's name; any other name is [ValueError]. *)
Inductive rel := Left | Right | Up | Down.
Definition rel_eqb (r s : rel) : bool :=
  match r, s with Left, Left | Right, Right | Up, Up | Down, Down => true | _, _ => false end.

(** The string tests of [pair_lanes], lane_map_3d.py:79-92. *)
Definition rel_of (s : word) : option rel :=
  if word_eqb s (w "left") then Some Left
  else if word_eqb s (w "right") then Some Right
  else if word_eqb s (w "up") then Some Up
  else if word_eqb s (w "down") then Some Down
  else None.

Section Map3d.
  Variables (L : Type) (lid : L -> word).

  (** The attributes of [LaneMap_3d], lane_map_3d.py:14-19. *)
  Record lmap := mkmap {
    lane_dict : dict word L;
    left_lane_dict : dict word (list word);
    right_lane_dict : dict word (list word);
    up_lane_dict : dict word (list word);
    down_lane_dict : dict word (list word) }.

  Definition empty_map : lmap := mkmap [] [] [] [] [].

  (** One turn of the loops of [__init__] (lane_map_3d.py:20-25) and [add_lanes] (37-42). *)
  Definition add_lane (m : lmap) (l : L) : lmap :=
    mkmap (dset word_eqb (lid l) l (lane_dict m))
          (dset word_eqb (lid l) [] (left_lane_dict m))
          (dset word_eqb (lid l) [] (right_lane_dict m))
          (dset word_eqb (lid l) [] (up_lane_dict m))
          (dset word_eqb (lid l) [] (down_lane_dict m)).

  (** [add_lanes], lane_map_3d.py:36-42. *)
  Definition add_lanes (m : lmap) (ls : list L) : lmap := fold_left add_lane ls m.

  (** [LaneMap_3d(lane_seg_list)], lane_map_3d.py:13-30. *)
  Definition new_map (ls : list L) : lmap := fold_left add_lane ls empty_map.

  Definition dict_of (r : rel) (m : lmap) : dict word (list word) :=
    match r with
    | Left => left_lane_dict m
    | Right => right_lane_dict m
    | Up => up_lane_dict m
    | Down => down_lane_dict m
    end.

  (** [self.<r>_lane_dict[k].append(v)]: [KeyError] when [k] is missing. *)
  Definition append_to (r : rel) (k v : word) (m : lmap) : lmap * bool :=
    match dget word_eqb k (dict_of r m) with
    | None => (m, false)
    | Some l =>
      let d := dset word_eqb k (l ++ [v]) (dict_of r m) in
      (match r with
       | Left => mkmap (lane_dict m) d (right_lane_dict m) (up_lane_dict m) (down_lane_dict m)
       | Right => mkmap (lane_dict m) (left_lane_dict m) d (up_lane_dict m) (down_lane_dict m)
       | Up => mkmap (lane_dict m) (left_lane_dict m) (right_lane_dict m) d (down_lane_dict m)
       | Down => mkmap (lane_dict m) (left_lane_dict m) (right_lane_dict m) (up_lane_dict m) d
       end, true)
    end.

  (** Two statements in a row: an exception in the first skips the second. *)
  Definition andthen (s : lmap * bool) (f : lmap -> lmap * bool) : lmap * bool :=
    let (m, ok) := s in if ok then f m else (m, false).

  (** [pair_lanes], lane_map_3d.py:74-92. *)
  Definition pair_lanes (m : lmap) (src dest relation : word) : lmap * bool :=
    match rel_of relation with
    | Some Left => andthen (append_to Left src dest m) (append_to Right dest src)
    | Some Right => andthen (append_to Right src dest m) (append_to Left dest src)
    | Some Up => andthen (append_to Up src dest m) (append_to Down dest src)
    | Some Down => andthen (append_to Down src dest m) (append_to Up dest src)
    | None => (m, false)
    end.

  (** [has_left] (lane_map_3d.py:94-101), [has_right], [has_up], [has_down]; [None] is a [KeyError]. *)
  Definition has (r : rel) (m : lmap) (lane : word) : option bool :=
    if dmem word_eqb lane (lane_dict m) then
      match dget word_eqb lane (dict_of r m) with
      | None => None
      | Some l => Some (negb (length l =? 0))
      end
    else Some false.

  (** [left_lane] (lane_map_3d.py:103-110), [right_lane], [up_lane], [down_lane].  The membership test of
      the last two looks in [left_lane_dict] (lane_map_3d.py:144, 163). *)
  Definition the_lane (r : rel) (m : lmap) (lane : word) : option word :=
    if forallb (fun e => dmem word_eqb (fst e) (dict_of r m)) (lane_dict m) then
      if dmem word_eqb lane (match r with Right => right_lane_dict m | _ => left_lane_dict m end) then
        match dget word_eqb lane (dict_of r m) with
        | None => None
        | Some l => hd_error l
        end
      else None
    else None.

  (** ** Histories of calls *)
  Inductive call := AddLanes (ls : list L) | PairLanes (src dest relation : word).

  (** The state after a call, whether or not it raised. *)
  Definition after (m : lmap) (c : call) : lmap :=
    match c with
    | AddLanes ls => add_lanes m ls
    | PairLanes s d r => fst (pair_lanes m s d r)
    end.
  Definition run (init : list L) (calls : list call) : lmap := fold_left after calls (new_map init).
End Map3d.
Arguments AddLanes {L} ls.
Arguments PairLanes {L} src dest relation.

(** ** Physical lane names, lane_map.py:10-13, 33-49
    Regular expressions are matched at the start of the name ([re.match]); [\d] is an ASCII digit. *)
Definition is_digit (c : ascii) : bool := (48 <=? nat_of_ascii c)%nat && (nat_of_ascii c <=? 57)%nat.
Definition is_upper (c : ascii) : bool := (65 <=? nat_of_ascii c)%nat && (nat_of_ascii c <=? 90)%nat.

Fixpoint drop_while (p : ascii -> bool) (s : word) : word :=
  match s with
  | c :: s' => if p c then drop_while p s' else s
  | [] => []
  end.

(** [[c]+] followed by [k]: the classes before a [_] do not contain it, so the greedy match is the only one. *)
Definition plus (p : ascii -> bool) (s : word) : option word :=
  match s with
  | c :: s' => if p c then Some (drop_while p s') else None
  | [] => None
  end.
Definition lit (a : ascii) (s : word) : option word :=
  match s with c :: s' => if Ascii.eqb c a then Some s' else None | [] => None end.

(** [VIRT_LANE.match]: [M\d\d], lane_map.py:10. *)
Definition virt_lane (s : word) : bool :=
  match s with
  | c :: a :: b :: _ => Ascii.eqb c "M" && is_digit a && is_digit b
  | _ => false
  end.

(** [INTERSECT_VIRT_LANE.match]: [[A-Z]+_\d+_\d+], lane_map.py:13. *)
Definition intersect_virt_lane (s : word) : bool :=
  match (do s1 <- plus is_upper s; do s2 <- lit "_" s1; do s3 <- plus is_digit s2; do s4 <- lit "_" s3; plus is_digit s4) with
  | Some _ => true
  | None => false
  end.

(** [s.rsplit("_", 1)[0]]: what stands before the last underscore, the whole string without one. *)
Fixpoint before_last (a : ascii) (s : word) : option word :=
  match s with
  | [] => None
  | c :: s' =>
    match before_last a s' with
    | Some p => Some (c :: p)
    | None => if Ascii.eqb c a then Some [] else None
    end
  end.
Definition rsplit_head (a : ascii) (s : word) : word :=
  match before_last a s with Some p => p | None => s end.

(** [get_phys_lane], lane_map.py:33-49. *)
Definition get_phys_lane (lane : word) : word :=
  if virt_lane lane then match lane with _ :: a :: _ => w "T" ++ [a] | _ => lane end
  else if intersect_virt_lane lane then rsplit_head "_" lane
  else lane.

(** [LaneMap_3d.trans_func], lane_map_3d.py:32-34; [None] is the [IndexError] of the empty name. *)
Definition trans_func (lane : word) : option word :=
  match rev lane with c :: _ => Some (w "T" ++ [c]) | [] => None end.
