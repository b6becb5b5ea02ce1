(** Highway maps with a table of lane changes: verse/map/example_map/simple_map2.py and map_tacas.py, and the queries of
    verse/map/lane_map.py they inherit.

    Simplifications: numbers are real numbers (Lane.v); lanes and modes are given by their names (the code turns enumeration
    members into their names first); the attributes [left_lane_dict] and [right_lane_dict], which these maps leave empty,
    are left out. *)
From Coq Require Import Ascii String Reals.
From Verif Require Import Base PyText Dict Lane Intersection.
Set Implicit Arguments.
Open Scope nat_scope.

Notation hkey := (word * word * word)%type.
Definition hkey_eqb (x y : hkey) : bool :=
  word_eqb (fst (fst x)) (fst (fst y)) && word_eqb (snd (fst x)) (snd (fst y)) && word_eqb (snd x) (snd y).

(** [lane_dict], [h_dict], [left_dict] and [right_dict] (the last two only where the class has them). *)
Record tmap := mk_tmap { m_lanes : dict word (list segment); m_h : dict hkey word; m_left : dict word word; m_right : dict word word }.

(** lane_map.py:99-108 [h].  The outer [None] is a KeyError, the inner one Python's None. *)
Definition th (m : tmap) (lane src dest : word) : option (option word) :=
  match m_h m with
  | [] => Some None
  | _ => do x <- dget hkey_eqb (lane, src, dest) (m_h m); Some (Some x)
  end.
(** lane_map.py:110-120 [h_exist] *)
Definition h_exist (m : tmap) (lane src dest : word) : bool :=
  match dget hkey_eqb (lane, src, dest) (m_h m) with Some _ => true | None => false end.
(** simple_map2.py:87-91, map_tacas.py:85-93 [left_lane], [right_lane]; [None] is a KeyError. *)
Definition left_lane (m : tmap) (lane : word) : option word := dget word_eqb lane (m_left m).
Definition right_lane (m : tmap) (lane : word) : option word := dget word_eqb lane (m_right m).

(** An entry of [h_dict]. *)
Definition e (lane src dest res : string) : hkey * word := ((w lane, w src, w dest), w res).

Open Scope R_scope.
(** simple_map2.py:27-36, 168-177; map_tacas.py:112-121 *)
Definition three_lanes : dict hkey word :=
  [e "T0" "Normal" "SwitchRight" "M01"; e "T1" "Normal" "SwitchRight" "M12"; e "T1" "Normal" "SwitchLeft" "M10"; e "T2" "Normal" "SwitchLeft" "M21";
   e "M01" "SwitchRight" "Normal" "T1"; e "M12" "SwitchRight" "Normal" "T2"; e "M10" "SwitchLeft" "Normal" "T0"; e "M21" "SwitchLeft" "Normal" "T1"].
(** simple_map2.py:56-73, map_tacas.py:54-71 *)
Definition five_lanes : dict hkey word :=
  [e "M04" "SwitchLeft" "Normal" "T4"; e "M10" "SwitchLeft" "Normal" "T0"; e "M21" "SwitchLeft" "Normal" "T1"; e "M32" "SwitchLeft" "Normal" "T2";
   e "T0" "Normal" "SwitchLeft" "M04"; e "T1" "Normal" "SwitchLeft" "M10"; e "T2" "Normal" "SwitchLeft" "M21"; e "T3" "Normal" "SwitchLeft" "M32";
   e "T4" "Normal" "SwitchRight" "M40"; e "T0" "Normal" "SwitchRight" "M01"; e "T1" "Normal" "SwitchRight" "M12"; e "T2" "Normal" "SwitchRight" "M23";
   e "M40" "SwitchRight" "Normal" "T0"; e "M01" "SwitchRight" "Normal" "T1"; e "M12" "SwitchRight" "Normal" "T2"; e "M23" "SwitchRight" "Normal" "T3"].
(** map_tacas.py:22-34 *)
Definition braking : dict hkey word :=
  [e "T0" "Normal" "SwitchRight" "M01"; e "T1" "Normal" "SwitchRight" "M12"; e "T1" "Normal" "SwitchLeft" "M10"; e "T2" "Normal" "SwitchLeft" "M21";
   e "T0" "Normal" "Brake" "T0"; e "T1" "Normal" "Brake" "T1"; e "T2" "Normal" "Brake" "T2";
   e "M01" "SwitchRight" "Normal" "T1"; e "M12" "SwitchRight" "Normal" "T2"; e "M10" "SwitchLeft" "Normal" "T0"; e "M21" "SwitchLeft" "Normal" "T1"].

(** A straight lane along the x axis. *)
Definition along_x (y x1 : R) : list segment := [Straight 0 y x1 y 3].
(** A lane that goes east and then turns north around (22.5, 13), simple_map2.py:155-166. *)
Definition bend (y r x : R) : list segment :=
  [Straight 0 y (225 / 10) y 3; Circular (225 / 10) 13 r (3 * PI / 2) (2 * PI) false 3; Straight x 13 x 100 3].

(** simple_map2.py:7-12 SimpleMap2 *)
Definition simple_map2 : tmap := mk_tmap [(w "Lane1", along_x 0 100)] [] [] [].
(** simple_map2.py:15-36 SimpleMap3 *)
Definition simple_map3 : tmap := mk_tmap [(w "T0", along_x 3 500); (w "T1", along_x 0 500); (w "T2", along_x (-3) 500)] three_lanes [] [].
(** simple_map2.py:39-91 SimpleMap4, and map_tacas.py:37-93 M2, which has the same lanes and tables *)
Definition simple_map4 : tmap :=
  mk_tmap [(w "T0", along_x 3 100); (w "T1", along_x 0 100); (w "T2", along_x (-3) 100); (w "T3", along_x (-6) 100); (w "T4", along_x 6 100)] five_lanes
    [(w "T0", w "T4"); (w "T1", w "T0"); (w "T2", w "T1"); (w "T3", w "T2")]
    [(w "T4", w "T0"); (w "T0", w "T1"); (w "T1", w "T2"); (w "T2", w "T3")].
(** simple_map2.py:152-177 SimpleMap6, and map_tacas.py:96-121 M3, which has the same lanes and table *)
Definition simple_map6 : tmap :=
  mk_tmap [(w "T0", bend 3 10 (325 / 10)); (w "T1", bend 0 13 (355 / 10)); (w "T2", bend (-3) 16 (385 / 10))] three_lanes [] [].
(** map_tacas.py:10-34 M1 *)
Definition m1 : tmap := mk_tmap [(w "T0", along_x 3 500); (w "T1", along_x 0 500); (w "T2", along_x (-3) 500)] braking [] [].

(** ** SimpleMap4Switch2 *)
(** simple_map2.py:94-102 *)
Definition switch2_lanes : dict word (list segment) :=
  map (fun i => (w "T" ++ str i, along_x (6 - 3 * INR i) 100)) (seq 0 5).
(** simple_map2.py:104-127 [h].  The outer [None] is an exception: a short lane name, a lane whose second letter is no digit.
    A variable that is not assigned cannot be reached: the branches that fall through return None first. *)
Definition switch2_h (lane src dest : word) : option (option word) :=
  let src_sw := prefix_of (w "Switch") src in
  let dst_sw := prefix_of (w "Switch") dest in
  if src_sw then
    if dst_sw then Some None
    else do c <- nth_error lane 2; Some (Some (w "T" ++ [c]))
  else if dst_sw then
    let typ := skipn 6 dest in
    do c <- nth_error lane 1;
    do ind <- int [c];
    (* [if typ == "Left" and ind > 0: new_ind = ind - 1] stands alone; the chain below starts anew *)
    if word_eqb typ (w "Left2") && (1 <? ind)%nat then Some (Some (w "M" ++ str ind ++ str (ind - 2)))
    else if word_eqb typ (w "Right") && (ind <? 4)%nat then Some (Some (w "M" ++ str ind ++ str (ind + 1)))
    else if word_eqb typ (w "Right2") && (ind <? 3)%nat then Some (Some (w "M" ++ str ind ++ str (ind + 2)))
    else Some None
  else Some (Some lane).
