(** The three-dimensional example maps with a table of moves: M5 and M6 (verse/map/example_map/map_tacas.py) and SimpleMap6 and
    SimpleMap7 (verse/map/example_map/simple_map_3d.py).

    Simplifications: numbers are real numbers (Lane3d.v); lanes and modes are given by their names (M5 and M6 turn enumeration
    members into their names first). *)
From Coq Require Import Ascii String Reals.
From Verif Require Import Base PyText Dict Lane3d.
From Verif Require Intersection TableMap LaneMap3d.
Import TableMap.
Set Implicit Arguments.
Open Scope R_scope.

(** The table all four maps have: map_tacas.py:141-150, 228-237, simple_map_3d.py:180-189, 228-237 *)
Definition h_dict : dict hkey word :=
  [e "T1" "Normal" "MoveUp" "M10"; e "T0" "Normal" "MoveDown" "M01"; e "T1" "Normal" "MoveDown" "M12"; e "T2" "Normal" "MoveUp" "M21";
   e "M10" "MoveUp" "Normal" "T0"; e "M01" "MoveDown" "Normal" "T1"; e "M12" "MoveDown" "Normal" "T2"; e "M21" "MoveUp" "Normal" "T1"].
(** [h], map_tacas.py:152-159, 239-240, simple_map_3d.py:191-192; [None] is a KeyError *)
Definition h (lane src dest : word) : option word := dget hkey_eqb (lane, src, dest) h_dict.
(** [h_exist], map_tacas.py:161-171, 242-246, simple_map_3d.py:194-198 *)
Definition h_exist (lane src dest : word) : bool := match h lane src dest with Some _ => true | None => false end.
(** [trans_func] of these maps, map_tacas.py:173-181, simple_map_3d.py:200-208; [None]: an IndexError *)
Definition trans_func (lane : word) : option word :=
  match rev lane with
  | [] => None
  | c :: _ =>
    if word_eqb [c] (w "0") then Some (w "T0")
    else if word_eqb [c] (w "1") then Some (w "T1")
    else if word_eqb [c] (w "2") then Some (w "T2")
    else Some []
  end.

(** [get_end(start, n, lens)], map_tacas.py:184-186 *)
Definition get_end (start n : v3) (lens : R) : option v3 := do u <- unit n; Some (vadd start (vscale lens u)).

(** The lanes of M5 and SimpleMap7: one straight segment, map_tacas.py:127-139, simple_map_3d.py:214-226 *)
Definition level_lane (z : R) : option (list segment) := do s <- straight_lane (V 0 0 z) (V 100 0 z); Some [s].
(** The lanes of M6 and SimpleMap6: two circles and two straight segments, map_tacas.py:192-204, simple_map_3d.py:144-156 *)
Definition eight (center : v3) : option (list segment) :=
  let phase := 3 / 2 * PI in
  let n := V 0 0 1 in
  let radius := 10 in
  do s0 <- circular_lane center radius n 0 phase true;
  do t <- get_start_end_tang s0;
  let '(start, start_tang, stop, end_tang) := t in
  let lens := 2 * radius in
  do end1 <- get_end start (vscale (-1) start_tang) lens;
  do s1 <- straight_lane end1 start;
  do end2 <- get_end stop end_tang lens;
  do s2 <- straight_lane stop end2;
  do s3 <- circular_lane_v2 end2 end1 (vscale (-1) n) phase true;
  Some [s0; s1; s2; s3].

(** [lane_dict] of M5 and SimpleMap7 (width = 4), and of M6 and SimpleMap6 (width = 2).  [None]: a lane cannot be made. *)
Definition m5_lanes : option (dict word (list segment)) :=
  let width := 4 in
  do lane0 <- level_lane 0; do lane3 <- level_lane (2 * width); do lane4 <- level_lane (-2 * width);
  Some [(w "T1", lane0); (w "T0", lane3); (w "T2", lane4)].
Definition m6_lanes : option (dict word (list segment)) :=
  let width := 2 in let n := V 0 0 1 in let center1 := V 0 0 0 in
  do lane1 <- eight center1;
  do lane0 <- eight (vadd center1 (vscale (2 * width) n));
  do lane2 <- eight (vsub center1 (vscale (2 * width) n));
  Some [(w "T0", lane0); (w "T1", lane1); (w "T2", lane2)].
