(** Rectangles and polygons: verse/utils/utils.py 64-91, 112-239.

    Simplification: real numbers instead of floating point numbers. *)
From Coq Require Import Reals List Bool.
From Verif Require Import Angle.
Import ListNotations.
Open Scope R_scope.

Definition pt := (R * R)%type.

(** point_in_rectangle, utils.py 64-72 *)
Definition point_in_rectangle (p rect_min rect_max : pt) : bool :=
  if Rle_dec (fst rect_min) (fst p) then
  if Rle_dec (fst p) (fst rect_max) then
  if Rle_dec (snd rect_min) (snd p) then
  if Rle_dec (snd p) (snd rect_max) then true else false else false else false else false.

(** r.dot(v) with r = [[c, -s], [s, c]], utils.py 88-90 and 153-155 *)
Definition rotate (angle : R) (v : pt) : pt :=
  (cos angle * fst v + - sin angle * snd v, sin angle * fst v + cos angle * snd v).

(** point_in_rotated_rectangle, utils.py 75-91 *)
Definition point_in_rotated_rectangle (p center : pt) (length width angle : R) : bool :=
  let ru := rotate angle (fst p - fst center, snd p - snd center) in
  point_in_rectangle ru (- length / 2, - width / 2) (length / 2, width / 2).

(** rect_corners, utils.py 126-155 *)
Definition rect_corners (center : pt) (length width angle : R) (midpoints cent : bool) : list pt :=
  let hl := length / 2 in let hw := width / 2 in
  let corners := [(- hl, - hw); (- hl, hw); (hl, hw); (hl, - hw)] in
  let corners := corners ++ (if cent then [(0, 0)] else []) in
  let corners := corners ++ (if midpoints then [(- hl, 0); (hl, 0); (0, - hw); (0, hw)] else []) in
  map (fun v => let r := rotate angle v in (fst r + fst center, snd r + snd center)) corners.

(** A rectangle (center, length, width, angle); has_corner_inside, utils.py 158-172; rotated_rectangles_intersect,
    utils.py 112-123 *)
Record rect := mk_rect { r_center : pt; r_length : R; r_width : R; r_angle : R }.
Definition has_corner_inside (a b : rect) : bool :=
  existsb (fun p => point_in_rotated_rectangle p (r_center b) (r_length b) (r_width b) (r_angle b))
          (rect_corners (r_center a) (r_length a) (r_width a) (r_angle a) true true).
Definition rotated_rectangles_intersect (a b : rect) : bool := has_corner_inside a b || has_corner_inside b a.

(** project_polygon, utils.py 175-183: None stands for the pair (None, None) of an empty polygon *)
Definition dotp (p q : pt) : R := fst p * fst q + snd p * snd q.
Definition project_step (axis : pt) (acc : option (R * R)) (p : pt) : option (R * R) :=
  let v := dotp p axis in
  match acc with
  | None => Some (v, v)
  | Some (mn, mx) => Some (if Rlt_dec v mn then v else mn, if Rlt_dec mx v then v else mx)
  end.
Definition project_polygon (polygon : list pt) (axis : pt) : option (R * R) :=
  fold_left (project_step axis) polygon None.

(** interval_distance, utils.py 186-191 *)
Definition interval_distance (min_a max_a min_b max_b : R) : R :=
  if Rlt_dec min_a min_b then min_b - max_a else min_a - max_b.

(** The edges zip(polygon, polygon[1:]), utils.py 212 *)
Fixpoint edges (polygon : list pt) : list (pt * pt) :=
  match polygon with
  | p :: ((q :: _) as rest) => (p, q) :: edges rest
  | _ => []
  end.

(** are_polygons_intersecting, utils.py 194-239: the two flags.  The translation vector is not modelled: it is computed
    from values the flags do not depend on.  None is the TypeError of subtracting None for an empty polygon.
    An edge of length 0 has the normal nan, all comparisons with it are False, and the flags stay as they are. *)
Section Sat.
  Variables (a b : list pt) (da db : pt).
  Definition edge_step (fl : bool * bool) (e : pt * pt) : option (bool * bool) :=
    let (p1, p2) := e in
    let nx := - snd p2 + snd p1 in let ny := fst p2 - fst p1 in
    let n := norm nx ny in
    if Req_EM_T n 0 then Some fl
    else
      let normal := (nx / n, ny / n) in
      match project_polygon a normal, project_polygon b normal with
      | Some (min_a, max_a), Some (min_b, max_b) =>
        let i := if Rlt_dec 0 (interval_distance min_a max_a min_b max_b) then false else fst fl in
        let v := dotp normal (fst da - fst db, snd da - snd db) in
        let min_a' := if Rlt_dec v 0 then min_a + v else min_a in
        let max_a' := if Rlt_dec v 0 then max_a else max_a + v in
        let w := if Rlt_dec 0 (interval_distance min_a' max_a' min_b max_b) then false else snd fl in
        Some (i, w)
      | _, _ => None
      end.
  (** One polygon's edges; break once both flags are False. *)
  Fixpoint edge_loop (es : list (pt * pt)) (fl : bool * bool) : option (bool * bool) :=
    match es with
    | [] => Some fl
    | e :: rest =>
      match edge_step fl e with
      | None => None
      | Some fl' => if negb (fst fl') && negb (snd fl') then Some fl' else edge_loop rest fl'
      end
    end.
  Definition are_polygons_intersecting : option (bool * bool) :=
    match edge_loop (edges a) (true, true) with
    | None => None
    | Some fl => edge_loop (edges b) fl
    end.
End Sat.
