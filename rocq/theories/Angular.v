(** Bounds of angles: verse/analysis/parsed_wrap/bounded_angular.py.

    Simplification: real numbers instead of floats (no rounding, no signed zero); [np.pi] is PI.  The optimiser
    around [point_error_general] ([box_extreme_error], lines 130-153) is not modelled. *)
From Coq Require Import Reals Lra Lia List.
From Verif Require Import Base Angle.
Import ListNotations.
Set Implicit Arguments.
Open Scope R_scope.

(** [wrap_angle], lines 5-9 *)
Definition wrap_angle (x : R) : R := if Req_EM_T (rmod x (2 * PI)) PI then PI else rmod (x + PI) (2 * PI) - PI.

(** [angle_in_wrapped_interval], lines 11-23 *)
Definition in_wrapped (angle ang_min ang_max : R) : bool :=
  let a := wrap_angle angle in let lo := wrap_angle ang_min in let hi := wrap_angle ang_max in
  if Rle_dec lo hi then (if Rle_dec lo a then (if Rle_dec a hi then true else false) else false)
  else if Rle_dec lo a then true else if Rle_dec a hi then true else false.

(** [arr.min()], [min(...)] of a non-empty list; the empty list is an error. *)
Definition least (l : list R) : option R := match l with [] => None | x :: l' => Some (fold_left Rmin l' x) end.
Definition greatest (l : list R) : option R := match l with [] => None | x :: l' => Some (fold_left Rmax l' x) end.

(** * Projections *)
Inductive axis := AX | AY | AZ.
Definition when (b : bool) (x : R) : list R := if b then [x] else [].

(** [projection_bounds_general], lines 26-79: the candidates for psi (32-43) and theta (45-61) *)
Definition psi_candidates (psi eps : R) (ax : axis) : list R :=
  let lo := wrap_angle (psi - eps) in let hi := wrap_angle (psi + eps) in
  [lo; hi] ++ match ax with
              | AX | AY => when (in_wrapped 0 lo hi) 0 ++ when (in_wrapped PI lo hi) PI
              | AZ => when (in_wrapped (PI / 2) lo hi) (PI / 2) ++ when (in_wrapped (- PI / 2) lo hi) (- PI / 2)
              end.
Definition theta_candidates (theta eps : R) (ax : axis) : list R :=
  let lo := wrap_angle (theta - eps) in let hi := wrap_angle (theta + eps) in
  match ax with
  | AZ => [0]
  | _ => [lo; hi] ++ when (in_wrapped (PI / 2) lo hi) (PI / 2) ++ when (in_wrapped (- PI / 2) lo hi) (- PI / 2) ++
         match ax with AX => when (in_wrapped 0 lo hi) 0 ++ when (in_wrapped PI lo hi) PI | _ => [] end
  end.
(** lines 70-75 *)
Definition project (ax : axis) (psi theta : R) : R :=
  match ax with AX => cos psi * cos theta | AY => cos psi * sin theta | AZ => sin psi end.
Definition projections (theta psi eps : R) (ax : axis) : list R :=
  flat_map (fun p => map (project ax p) (theta_candidates theta eps ax)) (psi_candidates psi eps ax).

(** [point_error_general], lines 81-114: (largest, smallest) error *)
Definition point_error (x y z eps_r eps : R) (ax : axis) : option (R * R) :=
  let rho := sqrt (x ^ 2 + y ^ 2 + z ^ 2) in
  let theta := arctan2 y x in
  let psi := arctan2 z (sqrt (x ^ 2 + y ^ 2)) in
  let p_true := project ax psi theta in
  let ps := projections theta psi eps ax in
  do hi <- greatest (map (fun p => if Rle_dec 0 p then (rho + eps_r) * p else (rho - eps_r) * p) ps);
  do lo <- least (map (fun p => if Rle_dec 0 p then (rho - eps_r) * p else (rho + eps_r) * p) ps);
  Some (hi - rho * p_true, lo - rho * p_true).

(** * Rectangles: x from [xmin] to [xmax], y from [ymin] to [ymax] *)
Record rect := mk_rect { xmin : R; xmax : R; ymin : R; ymax : R }.

Definition lt (a b : R) : bool := if Rlt_dec a b then true else false.

(** [rect_corners], lines 178-185 *)
Definition corners (r : rect) : list (R * R) := [(xmin r, ymin r); (xmin r, ymax r); (xmax r, ymin r); (xmax r, ymax r)].

(** [angular_bounds_rectangle], lines 155-176 *)
Definition bounds_rectangle (r : rect) : option (R * R) :=
  let m := mk_rect (- xmax r) (- xmin r) (- ymax r) (- ymin r) in
  let angles := map (fun c => arctan2 (snd c) (fst c)) (corners m) in
  if lt (xmin m) 0 && lt 0 (xmax m) && lt (ymin m) 0 && lt 0 (ymax m) then Some (- PI, PI)
  else if negb (lt (xmax m) 0 && lt (ymin m) 0 && lt 0 (ymax m)) then
    do lo <- least angles; do hi <- greatest angles; Some (lo, hi)
  else
    let am := map (fun a => rmod a (2 * PI)) angles in
    do lo <- least am; do hi <- greatest am;
    Some (rmod (lo + PI) (2 * PI) - PI, rmod (hi + PI) (2 * PI) - PI).

(** [angular_span_between_rects], lines 187-222 *)
Definition span_between (r1 r2 : rect) : option (R * R) :=
  if (lt (xmin r1) (xmin r2) && lt (xmin r2) (xmax r1) && lt (ymin r1) (ymin r2) && lt (ymin r2) (ymax r1)) ||
     (lt (xmin r2) (xmin r1) && lt (xmin r1) (xmax r2) && lt (ymin r2) (ymin r1) && lt (ymin r1) (ymax r2))
  then Some (- PI, PI)
  else
    let angles := flat_map (fun c2 => map (fun c1 => arctan2 (snd c2 - snd c1) (fst c2 - fst c1)) (corners r1)) (corners r2) in
    do lo <- least angles; do hi <- greatest angles;
    if Rle_dec (hi - lo) PI then Some (lo, hi)
    else
      let am := map (fun a => rmod a (2 * PI)) angles in
      do lo <- least am; do hi <- greatest am;
      Some (if Rlt_dec PI lo then lo - 2 * PI else lo, if Rlt_dec PI hi then hi - 2 * PI else hi).

(** A bound in the sense of [combine_angular_bounds]: one interval, or several. *)
Inductive bound := One (a b : R) | Many (l : list (R * R)).

(** [angular_span_rect_parser], lines 239-252 *)
Definition span_rect (y_bounds x_bounds : R * R) : option bound :=
  do s <- span_between (mk_rect 0 0 0 0) (mk_rect (fst x_bounds) (snd x_bounds) (fst y_bounds) (snd y_bounds));
  Some (if Rle_dec (fst s) (snd s) then One (fst s) (snd s) else Many [(fst s, PI); (- PI, snd s)]).

(** * Differences *)
(** The loop of lines 270-274, from [d] and [n]; [None]: the fuel is used up. *)
Fixpoint lift (fuel : nat) (d : R) (n : nat) : option (R * nat) :=
  if Rlt_dec d 0 then match fuel with O => None | S f => lift f (d + 2 * PI) (S n) end else Some (d, n).

(** [angular_bounds_diff_correct], lines 254-289 *)
Definition diff_bounds (fuel : nat) (theta ref : R * R) : option bound :=
  let full i := if Req_EM_T (fst i) (- PI) then (if Req_EM_T (snd i) PI then true else false) else false in
  if full theta || full ref then Some (One (- PI) PI)
  else
    do r <- lift fuel (fst theta - snd ref) 0;
    let lo := fst r in
    let hi := snd theta - fst ref + 2 * PI * INR (snd r) in
    if Rle_dec lo PI then
      if Rle_dec PI hi then Some (Many [(lo, PI); (- PI, hi - 2 * PI)])
      else let a := wrap_angle lo in let b := wrap_angle hi in
           Some (if Rlt_dec b a then Many [(a, PI); (- PI, b)] else One a b)
    else let a := wrap_angle lo in let b := wrap_angle hi in
         Some (if Rlt_dec b a then Many [(a, PI); (- PI, b)] else One a b).

(** * Unions *)
(** lines 311-321 *)
Definition normalized (bs : list bound) : list (R * R) :=
  flat_map (fun b => match b with
                     | Many l => l
                     | One lo hi => if Rlt_dec hi lo then [(lo, PI); (- PI, hi)] else [(lo, hi)]
                     end) bs.

(** lines 326-333: [sort] with [sort_key] is stable. *)
Definition key_le (i j : R * R) : bool :=
  match Rle_dec 0 (fst i), Rle_dec 0 (fst j) with
  | left _, right _ => true
  | right _, left _ => false
  | _, _ => if Rle_dec (fst i) (fst j) then true else false
  end.
Fixpoint insert (i : R * R) (l : list (R * R)) : list (R * R) :=
  match l with [] => [i] | j :: l' => if key_le i j then i :: l else j :: insert i l' end.
Definition sorted (l : list (R * R)) : list (R * R) := fold_right insert [] l.

(** [_intervals_overlap_or_adjacent], lines 355-366 *)
Definition le (a b : R) : bool := if Rle_dec a b then true else false.
Definition overlap (i j : R * R) : bool :=
  if le (fst i) (snd i) && le (fst j) (snd j) then le (fst i) (snd j) && le (fst j) (snd i) else false.

(** lines 335-347; the last interval first *)
Definition merge_step (merged : list (R * R)) (cur : R * R) : list (R * R) :=
  match merged with
  | [] => [cur]
  | last :: rest => if overlap last cur then (Rmin (fst last) (fst cur), Rmax (snd last) (snd cur)) :: rest else cur :: merged
  end.
Definition merged (l : list (R * R)) : list (R * R) := rev (fold_left merge_step l []).

(** The loops of lines 376-379 and 389-392: the last index at which a test holds. *)
Definition last_index {A : Type} (p : A -> bool) (l : list A) : option nat :=
  snd (fold_left (fun st x => (S (fst st), if p x then Some (fst st) else snd st)) l (O, None)).

(** [_intervals_overlap_or_adjacent_wrapped], lines 369-399.  A negative slice bound would count from the end; the
    index [largest] is at most [lastpos], so the difference is not negative. *)
Definition merge_wrapped (l : list (R * R)) : list (R * R) :=
  if (length l <? 2)%nat then l else
  match last_index (fun i => le 0 (fst i)) l with
  | None => l
  | Some lastpos =>
    if (lastpos =? length l - 1)%nat then l else
    let lst := List.last l (0, 0) in
    if le (snd lst) 0 then l else
    match last_index (fun i => lt (snd i) (snd lst)) (firstn (lastpos + 1) l) with
    | None => l
    | Some k => firstn (lastpos - k) l ++ [(fst lst, snd (nth k l (0, 0)))]
    end
  end.

(** [_format_bounds], lines 402-424 *)
Definition format (l : list (R * R)) : list (R * R) :=
  let pos := filter (fun i => le 0 (fst i)) l in
  let neg := filter (fun i => le (snd i) 0) l in
  match pos, neg with
  | p :: _, n :: _ => [p; n]
  | _ :: _, [] => pos
  | [], _ :: _ => neg
  | [], [] => l
  end.

(** [combine_angular_bounds], lines 291-352 *)
Definition combine_bounds (bs : list bound) : list (R * R) :=
  match sorted (normalized bs) with
  | [] => []
  | l => let m := merged l in format (if (1 <? length m)%nat then merge_wrapped m else m)
  end.
