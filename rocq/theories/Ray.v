(** Rays, circles, rectangles and ellipses: verse/utils/utils.py 94-109, 363-413.

    Simplifications: real numbers instead of floating point numbers; a zero is a positive zero. *)
From Coq Require Import Reals List Bool.
From Verif Require Import Angle Polygon.
Import ListNotations.
Open Scope R_scope.

(** point_in_ellipse, utils.py 94-109 *)
Definition point_in_ellipse (p center : pt) (angle length width : R) : bool :=
  let ru := rotate angle (fst p - fst center, snd p - snd center) in
  if Rlt_dec (Rsqr (fst ru / length) + Rsqr (snd ru / width)) 1 then true else false.

(** solve_trinom, utils.py 408-413.  None stands for (None, None). *)
Definition solve_trinom (a b c : R) : option (R * R) :=
  let delta := Rsqr b - 4 * a * c in
  if Rle_dec 0 delta then Some ((- b - sqrt delta) / (2 * a), (- b + sqrt delta) / (2 * a)) else None.

(** Values of numpy: numbers, infinities, nan. *)
Inductive ext := Fin (x : R) | PInf | NInf | NaN.

(** distance_to_circle, utils.py 363-375.  [if root and root > 0]: a root 0 counts as none. *)
Definition distance_to_circle (center : pt) (radius : R) (direction : pt) : ext :=
  let a := Rsqr (norm (fst direction / radius) (snd direction / radius)) in
  let b := - 2 * dotp center (fst direction / Rsqr radius, snd direction / Rsqr radius) in
  let c := Rsqr (norm (fst center / radius) (snd center / radius)) - 1 in
  match solve_trinom a b c with
  | Some (root_inf, root_sup) =>
    if Rlt_dec 0 root_inf then Fin root_inf else if Rlt_dec 0 root_sup then Fin 0 else PInf
  | None => PInf
  end.

(** Division, subtraction, comparison and multiplication of numpy. *)
Definition ediv (x y : R) : ext :=
  if Req_EM_T y 0 then (if Rlt_dec 0 x then PInf else if Rlt_dec x 0 then NInf else NaN) else Fin (x / y).
Definition esub (x y : ext) : ext :=
  match x, y with
  | Fin a, Fin b => Fin (a - b)
  | NaN, _ | _, NaN => NaN
  | PInf, PInf | NInf, NInf => NaN
  | PInf, _ | _, NInf => PInf
  | NInf, _ | _, PInf => NInf
  end.
Definition elt (x y : ext) : bool :=
  match x, y with
  | Fin a, Fin b => if Rlt_dec a b then true else false
  | NaN, _ | _, NaN => false
  | NInf, NInf | PInf, _ | _, NInf => false
  | NInf, _ | _, PInf => true
  end.
Definition ele (x y : ext) : bool :=
  match x, y with
  | Fin a, Fin b => if Rle_dec a b then true else false
  | NaN, _ | _, NaN => false
  | NInf, _ | _, PInf => true
  | PInf, _ | _, NInf => false
  end.
(** [max] of Python: the first argument unless the second is greater. *)
Definition emax (x y : ext) : ext := if elt x y then y else x.
Definition emul (x : ext) (y : R) : ext :=
  match x with
  | Fin a => Fin (a * y)
  | NaN => NaN
  | PInf => if Rlt_dec 0 y then PInf else if Rlt_dec y 0 then NInf else NaN
  | NInf => if Rlt_dec 0 y then NInf else if Rlt_dec y 0 then PInf else NaN
  end.
(** interval_distance, utils.py 186-191 *)
Definition einterval_distance (i j : ext * ext) : ext :=
  if elt (fst i) (fst j) then esub (fst j) (snd i) else esub (fst i) (snd j).

(** utils.py 389-397: one side of the rectangle. *)
Definition minus (p q : pt) : pt := (fst p - fst q, snd p - snd q).
Definition unit_of (p : pt) : pt := (fst p / norm (fst p) (snd p), snd p / norm (fst p) (snd p)).
Definition side_interval (r q a b : pt) : ext * ext :=
  let u := unit_of (minus b a) in
  let rqu := dotp (minus q r) u in
  let i := (ediv (dotp (minus a r) u) rqu, ediv (dotp (minus b r) u) rqu) in
  if Rle_dec 0 rqu then i else (snd i, fst i).

(** distance_to_rect, utils.py 378-405.  [c] is not used.  Sides of length 0 (nan in numpy) are not meant. *)
Definition distance_to_rect (r q a b c d : pt) : ext :=
  let i1 := side_interval r q a b in
  let i2 := side_interval r q a d in
  if ele (einterval_distance i1 i2) (Fin 0) && ele (einterval_distance (Fin 0, Fin 1) i1) (Fin 0) && ele (einterval_distance (Fin 0, Fin 1) i2) (Fin 0)
  then emul (emax (fst i1) (fst i2)) (norm (fst q - fst r) (snd q - snd r))
  else PInf.
