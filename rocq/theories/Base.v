(** Shared vocabulary: vectors of rationals, boxes, Python-style list helpers.

    Python floats are modelled by exact rationals [Q] throughout; rounding is not modelled. *)
From Coq Require Export List Arith ZArith QArith Qminmax Lia Bool.
Export ListNotations.
Set Implicit Arguments.
Global Open Scope nat_scope.

Notation vec := (list Q).

(** A state [s] lies in the box with lower corner [lo] and upper corner [hi]
    (all three have the same dimension). *)
Fixpoint in_box (lo hi s : vec) : Prop :=
  match lo, hi, s with
  | [], [], [] => True
  | l :: lo', h :: hi', x :: s' => (l <= x /\ x <= h)%Q /\ in_box lo' hi' s'
  | _, _, _ => False
  end.

(** The box [lo1,hi1] is contained in the box [lo2,hi2], bound by bound. *)
Fixpoint box_le (lo1 hi1 lo2 hi2 : vec) : Prop :=
  match lo1, hi1, lo2, hi2 with
  | [], [], [], [] => True
  | a :: lo1', b :: hi1', c :: lo2', d :: hi2' => (c <= a /\ b <= d)%Q /\ box_le lo1' hi1' lo2' hi2'
  | _, _, _, _ => False
  end.

(** Pointwise combination, Python's [zip]/numpy elementwise operators on equal shapes. *)
Fixpoint zipw {A B C : Type} (f : A -> B -> C) (l : list A) (m : list B) : list C :=
  match l, m with
  | a :: l', b :: m' => f a b :: zipw f l' m'
  | _, _ => []
  end.

(** [l[::2]] and [l[1::2]]. *)
Fixpoint evens {A : Type} (l : list A) : list A :=
  match l with
  | a :: _ :: l' => a :: evens l'
  | [a] => [a]
  | [] => []
  end.
Definition odds {A : Type} (l : list A) : list A := evens (tl l).

(** [l[i] = v] (no effect out of range; callers check the range first). *)
Fixpoint set_nth {A : Type} (i : nat) (v : A) (l : list A) : list A :=
  match i, l with
  | _, [] => []
  | O, _ :: l' => v :: l'
  | S i', a :: l' => a :: set_nth i' v l'
  end.

(** Option helpers. *)
Definition obind {A B : Type} (x : option A) (f : A -> option B) : option B :=
  match x with Some a => f a | None => None end.
Notation "'do' x <- a ; b" := (obind a (fun x => b)) (at level 200, x pattern, a at level 100, b at level 200).

Fixpoint mapM {A B : Type} (f : A -> option B) (l : list A) : option (list B) :=
  match l with
  | [] => Some []
  | a :: l' => do b <- f a; do bs <- mapM f l'; Some (b :: bs)
  end.

(** [itertools.product] of a list of lists, in Python's order. *)
Fixpoint product {A : Type} (ls : list (list A)) : list (list A) :=
  match ls with
  | [] => [[]]
  | l :: ls' => flat_map (fun a => map (cons a) (product ls')) l
  end.
