(** What DryvrGlobalProps.v states. *)
From Coq Require Import Reals.
From Verif Require Import Base.
Set Implicit Arguments.
Open Scope R_scope.

(** [p] lies to the left of the line from [a] to [b], or on it. *)
Definition left_of (a b p : R * R) : Prop := (fst b - fst a) * (snd p - snd a) - (snd b - snd a) * (fst p - fst a) >= 0.
Definition rsum (l : list R) : R := fold_right Rplus 0 l.
(** [p] is a mixture of the points with the numbers [vs]. *)
Definition mixture (pts : list (R * R)) (vs : list nat) (p : R * R) : Prop :=
  exists w, (forall v, In v vs -> 0 <= w v) /\ rsum (map w vs) = 1 /\
    rsum (map (fun v => w v * fst (nth v pts (0, 0))) vs) = fst p /\ rsum (map (fun v => w v * snd (nth v pts (0, 0))) vs) = snd p.
(** [b] follows [a] in the list, or [a] is the last and [b] the first. *)
Definition next (vs : list nat) (a b : nat) : Prop :=
  exists i, nth_error vs i = Some a /\ nth_error vs (S i mod length vs) = Some b.
(** [vs] are the corners of the convex hull of the points, against the clock; the points are not all on one line. *)
Definition corners_of (pts : list (R * R)) (vs : list nat) : Prop :=
  (exists a b p, In a pts /\ In b pts /\ In p pts /\ ~ left_of a b p) /\
  (forall v, In v vs -> (v < length pts)%nat) /\ (forall p, In p pts -> mixture pts vs p) /\
  forall a b p, next vs a b -> In p pts -> left_of (nth a pts (0, 0)) (nth b pts (0, 0)) p.

(** As in DryvrSpec.v, with reals. *)
Definition rsimulates (d n : nat) (tm : nat -> R) (sim : list R -> list (list R)) : Prop :=
  forall p, length p = d ->
    (n <= length (sim p))%nat /\ nth_error (sim p) 0 = Some (tm 0%nat :: p) /\
    forall k row, nth_error (sim p) k = Some row -> exists s, row = tm k :: s /\ length s = d.
Definition rbox_of (d : nat) (lo hi : list R) : Prop :=
  length lo = d /\ length hi = d /\ forall i, (i < d)%nat -> nth i lo 0 <= nth i hi 0.
Definition rin_box (lo hi s : list R) : Prop :=
  length s = length lo /\ length s = length hi /\ forall i, (i < length s)%nat -> nth i lo 0 <= nth i s 0 <= nth i hi 0.
Definition rinner (lo hi p : list R) : Prop :=
  length p = length lo /\ forall i, (i < length lo)%nat ->
    Rabs (nth i p 0 - (nth i hi 0 + nth i lo 0) / 2) <= (1 - 1 / 10000000000) * ((nth i hi 0 - nth i lo 0) / 2).
Definition rsized (lo hi : list R) : Prop :=
  forall i, (i < length lo)%nat -> nth i lo 0 = nth i hi 0 \/ 2 / 10000000000 <= nth i hi 0 - nth i lo 0.
Definition rin_step (tb : list (list R)) (k : nat) (t : R) (s : list R) : Prop :=
  exists lo hi, nth_error tb (2 * k) = Some lo /\ nth_error tb (2 * k + 1) = Some hi /\ rin_box lo hi (t :: s).
(** The step(s) of a tube that belong to row [k] of a trace of [n] rows. *)
Definition rsteps (disc : bool) (n k j : nat) : Prop := if disc then j = k else (j = k \/ S j = k) /\ (j < n - 1)%nat.
