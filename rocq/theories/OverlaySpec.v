(** Specification vocabulary for OverlayProps.v. *)
From Verif Require Import Base.
Set Implicit Arguments.
Open Scope nat_scope.

(** State [s] is inside step [r] of a tube (rows [2r] and [2r+1], column 0 being time). *)
Definition covers (t : list vec) (r : nat) (s : vec) : Prop :=
  exists lo hi, nth_error t (2 * r) = Some lo /\ nth_error t (2 * r + 1) = Some hi /\ in_box (tl lo) (tl hi) s.

(** A tube of [N] steps over states of dimension [d]. *)
Definition tube_shape (N d : nat) (t : list vec) : Prop :=
  length t = 2 * N /\ forall row, In row t -> length row = S d.

(** A reachability engine for [N] steps: [flow s j s'] says that a trajectory started in [s] can be in
    [s'] during step [j]. *)
Definition engine_sound (N d : nat) (flow : vec -> nat -> vec -> Prop) (engine : vec * vec -> list vec) : Prop :=
  forall lo hi, length lo = d -> length hi = d ->
    tube_shape N d (engine (lo, hi)) /\
    forall s j s', in_box lo hi s -> j < N -> flow s j s' -> covers (engine (lo, hi)) j s'.

(** Tube [t'] covers everything [t] covers. *)
Definition grows (t t' : list vec) : Prop := forall r s, covers t r s -> covers t' r s.

(** Every stored array is still there and covers at least what it covered before. *)
Definition heap_grows (h h' : list (list vec)) : Prop :=
  forall a t, nth_error h a = Some t -> exists t', nth_error h' a = Some t' /\ grows t t'.

(** Tube [t] covers, for the first [N] steps, every trajectory that starts in the box [b]. *)
Definition sound_tube (N : nat) (flow : vec -> nat -> vec -> Prop) (t : list vec) (b : vec * vec) : Prop :=
  forall s j s', in_box (fst b) (snd b) s -> flow s j s' -> j < N -> covers t j s'.

(** A cache whose answers are right: a hit for a box of dimension [d] is a stored [N]-step tube that covers
    the trajectories starting in that box. *)
Definition cache_right (N d : nat) (flow : vec -> nat -> vec -> Prop)
           (lookup : vec * vec -> option nat) (h : list (list vec)) : Prop :=
  (forall a t, nth_error h a = Some t -> tube_shape N d t) /\
  (forall b c, length (fst b) = d -> length (snd b) = d -> lookup b = Some c ->
     exists t, nth_error h c = Some t /\ sound_tube N flow t b).
