(** Specification vocabulary for lane adjacency (C54) and lane names (C71). *)
From Coq Require Import Ascii String.
From Verif Require Import Base PyText Dict LaneMap3d.
Set Implicit Arguments.
Open Scope nat_scope.

Definition opposite (r : rel) : rel :=
  match r with Left => Right | Right => Left | Up => Down | Down => Up end.
Definition rel_name (r : rel) : word :=
  match r with Left => w "left" | Right => w "right" | Up => w "up" | Down => w "down" end.

Fixpoint count (x : word) (l : list word) : nat :=
  match l with [] => 0 | y :: l' => (if word_eqb x y then 1 else 0) + count x l' end.

Section S.
  Variables (L : Type) (lid : L -> word).

  (** The neighbours registered for lane [a] in direction [r], [[]] for an unknown lane. *)
  Definition neighbours (r : rel) (m : lmap L) (a : word) : list word :=
    match dget word_eqb a (dict_of r m) with Some l => l | None => [] end.
  (** How often [b] is registered as the [r]-neighbour of [a]. *)
  Definition registered (r : rel) (m : lmap L) (a b : word) : nat := count b (neighbours r m a).

  (** What the history says, without reference to dictionaries: the neighbours named by the calls, in order. *)
  Definition named_by (r : rel) (a : word) (c : call L) : list word :=
    match c with
    | AddLanes _ => []
    | PairLanes s d x =>
      (if word_eqb x (rel_name r) then if word_eqb a s then [d] else [] else []) ++
      (if word_eqb x (rel_name (opposite r)) then if word_eqb a d then [s] else [] else [])
    end.

  (** Lane [a] has been added, by the constructor or by a call. *)
  Definition added (init : list L) (calls : list (call L)) (a : word) : Prop :=
    (exists l, In l init /\ lid l = a) \/ (exists ls l, In (AddLanes ls) calls /\ In l ls /\ lid l = a).

  (** No lane is added again once it has been named in a pairing, and every pairing names lanes already
      added and one of the four relations. *)
  Definition orderly (init : list L) (calls : list (call L)) : Prop :=
    (forall pre ls post, calls = pre ++ AddLanes ls :: post ->
       forall l s d r, In l ls -> In (PairLanes s d r) pre -> lid l <> s /\ lid l <> d) /\
    (forall pre s d x post, calls = pre ++ PairLanes s d x :: post ->
       added init pre s /\ added init pre d /\ exists r, x = rel_name r).
End S.

Definition uppers (s : word) : Prop := s <> [] /\ Forall (fun c => is_upper c = true) s.
Definition digits (s : word) : Prop := s <> [] /\ Forall (fun c => is_digit c = true) s.
