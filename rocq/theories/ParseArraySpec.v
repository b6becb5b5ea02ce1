(** What callers of the cached analysis rely on. *)
From Coq Require Import Reals Qreals.
From Verif Require Import Base PyText Dict Piecewise PiecewiseSpec ParseArray.
Set Implicit Arguments.
Open Scope nat_scope.

(** Values inside a box, coordinate by coordinate. *)
Definition in_box (vs : list R) (bs : list (Q * Q)) : Prop :=
  Forall2 (fun v b => (Q2R (fst b) <= v <= Q2R (snd b))%R) vs bs.

(** Two dictionaries of bounds with the same names and equal numbers. *)
Definition same_intervals (l l' : list (Q * Q)) : Prop := Forall2 (fun i j => (fst i == fst j)%Q /\ (snd i == snd j)%Q) l l'.
Definition same_bounds (b b' : bounds) : Prop := Forall2 (fun p q => fst p = fst q /\ same_intervals (snd p) (snd q)) b b'.
(** A union of lists of intervals that loses no value of theirs. *)
Definition keeps (merge : list (list (Q * Q)) -> list (Q * Q)) : Prop :=
  forall bl l v, In l bl -> within v l -> within v (merge bl).
(** A key tells the bounds and the name of the function. *)
Definition tells {K} (k1 k2 : bounds -> word -> K) : Prop :=
  forall b b' x x', k1 b x = k2 b' x' -> same_bounds b b' /\ x = x'.

Section Spec.
  Variable O : Type.
  Variable call : word -> list R -> option R.
  Variable analyse : O -> func -> bounds -> option bounds.

  (** [after f vs x v]: in a run of [f] on the arguments [vs], variable [x] is [v] at the first return. *)
  Definition after (f : func) (vs : list R) (x : word) (v : R) : Prop :=
    exists s', runs call (combine (params f) vs) (before_return (fbody f)) (inl s') /\ dget word_eqb x s' = Some v.

  (** [b] bounds variable [x] of [f] for all arguments in the box. *)
  Definition bounds_of (f : func) (box : list (Q * Q)) (x : word) (b : bounds) : Prop :=
    forall vs v, in_box vs box -> after f vs x v -> exists l, dget word_eqb x b = Some l /\ within v l.

  (** The analysis of one box gives a single interval for [x]. *)
  Definition single (o : O) (f : func) (x : word) : Prop :=
    forall box r l, analyse o f (named (params f) box) = Some r -> dget word_eqb x r = Some l -> length l = 1.

  (** The calls of a history. *)
  Definition calls (es : list (event O)) (f : func) : Prop := exists o box cache n, In (Call o f box cache n) es.
  Definition never_splits (es : list (event O)) : Prop := forall o f box cache n, In (Call o f box cache n) es -> n = 1.
  Definition same_options (o : O) (es : list (event O)) : Prop := forall o' f box cache n, In (Call o' f box cache n) es -> o' = o.
  Definition distinct_names (es : list (event O)) : Prop := forall f g, calls es f -> calls es g -> fname f = fname g -> f = g.
End Spec.
