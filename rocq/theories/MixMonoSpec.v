(** Specification vocabulary for MixMonoProps.v. *)
From Verif Require Import Base.
Set Implicit Arguments.
Open Scope nat_scope.

(** Componentwise order and equality. *)
Definition vle (a b : vec) : Prop := Forall2 Qle a b.
Definition veq (a b : vec) : Prop := Forall2 Qeq a b.

(** [g] is a mixed-monotone decomposition of the dynamics [f] for states of dimension [d] and disturbances of
    dimension [e]: it is [f] on the diagonal, increasing in its first and decreasing in its second pair of arguments. *)
Definition mixed_monotone (d e : nat) (f : vec -> vec -> vec) (g : vec -> vec -> vec -> vec -> vec) : Prop :=
  (forall x w y v, length x = d -> length w = e -> length y = d -> length v = e -> length (g x w y v) = d) /\
  (forall x w, length x = d -> length w = e -> veq (g x w x w) (f x w)) /\
  (forall x w y v x' w' y' v', length x = d -> length w = e -> length y = d -> length v = e ->
     vle x x' -> vle w w' -> vle y' y -> vle v' v -> vle (g x w y v) (g x' w' y' v')).

(** [m] is the least, or the greatest, value of component [i] of [f] over the boxes [b] and [v]. *)
Definition is_min (f : vec -> vec -> vec) (i : nat) (b v : vec * vec) (m : Q) : Prop :=
  (forall x w, in_box (fst b) (snd b) x -> in_box (fst v) (snd v) w -> (m <= nth i (f x w) 0)%Q) /\
  exists x w, in_box (fst b) (snd b) x /\ in_box (fst v) (snd v) w /\ (m == nth i (f x w) 0)%Q.
Definition is_max (f : vec -> vec -> vec) (i : nat) (b v : vec * vec) (m : Q) : Prop :=
  (forall x w, in_box (fst b) (snd b) x -> in_box (fst v) (snd v) w -> (nth i (f x w) 0 <= m)%Q) /\
  exists x w, in_box (fst b) (snd b) x /\ in_box (fst v) (snd v) w /\ (m == nth i (f x w) 0)%Q.

(** The states of the trajectory from [x] under the disturbances [ws 0, ws 1, ...]. *)
Fixpoint trajectory (f : vec -> vec -> vec) (ws : nat -> vec) (x : vec) (k : nat) : vec :=
  match k with 0 => x | S k' => f (trajectory f ws x k') (ws k') end.

(** Step [k] of a tube (rows [2k] and [2k+1], time first) contains the state [s]. *)
Definition in_step (tb : list vec) (k : nat) (s : vec) : Prop :=
  exists t1 lo t2 hi, nth_error tb (2 * k) = Some (t1 :: lo) /\ nth_error tb (2 * k + 1) = Some (t2 :: hi) /\ in_box lo hi s.
