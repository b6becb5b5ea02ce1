(** Specification vocabulary for DryvrProps.v. *)
From Verif Require Import Base.
From Coq Require Import Qabs.
Set Implicit Arguments.
Open Scope nat_scope.

(** A simulation function for states of dimension [d]: from every initial state a trace of at least [n] rows,
    stamped with the times [tm 0, tm 1, ...], that begins in that state. *)
Definition simulates (d n : nat) (tm : nat -> Q) (sim : vec -> list vec) : Prop :=
  forall p, length p = d ->
    n <= length (sim p) /\ nth_error (sim p) 0 = Some (tm 0 :: p) /\
    forall k row, nth_error (sim p) k = Some row -> exists s, row = tm k :: s /\ length s = d.

(** A valid box of dimension [d]. *)
Definition box_of (d : nat) (lo hi : vec) : Prop :=
  length lo = d /\ length hi = d /\ forall i, i < d -> (nth i lo 0 <= nth i hi 0)%Q.

(** The point [p] of the box is not in the outermost 1e-10th of it. *)
Definition inner (lo hi p : vec) : Prop :=
  length p = length lo /\ forall i, i < length lo ->
    (Qabs (nth i p 0 - (nth i hi 0 + nth i lo 0) / 2) <= (1 - (1 # 10000000000)) * ((nth i hi 0 - nth i lo 0) / 2))%Q.

(** Every side of the box is a point or at least 2e-10 long. *)
Definition sized (lo hi : vec) : Prop :=
  forall i, i < length lo -> (nth i lo 0 == nth i hi 0 \/ (2 # 10000000000) <= nth i hi 0 - nth i lo 0)%Q.

(** Step [k] of a tube: rows [2k] and [2k+1]; the state [s] at time [t] is inside, time included. *)
Definition in_step (tb : list vec) (k : nat) (t : Q) (s : vec) : Prop :=
  exists lo hi, nth_error tb (2 * k) = Some lo /\ nth_error tb (2 * k + 1) = Some hi /\ in_box lo hi (t :: s).
