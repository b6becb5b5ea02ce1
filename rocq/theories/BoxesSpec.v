(** Specification vocabulary for BoxesProps.v. *)
From Verif Require Import Base.
Set Implicit Arguments.
Open Scope nat_scope.

(** [lo,hi] is the smallest box around the boxes [bs]: it contains each of them, and each of its
    bounds is the bound of one of them. *)
Definition is_hull (bs : list (vec * vec)) (lo hi : vec) : Prop :=
  (forall b, In b bs -> box_le (fst b) (snd b) lo hi) /\
  (forall i, i < length lo -> exists b, In b bs /\ nth i lo 0%Q = nth i (fst b) 0%Q) /\
  (forall i, i < length hi -> exists b, In b bs /\ nth i hi 0%Q = nth i (snd b) 0%Q).

(** A tube given box by box, laid out as rows. *)
Definition rows_of (bs : list (vec * vec)) : list vec := flat_map (fun b => [fst b; snd b]) bs.

(** Every box of the list has dimension [d]. *)
Definition dim_ok (d : nat) (bs : list (vec * vec)) : Prop :=
  forall b, In b bs -> length (fst b) = d /\ length (snd b) = d.

(** The dimensions a caller asks to split: an explicit list, or all but dimension 0 (time). *)
Definition listed (d : nat) (pd : option (list nat)) (i : nat) : Prop :=
  match pd with
  | None => 1 <= i /\ i < d
  | Some ds => In i ds
  end.

(** Dimension [i] is to be split: it was listed, is not dimension 0, and has non-zero width. *)
Definition to_split (lb ub : vec) (pd : option (list nat)) (i : nat) : Prop :=
  listed (length lb) pd i /\ i <> 0 /\ ~ (nth i lb 0 == nth i ub 0)%Q.

(** A valid rectangle: equal dimensions, lower bounds not above upper bounds. *)
Definition valid_rect (lb ub : vec) : Prop :=
  length ub = length lb /\ forall i, i < length lb -> (nth i lb 0 <= nth i ub 0)%Q.

(** The listed dimensions exist, and none is listed twice. *)
Definition valid_dims (d : nat) (pd : option (list nat)) : Prop :=
  forall ds, pd = Some ds -> NoDup ds /\ forall i, In i ds -> i < d.
