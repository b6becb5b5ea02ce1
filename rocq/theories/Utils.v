(** Model of small helpers of verse/utils/utils.py and verse/analysis/analysis_tree.py. *)
From Verif Require Import Base.
From Coq Require Import Qabs.
Set Implicit Arguments.
Open Scope nat_scope.

Section Dedup.
  Variables (T K : Type) (keqb : K -> K -> bool) (f : T -> K).

  (** verse/utils/utils.py:432-436, body of the loop: the inner [for ... else] appends [(i,k)] only if
      no stored pair has an equal key.  Python's [==] on keys is [keqb]. *)
  Definition dedup_step (o : list (T * K)) (ik : T * K) : list (T * K) :=
    if existsb (fun p => keqb (snd ik) (snd p)) o then o else o ++ [ik].

  (** verse/utils/utils.py:428-437, [dedup]. *)
  Definition dedup (l : list T) : list T :=
    map fst (fold_left dedup_step (map (fun i => (i, f i)) l) []).
End Dedup.

(** verse/analysis/analysis_tree.py:19-24, [index_of]. *)
Fixpoint index_of {A : Type} (eqb : A -> A -> bool) (l : list A) (x : A) : option nat :=
  match l with
  | [] => None
  | v :: l' => if eqb v x then Some 0 else option_map S (index_of eqb l' x)
  end.

(** Result of [near_split]: Python returns [None] when neither argument is truthy. *)
Inductive split_result := SplitNone | SplitDivZero | SplitBins (bins : list Z).

(** verse/utils/utils.py:356-358, branch [num_bins]: [divmod] is floor division;
    [[v] * k] with a negative [k] is the empty list. *)
Definition near_split_num (x num_bins : Z) : list Z :=
  let quotient := (x / num_bins)%Z in
  let remainder := (x mod num_bins)%Z in
  repeat (quotient + 1)%Z (Z.to_nat remainder) ++ repeat quotient (Z.to_nat (num_bins - remainder)).

(** verse/utils/utils.py:345-360, [near_split]; arguments default to [None] (here [0], equally falsy).
    [int(np.ceil(x / size_bins))] is the integer ceiling. *)
Definition near_split (x num_bins size_bins : Z) : split_result :=
  if negb (num_bins =? 0)%Z then SplitBins (near_split_num x num_bins)
  else if negb (size_bins =? 0)%Z then
    let nb := (- ((- x) / size_bins))%Z in
    if negb (nb =? 0)%Z then SplitBins (near_split_num x nb) else SplitNone
  else SplitNone.

(** verse/utils/utils.py:32-34, [lmap]. *)
Definition lmap (v x0 x1 y0 y1 : Q) : Q := (y0 + (v - x0) * (y1 - y0) / (x1 - x0))%Q.

(** verse/utils/utils.py:47-48, [constrain] = [np.clip(x, a, b)] = [minimum(maximum(x, a), b)]. *)
Definition constrain (x a b : Q) : Q := Qmin (Qmax x a) b.

(** verse/utils/utils.py:51-57, [not_zero]; [Qlt_le_dec eps |x|] is the comparison [abs(x) > eps]. *)
Definition not_zero (x eps : Q) : Q :=
  if Qlt_le_dec eps (Qabs x) then x else if Qle_bool 0 x then eps else (- eps)%Q.
