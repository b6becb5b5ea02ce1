(** Property theorems about verse/utils/utils.py helpers. *)
From Verif Require Import Base Utils UtilsSpec UtilsProofs.
From Coq Require Import Sorting.Sorted Qabs.
Open Scope nat_scope.

(** C01: the output consists of the elements at the positions (in increasing order) that are the
    first with their key, and of nothing else. *)
Theorem C01_dedup_first_occurrences :
  forall (T K : Type) (keqb : K -> K -> bool) (f : T -> K),
    (forall a b, keqb a b = true <-> a = b) ->
    forall l : list T,
    exists ps, StronglySorted lt ps /\ (forall i, In i ps <-> first_at f l i) /\
               map Some (dedup keqb f l) = map (nth_error l) ps.
Proof. exact dedup_spec. Qed.
Print Assumptions C01_dedup_first_occurrences.

Example C01_case : dedup Nat.eqb (fun p : nat * nat => fst p) [(1,7);(2,8);(1,9);(3,1);(2,2)] = [(1,7);(2,8);(3,1)].
Proof. reflexivity. Qed.
Example C01_hyp : forall a b, Nat.eqb a b = true <-> a = b.
Proof. exact Nat.eqb_eq. Qed.

(** C61: near_split with a number of bins. *)
Theorem C61_near_split_bins :
  forall x n : Z, (0 < n)%Z ->
    near_split x n 0 = SplitBins (near_split_num x n) /\
    let bins := near_split_num x n in
    sumZ bins = x /\ Z.of_nat (length bins) = n /\
    forall a b, In a bins -> In b bins -> (Z.abs (a - b) <= 1)%Z.
Proof.
  intros x n Hn. split; [|exact (near_split_num_spec x Hn)].
  unfold near_split. destruct (Z.eqb_spec n 0); [lia|reflexivity].
Qed.
Print Assumptions C61_near_split_bins.

Example C61_bins_case : near_split 11 4 0 = SplitBins [3;3;3;2]%Z.
Proof. reflexivity. Qed.

(** C61: near_split with a bin size: no bin exceeds the size. *)
Theorem C61_near_split_size :
  forall x s : Z, (0 < x)%Z -> (0 < s)%Z ->
    exists bins, near_split x 0 s = SplitBins bins /\ sumZ bins = x /\
      (forall a, In a bins -> (0 < a <= s)%Z) /\
      (forall a b, In a bins -> In b bins -> (Z.abs (a - b) <= 1)%Z).
Proof. exact near_split_size_spec. Qed.
Print Assumptions C61_near_split_size.

Example C61_size_case : near_split 10 0 4 = SplitBins [4;3;3]%Z.
Proof. reflexivity. Qed.

(** C62: the linear map sends range ends to range ends, is inverted by swapping the ranges and
    preserves order. *)
Theorem C62_lmap :
  forall x0 x1 y0 y1 : Q, ~ (x0 == x1)%Q ->
    (lmap x0 x0 x1 y0 y1 == y0)%Q /\ (lmap x1 x0 x1 y0 y1 == y1)%Q /\
    (~ (y0 == y1)%Q -> forall v, (lmap (lmap v x0 x1 y0 y1) y0 y1 x0 x1 == v)%Q) /\
    ((x0 < x1)%Q -> (y0 <= y1)%Q -> forall v w, (v <= w)%Q ->
       (lmap v x0 x1 y0 y1 <= lmap w x0 x1 y0 y1)%Q).
Proof.
  intros x0 x1 y0 y1 H. destruct (lmap_ends y0 y1 H) as [A B].
  split; [exact A|]. split; [exact B|]. split.
  - intros H' v. exact (lmap_inv v H H').
  - intros H1 H2 v w Hv. exact (lmap_mono H1 H2 Hv).
Qed.
Print Assumptions C62_lmap.

(** C62: constrain returns the nearest point of the interval. *)
Theorem C62_constrain :
  forall x a b : Q, (a <= b)%Q ->
    (a <= constrain x a b <= b)%Q /\
    forall y, (a <= y <= b)%Q -> (Qabs (constrain x a b - x) <= Qabs (y - x))%Q.
Proof. exact constrain_spec. Qed.
Print Assumptions C62_constrain.

(** C62: not_zero is never closer to zero than eps, keeps large values and keeps the sign. *)
Theorem C62_not_zero :
  forall x eps : Q, (0 < eps)%Q ->
    (eps <= Qabs (not_zero x eps))%Q /\ ((eps < Qabs x)%Q -> not_zero x eps = x) /\
    (0 <= x -> 0 < not_zero x eps)%Q /\ (x < 0 -> not_zero x eps < 0)%Q.
Proof. exact not_zero_spec. Qed.
Print Assumptions C62_not_zero.

Example C62_case : (lmap (1#2) 0 1 10 20 == 15)%Q /\ (constrain 7 0 5 == 5)%Q /\ (not_zero (-(1#1000)) (1#100) == -(1#100))%Q.
Proof. vm_compute. auto. Qed.

(** C63: index_of finds the first position, and [None] means absent. *)
Theorem C63_index_of :
  forall (A : Type) (eqb : A -> A -> bool), (forall a b, eqb a b = true <-> a = b) ->
  forall l x,
    match index_of eqb l x with
    | Some i => nth_error l i = Some x /\ forall j, j < i -> nth_error l j <> Some x
    | None => ~ In x l
    end.
Proof. exact index_of_spec. Qed.
Print Assumptions C63_index_of.

Example C63_case : index_of Nat.eqb [5;6;7;6] 6 = Some 1 /\ index_of Nat.eqb [5;6] 9 = None.
Proof. split; reflexivity. Qed.
