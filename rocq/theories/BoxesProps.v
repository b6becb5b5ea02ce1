(** Property theorems about hulls and partitions of boxes. *)
From Verif Require Import Base BaseFacts Boxes BoxesSpec BoxesProofs.
Open Scope nat_scope.

(** C23: [combine_rect] of a non-empty stretch of a tube is its smallest enclosing box. *)
Theorem C23_combine_rect_hull :
  forall bs d, bs <> [] -> dim_ok d bs ->
  exists lo hi, combine_rect (rows_of bs) = Some (lo, hi) /\ is_hull bs lo hi.
Proof.
  intros bs d H1 H2. destruct (combine_rect_hull H1 H2) as (lo & hi & A & B & _). eauto.
Qed.
Print Assumptions C23_combine_rect_hull.

(** C23: [combine_all] of a non-empty list of initial boxes is their smallest enclosing box. *)
Theorem C23_combine_all_hull :
  forall bs d, bs <> [] -> dim_ok d bs ->
  exists lo hi, combine_all bs = Some (lo, hi) /\ is_hull bs lo hi.
Proof.
  intros bs d H1 H2. destruct (combine_all_hull H1 H2) as (lo & hi & A & B & _). eauto.
Qed.
Print Assumptions C23_combine_all_hull.

(** C23: [_union_traces] is, step by step, the smallest enclosing box of the given tubes (as long as no
    tube is shorter than the first one). *)
Theorem C23_union_traces_hull :
  forall (t0 : list (vec * vec)) ts d,
  (forall t, In t (t0 :: ts) -> dim_ok d t /\ length t0 <= length t) ->
  exists us, union_traces (map rows_of (t0 :: ts)) = Some (rows_of us) /\ length us = length t0 /\
    forall k, k < length t0 ->
      is_hull (map (fun t => nth k t ([], [])) (t0 :: ts)) (fst (nth k us ([], []))) (snd (nth k us ([], []))).
Proof. exact union_traces_hull. Qed.
Print Assumptions C23_union_traces_hull.

(** C23: a hull contains every state of every box it was built from. *)
Theorem C23_hull_contains_states :
  forall bs lo hi b s, is_hull bs lo hi -> In b bs -> in_box (fst b) (snd b) s -> in_box lo hi s.
Proof. intros bs lo hi b s (H & _) Hb Hs. eapply box_le_in_box; eauto. Qed.
Print Assumptions C23_hull_contains_states.

(** C23: the converse error behaviour: nothing to combine is an error, not an empty box. *)
Theorem C23_empty_rejected : combine_rect [] = None /\ combine_all [] = None /\ union_traces [] = Some [].
Proof. repeat split. Qed.
Print Assumptions C23_empty_rejected.

Example C23_case :
  combine_rect (rows_of [([0;1],[1;2]); ([1;-1],[2;1])]%Q) = Some ([0;-1],[2;2])%Q /\
  dim_ok 2 [([0;1],[1;2]); ([1;-1],[2;1])]%Q /\
  union_traces (map rows_of [[([0;1],[1;2])]; [([1;-1],[2;1])]]%Q) = Some (rows_of [([0;-1],[2;2])]%Q).
Proof.
  split; [reflexivity|]. split; [|reflexivity].
  intros b [<-|[<-|[]]]; split; reflexivity.
Qed.

(** C24: every point of the rectangle lies in a piece. *)
Theorem C24_partition_covers :
  forall lb ub n pd x, valid_rect lb ub -> valid_dims (length lb) pd -> 1 <= n -> in_box lb ub x ->
  exists parts p, partition_rect (lb, ub) n pd = Some parts /\ In p parts /\ in_box (fst p) (snd p) x.
Proof.
  intros lb ub n pd x [H1 H2] Hd Hn Hx.
  apply partition_cover; auto. intros ds E i Hi. exact (proj2 (Hd ds E) i Hi).
Qed.
Print Assumptions C24_partition_covers.

(** C24: the pieces lie inside the rectangle, are untouched in dimensions that are not to be split, are
    cut to an n-th of the width in the others, there are n^k of them, and any two of them are separated
    along some dimension (they share at most a face). *)
Theorem C24_partition_pieces :
  forall lb ub n pd, valid_rect lb ub -> valid_dims (length lb) pd -> 1 <= n ->
  exists parts vd, partition_rect (lb, ub) n pd = Some parts /\
    NoDup vd /\ (forall i, In i vd <-> to_split lb ub pd i) /\ length parts = n ^ length vd /\
    (forall p, In p parts ->
       box_le (fst p) (snd p) lb ub /\
       (forall i, ~ to_split lb ub pd i -> nth i (fst p) 0%Q = nth i lb 0%Q /\ nth i (snd p) 0%Q = nth i ub 0%Q) /\
       (forall i, to_split lb ub pd i ->
          (nth i (snd p) 0 - nth i (fst p) 0 == (nth i ub 0 - nth i lb 0) / inject_Z (Z.of_nat n))%Q)) /\
    (forall a b p q, nth_error parts a = Some p -> nth_error parts b = Some q -> a <> b ->
       exists i, i < length lb /\
         ((nth i (snd p) 0 <= nth i (fst q) 0)%Q \/ (nth i (snd q) 0 <= nth i (fst p) 0)%Q)).
Proof. exact partition_full. Qed.
Print Assumptions C24_partition_pieces.

Example C24_case :
  valid_rect [0;0;5]%Q [1;4;5]%Q /\ valid_dims 3 (Some [1;2;0]) /\
  option_map (map (fun p => (map Qred (fst p), map Qred (snd p)))) (partition_rect ([0;0;5],[1;4;5])%Q 2 (Some [1;2;0]))
  = Some [([0;0;5],[1;2;5]); ([0;2;5],[1;4;5])]%Q.
Proof.
  split; [|split; [|reflexivity]].
  - split; [reflexivity|]. intros [|[|[|i]]] H; simpl in *; try lia; vm_compute; congruence.
  - intros ds [= <-]. split.
    + repeat constructor; simpl; intuition lia.
    + intros i [<-|[<-|[<-|[]]]]; lia.
Qed.

(** C24: with [n = 0] no piece is produced and the set to verify silently becomes empty. *)
Example C24_zero_pieces : partition_rect ([0;0],[1;4])%Q 0 None = Some [].
Proof. reflexivity. Qed.
