(** C57: fixed-point detection (verse/utils/fixed_points.py). *)
From Coq Require Import Ascii String Reals Qreals Lra.
From Verif Require Import Base BaseFacts PyText Dict ResetProofs FixedPoints FixedPointsSpec FixedPointsProofs FixedPointsMain.
Set Implicit Arguments.
Open Scope nat_scope.

(** When the solver answers the query it is asked correctly, [contain_all_fix] returns, without failing, True exactly
    when every point of the first union of boxes is in the second one. *)
Theorem C57_contains unsat n v rows r1 r2 : rectangular n (Some (v :: rows) :: r1) -> rectangular n r2 ->
  (forall q, query (Some (v :: rows) :: r1) r2 = Some q -> exact unsat q) ->
  exists b, contain_all_fix unsat (Some (v :: rows) :: r1) r2 = Some b /\
    (b = true <-> forall x, in_union (Some (v :: rows) :: r1) x -> in_union r2 x).
Proof. apply contains_exact. Qed.

(** [reach_at_fix] on one tree: there is one encoding of (node, joint state), used for every window, that confuses
    neither joint states nor mode combinations; the union of the boxes of the result is the set of encodings of the
    joint states found in the steps of the tubes that lie inside the window. *)
Theorem C57_reach dims times t : tree_ok dims times t ->
  exists enc : fnode -> list (list R) -> list R,
    (forall nd nd' k k' ys ys', In nd (fnodes t) -> In nd' (fnodes t) ->
       2 * k + 1 < length (times nd) -> 2 * k' + 1 < length (times nd') -> in_step nd k ys -> in_step nd' k' ys' ->
       enc nd ys = enc nd' ys' -> ys = ys' /\ fmode nd = fmode nd') /\
    (forall nd nd' ys, fmode nd = fmode nd' -> enc nd ys = enc nd' ys) /\
    (forall lo hi, exists out, reach_at_fix t (Some (lo, hi)) = Some out /\
       forall x, in_union out x <-> exists nd k ys, In nd (fnodes t) /\ 2 * k + 1 < length (times nd) /\
          (lo <= nth (2 * k) (times nd) 0)%Q /\ (nth (2 * k + 1) (times nd) 0 <= hi)%Q /\ in_step nd k ys /\ x = enc nd ys) /\
    (exists out, reach_at_fix t None = Some out /\
       forall x, in_union out x <-> exists nd ys, In nd (fnodes t) /\ (end_time (times nd) == end_time (times (fleaf t)))%Q /\
          in_step nd (last_step (times nd)) ys /\ x = enc nd ys).
Proof.
  intros Ht. exists (fun nd ys => flat ys (css (final_enums dims t) nd)). split; [|split; [|split]].
  - intros nd nd' k k' ys ys' Hn Hn' Hk Hk' G G' E. exact (@tree_flat_inj dims times t nd nd' k k' ys ys' Ht Hn Hn' Hk Hk' G G' E).
  - intros nd nd' ys E. unfold css. rewrite E. reflexivity.
  - intros lo hi. destruct (@reach_at_ok dims times t (Some (lo, hi)) Ht) as [out [R [_ [U _]]]]. exists out. split; [exact R|].
    intros x. rewrite U. destruct Ht as [_ [_ H]]. split.
    + intros [nd [k [ys [Hn [Hk [G ->]]]]]]. exists nd, k, ys. assert (B := @steps_bound _ _ (times nd) k (proj1 (H nd Hn)) Hk).
      unfold steps in Hk. apply filter_In in Hk. destruct Hk as [_ Hk]. unfold inside in Hk. apply andb_true_iff in Hk.
      destruct Hk as [K1 K2]. apply Qle_bool_iff in K1, K2. auto 10.
    + intros [nd [k [ys [Hn [B [K1 [K2 [G ->]]]]]]]]. exists nd, k, ys. split; [exact Hn|]. split; [|auto].
      unfold steps. apply filter_In. split.
      * apply in_seq. destruct (proj1 (H nd Hn)) as [m L]. rewrite L in *. rewrite half. lia.
      * unfold inside. apply andb_true_iff. split; apply Qle_bool_iff; assumption.
  - destruct (@reach_at_ok dims times t None Ht) as [out [R [_ [U _]]]]. exists out. split; [exact R|].
    intros x. rewrite U. unfold steps. split.
    + intros [nd [k [ys [Hn [Hk [G ->]]]]]]. destruct (Qeq_bool _ _) eqn:E; [|destruct Hk]. apply Qeq_bool_iff in E.
      destruct Hk as [<-|[]]. exists nd, ys. auto.
    + intros [nd [ys [Hn [E [G ->]]]]]. exists nd, (last_step (times nd)), ys. rewrite (proj2 (Qeq_bool_iff _ _) E).
      split; [exact Hn|]. split; [left; reflexivity|auto].
Qed.

(** [fixed_points_fix] on a tree whose nodes all carry tubes: when the solver answers the query it is asked
    correctly, the answer is True exactly when every joint state in the last step of a node that ends with the
    (first) leaf was reached, in the same modes, in a step inside [0, T - dt + dt/100]. *)
Theorem C57_fixed_points unsat dims times t T dt : tree_ok dims times t ->
  (forall e r q, reach_at_fix t None = Some e -> reach_at_fix t (Some (0, T - dt + dt * (1 # 100))%Q) = Some r ->
     query e r = Some q -> exact unsat q) ->
  exists b, fixed_points_fix unsat t T dt = Some b /\
    (b = true <-> forall nd xs, In nd (fnodes t) -> (end_time (times nd) == end_time (times (fleaf t)))%Q ->
       in_step nd (last_step (times nd)) xs ->
       exists nd' k, In nd' (fnodes t) /\ fmode nd' = fmode nd /\ 2 * k + 1 < length (times nd') /\
         (0 <= nth (2 * k) (times nd') 0)%Q /\ (nth (2 * k + 1) (times nd') 0 <= T - dt + dt * (1 # 100))%Q /\
         in_step nd' k xs).
Proof. apply fixed_points_main. Qed.

Local Ltac tube := eexists; split; [reflexivity|]; repeat (apply Forall2_cons || apply Forall2_nil); do 2 eexists; (split; [reflexivity|split; reflexivity]).
Local Ltac qred := unfold Q2R, Qnum, Qden in *; simpl in *.

(** Across trees the claim fails: modes are numbered in each tree by order of appearance, so reach sets of two
    trees in different modes are taken for equal. *)
Theorem C57_two_trees_refuted :
  exists (unsat : list fm -> bool) dims times times' t t' out out',
    tree_ok dims times t /\ tree_ok dims times' t' /\
    (forall nd nd', In nd (fnodes t) -> In nd' (fnodes t') -> fmode nd <> fmode nd') /\
    reach_at_fix t None = Some out /\ reach_at_fix t' None = Some out' /\
    (forall q, query out out' = Some q -> exact unsat q) /\
    contain_all_fix unsat out out' = Some true.
Proof.
  set (tr := [Some [[0%Q; 0%Q]; [1%Q; 1%Q]]]).
  set (nd := mknode [[w "A"]] tr). set (nd' := mknode [[w "B"]] tr).
  assert (OK : forall n, n = nd \/ n = nd' -> node_ok [(1, 1)] [0%Q; 1%Q] n).
  { assert (M : forall i j, i <= j -> 2 * j + 1 < 2 -> (nth (2 * i + 1) [0%Q; 1%Q] 0 <= nth (2 * j + 1) [0%Q; 1%Q] 0)%Q).
    { intros i j H1 H2. assert (j = 0) by lia. assert (i = 0) by lia. subst. apply Qle_refl. }
    intros n [-> | ->]; (split; [exists 0; reflexivity|]; split; [discriminate|]; split; [exact M|]; split;
      [constructor; [|constructor]; tube|constructor; [|constructor]; split; [reflexivity|intros [H|[]]; discriminate]]). }
  exists (fun _ => true), [(1, 1)], (fun _ => [0%Q; 1%Q]), (fun _ => [0%Q; 1%Q]), (mktree [nd] nd), (mktree [nd'] nd').
  eexists; eexists. split; [|split; [|split; [|split; [|split; [|split]]]]].
  - split; [discriminate|]. split; [left; reflexivity|]. intros n [<-|[]]. apply OK. auto.
  - split; [discriminate|]. split; [left; reflexivity|]. intros n [<-|[]]. apply OK. auto.
  - intros n n' [<-|[]] [<-|[]]. discriminate.
  - vm_compute. reflexivity.
  - vm_compute. reflexivity.
  - intros q E. vm_compute in E. injection E as <-. split; [|reflexivity]. intros _ [p H].
    assert (H1 := H _ (or_introl eq_refl)). assert (H2 := H _ (or_intror (or_introl eq_refl))). apply H2. exact H1.
  - vm_compute. reflexivity.
Qed.

Print Assumptions C57_contains.
Print Assumptions C57_reach.
Print Assumptions C57_fixed_points.
Print Assumptions C57_two_trees_refuted.

(** A one-agent tree with a root in mode A and a leaf in mode B. *)
Module Example_fixed.
  Definition times (nd : fnode) : list Q :=
    if list_eq_dec (list_eq_dec (list_eq_dec ascii_dec)) (fmode nd) [[w "A"]] then [0; 1; 1; 2]%Q else [1; 2; 2; 3]%Q.
  Definition root := mknode [[w "A"]] [Some [[0; 0]; [1; 2]; [1; 1]; [2; 4]]%Q].
  Definition leaf (hi : Q) := mknode [[w "B"]] [Some [[1; 0]; [2; 2]; [2; 1]; [3; hi]]%Q].
  Definition tree (hi : Q) := mktree [root; leaf hi] (leaf hi).

  Lemma ok hi : tree_ok [(1, 1)] times (tree hi).
  Proof.
    split; [discriminate|]. split; [right; left; reflexivity|].
    assert (M : forall l : list Q, (nth 1 l 0 <= nth 3 l 0)%Q -> length l = 4 -> forall i j, i <= j -> 2 * j + 1 < length l -> (nth (2 * i + 1) l 0 <= nth (2 * j + 1) l 0)%Q).
    { intros l H L i j H1 H2. rewrite L in H2. assert (J : j = 0 \/ j = 1) by lia. assert (I : i = 0 \/ i = 1) by lia.
      destruct J as [-> | ->], I as [-> | ->]; try lia; try apply Qle_refl. exact H. }
    intros n [<-|[<-|[]]].
    - split; [exists 1; reflexivity|]. split; [discriminate|]. split; [apply M; [discriminate|reflexivity]|]. split.
      + constructor; [|constructor]. tube.
      + constructor; [|constructor]. split; [reflexivity|]. intros [H|[]]; discriminate.
    - split; [exists 1; reflexivity|]. split; [discriminate|]. split; [apply M; [discriminate|reflexivity]|]. split.
      + constructor; [|constructor]. tube.
      + constructor; [|constructor]. split; [reflexivity|]. intros [H|[]]; discriminate.
  Qed.

  (** The last step of the leaf, [1, 2], is inside its first one: a fixed point. *)
  Example yes :
    (forall e r q, reach_at_fix (tree 2) None = Some e -> reach_at_fix (tree 2) (Some (0, 3 - 1 + 1 * (1 # 100))%Q) = Some r ->
       query e r = Some q -> exact (fun _ => true) q) /\
    fixed_points_fix (fun _ => true) (tree 2) 3 1 = Some true.
  Proof.
    split; [|vm_compute; reflexivity]. intros e r q E1 E2 E3. vm_compute in E1, E2. injection E1 as <-. injection E2 as <-.
    vm_compute in E3. injection E3 as <-. split; [|reflexivity]. intros _ [p H].
    assert (H1 := H _ (or_introl eq_refl)). assert (H2 := H _ (or_intror (or_introl eq_refl))). clear H. cbn [holds] in *.
    unfold Q2R in *. simpl in *. apply H2. right. left. lra.
  Qed.
  (** With [1, 3] it is not: [3] was not reached in mode B. *)
  Example no :
    (forall e r q, reach_at_fix (tree 3) None = Some e -> reach_at_fix (tree 3) (Some (0, 3 - 1 + 1 * (1 # 100))%Q) = Some r ->
       query e r = Some q -> exact (fun _ => false) q) /\
    fixed_points_fix (fun _ => false) (tree 3) 3 1 = Some false.
  Proof.
    split; [|vm_compute; reflexivity]. intros e r q E1 E2 E3. vm_compute in E1, E2. injection E1 as <-. injection E2 as <-.
    vm_compute in E3. injection E3 as <-. split; [discriminate|]. intros N. exfalso. apply N.
    exists (fun i => match i with 0 => 3%R | _ => 1%R end). intros f [<-|[<-|[]]]; cbn [holds]; unfold Q2R; simpl; lra.
  Qed.
End Example_fixed.
