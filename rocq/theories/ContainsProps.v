(** contains and is_equal: a tree contains itself (C37), containment is sound (C38). *)
From Verif Require Import Base BaseFacts Dict Round RoundProofs Tree TreeProofs Contains ContainsSpec ContainsProofs ContainsMain ContainsTop.
From Coq Require Import Qabs Lqa.
Set Implicit Arguments.
Open Scope nat_scope.

(** ** C37 *)
(** A tree on a regular time grid all of whose branches run to the time horizon contains itself and equals itself.
    Missing: trees in which a branch stops early, for which the call can raise (C37_refuted). *)
Theorem C37_reflexive_partial : forall h H (a0 : nat) ag' strict tol t tr r0,
  (0 < h)%Q -> (py_round 10 h == h)%Q -> (0 <= tol)%Q ->
  dget Nat.eqb a0 (c_trace (content t)) = Some tr -> nth_error tr 0 = Some r0 -> 0 < length r0 ->
  on_grid h (a0 :: ag') (length r0) t -> runs_to h (a0 :: ag') (length r0) H t ->
  contains strict tol (a0 :: ag') t (a0 :: ag') t = Some true /\ is_equal (a0 :: ag') t (a0 :: ag') t tol = Some true.
Proof.
  intros h H a0 ag' strict tol t tr r0 Hh Hr Ht T R0 L0 G RT. split; [eapply contains_refl; eassumption|].
  unfold is_equal. rewrite (contains_refl true Hh Hr Ht T R0 L0 G RT). reflexivity.
Qed.
Print Assumptions C37_reflexive_partial.

(** ** C38 *)
(** If a.contains(b) is True, both trees are on the same time grid and every branch of b runs to the horizon, then each
    value that b allows for an entry of an agent at some step is within tol of a value that a allows for it at that step.
    Missing: branches that stop early (C38_dropped_refuted), whole states (C38_joint_refuted), simulation trees
    (C38_simulation_refuted). *)
Theorem C38_sound_partial : forall h H (a0 : nat) ag' ags strict tol ta tb tr r0,
  (0 < h)%Q -> (py_round 10 h == h)%Q -> (0 <= tol)%Q ->
  dget Nat.eqb a0 (c_trace (content tb)) = Some tr -> nth_error tr 0 = Some r0 -> 0 < length r0 ->
  on_grid h (a0 :: ag') (length r0) ta -> on_grid h (a0 :: ag') (length r0) tb -> runs_to h (a0 :: ag') (length r0) H tb ->
  contains strict tol ags ta (a0 :: ag') tb = Some true ->
  forall a i j x, In a (a0 :: ag') -> occurs h tb i a j x -> exists y, occurs h ta i a j y /\ (Qabs (x - y) <= tol)%Q.
Proof. intros. eapply contains_sound; eassumption. Qed.
Print Assumptions C38_sound_partial.

(** Strict containment is between trees of the same agents, the other one asks only that the agents of b are among those of a. *)
Theorem C38_agents : forall strict tol ags ta ago tb, contains strict tol ags ta ago tb = Some true ->
  (forall x, In x ago -> In x ags) /\ (strict = true -> forall x, In x ags -> In x ago).
Proof.
  assert (S : forall a b, subset a b = true <-> forall x, In x a -> In x b).
  { intros a b. unfold subset. rewrite forallb_forall. split; intros H x Hx; specialize (H x Hx).
    - apply existsb_exists in H. destruct H as (y & Hy & E). apply Nat.eqb_eq in E. subst y. exact Hy.
    - apply existsb_exists. exists x. split; [exact H|apply Nat.eqb_refl]. }
  intros strict tol ags ta ago tb H. unfold contains in H. destruct strict.
  - destruct (subset ags ago && subset ago ags) eqn:E; [|discriminate]. apply andb_true_iff in E. destruct E as [E1 E2]. rewrite S in E1, E2. auto.
  - destruct (subset ago ags) eqn:E; [|discriminate]. rewrite S in E. split; [exact E|discriminate].
Qed.
Print Assumptions C38_agents.

(** ... and a.is_equal(b) is both strict containments: each state of one tree is up to the tolerance one of the other, and the
    agents are the same. *)
Theorem C38_equal_partial : forall h H H' (a0 b0 : nat) ag' bg' tol ta tb tra ra trb rb,
  (0 < h)%Q -> (py_round 10 h == h)%Q -> (0 <= tol)%Q ->
  dget Nat.eqb a0 (c_trace (content ta)) = Some tra -> nth_error tra 0 = Some ra -> 0 < length ra ->
  dget Nat.eqb b0 (c_trace (content tb)) = Some trb -> nth_error trb 0 = Some rb -> 0 < length rb ->
  on_grid h (a0 :: ag') (length ra) ta -> on_grid h (b0 :: bg') (length rb) ta -> on_grid h (a0 :: ag') (length ra) tb -> on_grid h (b0 :: bg') (length rb) tb ->
  runs_to h (a0 :: ag') (length ra) H ta -> runs_to h (b0 :: bg') (length rb) H' tb ->
  is_equal (a0 :: ag') ta (b0 :: bg') tb tol = Some true ->
  (forall x, In x (a0 :: ag') <-> In x (b0 :: bg')) /\
  forall a i j x, In a (a0 :: ag') ->
    (occurs h ta i a j x -> exists y, occurs h tb i a j y /\ (Qabs (x - y) <= tol)%Q) /\
    (occurs h tb i a j x -> exists y, occurs h ta i a j y /\ (Qabs (x - y) <= tol)%Q).
Proof.
  intros h H H' a0 b0 ag' bg' tol ta tb tra ra trb rb Hh Hr Ht T1 R1 L1 T2 R2 L2 G1 G2 G3 G4 RT1 RT2 E. unfold is_equal in E.
  destruct (contains true tol (a0 :: ag') ta (b0 :: bg') tb) as [[|]|] eqn:E1; try discriminate. cbn [obind] in E.
  assert (A : forall x, In x (a0 :: ag') <-> In x (b0 :: bg')).
  { intros x. destruct (C38_agents _ _ _ _ _ _ E1) as [A1 A2]. split; [apply A2; reflexivity|apply A1]. }
  split; [exact A|]. intros a i j x Ia. split; intros O.
  - exact (@C38_sound_partial h H a0 ag' (b0 :: bg') true tol tb ta tra ra Hh Hr Ht T1 R1 L1 G3 G1 RT1 E a i j x Ia O).
  - apply A in Ia. exact (@C38_sound_partial h H' b0 bg' (a0 :: ag') true tol ta tb trb rb Hh Hr Ht T2 R2 L2 G2 G4 RT2 E1 a i j x Ia O).
Qed.
Print Assumptions C38_equal_partial.

(** ** Cases *)
Module Example_contains.
  Local Open Scope Q_scope.
  (** One agent; a node from start [s] with the given boxes for one variable, one step of length 1 each. *)
  Fixpoint rows (s : Q) (bs : list (Q * Q)) : list vec := match bs with [] => [] | b :: r => [s; fst b] :: [s + 1; snd b] :: rows (s + 1) r end.
  Definition nd (s : Q) (bs : list (Q * Q)) (ch : list (tree cnode)) : tree cnode := Node (mk_cnode [(0%nat, rows s bs)] s) ch.
  Lemma rows_length : forall bs s, length (rows s bs) = (2 * length bs)%nat.
  Proof. induction bs as [|b r IH]; intros s; [reflexivity|]. cbn [rows length]. rewrite IH. lia. Qed.
  Lemma nd_covers s bs : covers 1 [0%nat] 2 (mk_cnode [(0%nat, rows s bs)] s) (length bs).
  Proof.
    intros a [<-|[]]. exists (rows s bs). split; [reflexivity|]. split; [apply rows_length|]. cbn [c_start].
    assert (G : forall bs s r, (r < length bs)%nat -> exists lo hi, nth_error (rows s bs) (2 * r) = Some lo /\ nth_error (rows s bs) (2 * r + 1) = Some hi /\ length lo = 2%nat /\ length hi = 2%nat /\
      nth 0 lo 0 == s + inject_Z (Z.of_nat r) * 1 /\ nth 0 hi 0 == s + inject_Z (Z.of_nat (S r)) * 1).
    { clear. induction bs as [|b bs IH]; intros s r L; [cbn in L; lia|]. destruct r as [|r].
      - exists [s; fst b], [s + 1; snd b]. split; [reflexivity|]. split; [reflexivity|]. split; [reflexivity|]. split; [reflexivity|]. cbn [nth fst snd]. change (inject_Z (Z.of_nat 0)) with 0. change (inject_Z (Z.of_nat 1)) with 1. split; ring.
      - destruct (IH (s + 1) r) as (lo & hi & A & B & C & D & E & F); [cbn in L; lia|]. exists lo, hi. replace (2 * S r)%nat with (S (S (2 * r))) by lia. replace (S (S (2 * r)) + 1)%nat with (S (S (2 * r + 1))) by lia. cbn [rows nth_error].
        repeat split; try assumption; [rewrite E, (QN_S r); ring|rewrite F, !QN_S; ring]. }
    apply G.
  Qed.
  Lemma steps1 (s s' : Q) k : Qeq_bool s' (s + inject_Z (Z.of_nat k) * 1) = true -> steps_after 1 s s' k.
  Proof. apply Qeq_bool_iff. Qed.

  (** A root with three steps, children starting at steps 1 and 2, both running to step 4. *)
  Definition b := nd 0 [(0, 1); (1, 2); (2, 3)] [nd 1 [(1, 1); (1, 0 + 1); (5, 6)] []; nd 2 [(7, 8); (8, 9)] []].
  Ltac pick k := exists k; apply steps1; reflexivity.
  Example b_grid : on_grid 1 [0%nat] 2 b.
  Proof.
    apply grid_node with (len := 3%nat); [apply nd_covers|lia| | |].
    - intros c [<-|[<-|[]]]; [pick 1%nat|pick 2%nat].
    - intros _. exists (nd 1 [(1, 1); (1, 0 + 1); (5, 6)] []), 1%nat. split; [left; reflexivity|]. split; [apply steps1; reflexivity|lia].
    - intros c [<-|[<-|[]]]; (eapply grid_node; [apply nd_covers|cbn; lia|intros c []|contradiction|intros c []]).
  Qed.
  Example b_runs : runs_to 1 [0%nat] 2 4 b.
  Proof.
    apply runs_node with (len := 3%nat); [apply nd_covers|vm_compute; discriminate|discriminate|].
    intros c [<-|[<-|[]]]; (eapply runs_node; [apply nd_covers|vm_compute; discriminate|intros _; reflexivity|intros c []]).
  Qed.
  (** A single node that covers all of it. *)
  Definition a := nd 0 [(0, 1); (0, 2); (0, 10); (0, 10)] [].
  Example a_grid : on_grid 1 [0%nat] 2 a.
  Proof. eapply grid_node; [apply nd_covers|cbn; lia|intros c []|contradiction|intros c []]. Qed.
  Example a_contains_b : contains true (1 # 1000000) [0%nat] a [0%nat] b = Some true. Proof. vm_compute. reflexivity. Qed.
  Example b_not_contains_a : contains true (1 # 1000000) [0%nat] b [0%nat] a = Some false. Proof. vm_compute. reflexivity. Qed.
  Example step_ok : py_round 10 1 == 1. Proof. reflexivity. Qed.

  (** A child that stops after one step although its parent's transitions span three. *)
  Definition short := nd 0 [(0, 1); (1, 2); (2, 3); (3, 4)] [nd 1 [(1, 1)] []].
  Example short_grid : on_grid 1 [0%nat] 2 short.
  Proof.
    apply grid_node with (len := 4%nat); [apply nd_covers|lia| | |].
    - intros c [<-|[]]. pick 1%nat.
    - intros _. exists (nd 1 [(1, 1)] []), 1%nat. split; [left; reflexivity|]. split; [apply steps1; reflexivity|lia].
    - intros c [<-|[]]. eapply grid_node; [apply nd_covers|cbn; lia|intros c []|contradiction|intros c []].
  Qed.

  (** Two children; the last step of the later one is not collected. *)
  Definition late (v : Q) := nd 0 [(0, 1); (1, 2); (2, 3)] [nd 1 [(1, 1); (1, 1)] []; nd 2 [(7, 8); (v, v)] []].
  Example late_grid v : on_grid 1 [0%nat] 2 (late v).
  Proof.
    apply grid_node with (len := 3%nat); [apply nd_covers|lia| | |].
    - intros c [<-|[<-|[]]]; [pick 1%nat|pick 2%nat].
    - intros _. exists (nd 1 [(1, 1); (1, 1)] []), 1%nat. split; [left; reflexivity|]. split; [apply steps1; reflexivity|lia].
    - intros c [<-|[<-|[]]]; (eapply grid_node; [apply nd_covers|cbn; lia|intros c []|contradiction|intros c []]).
  Qed.
End Example_contains.
Import Example_contains.

(** contains raises on a tree whose child stopped, for example at an assertion, before the parent's last transition. *)
Theorem C37_refuted : exists t, on_grid 1 [0] 2 t /\ forall strict tol, contains strict tol [0] t [0] t = None.
Proof. exists short. split; [apply short_grid|]. intros strict tol. destruct strict; vm_compute; reflexivity. Qed.
Print Assumptions C37_refuted.

(** When branches end at different times, steps of b are ignored: these trees differ by 92 at step 3. *)
Theorem C38_dropped_refuted : exists ta tb, on_grid 1 [0] 2 ta /\ on_grid 1 [0] 2 tb /\ contains true (1 # 1000000) [0] ta [0] tb = Some true /\
  exists x, occurs 1 tb 3 0 1 x /\ forall y, occurs 1 ta 3 0 1 y -> (50 < Qabs (x - y))%Q.
Proof.
  exists (late 8), (late 100). split; [apply late_grid|]. split; [apply late_grid|]. split; [vm_compute; reflexivity|]. exists 100%Q. split.
  - change 3 with (2 + 1). eapply occ_child; [right; left; reflexivity|apply steps1; reflexivity|]. eapply occ_here with (r := 1); try reflexivity. split; apply Qle_refl.
  - intros y Oy. unfold late, nd in Oy.
    assert (Leaf : forall n i y, occurs 1 (Node n []) i 0 1 y -> exists tr lo hi l u, dget Nat.eqb 0 (c_trace n) = Some tr /\ nth_error tr (2 * i) = Some lo /\ nth_error tr (2 * i + 1) = Some hi /\ nth_error lo 1 = Some l /\ nth_error hi 1 = Some u /\ (l <= y <= u)%Q).
    { intros n i z O. inversion O as [? ? ? tr ? lo hi ? l u|? ? ? ? ? ? ? ? Ic]; subst; [|destruct Ic]. exists tr, lo, hi, l, u. auto 10. }
    inversion Oy as [? ? ? tr r lo hi j l u z D1 D2|n ch c k i a j z Ic Sk Oc]; subst.
    + cbn in D1. injection D1 as <-. cbn in D2. discriminate.
    + destruct Ic as [<-|[<-|[]]].
      * assert (k = 1) as -> by (eapply (@steps_inj 1); [reflexivity|exact Sk|apply steps1; reflexivity]). assert (i = 2) as -> by lia.
        destruct (Leaf _ _ _ Oc) as (tr & lo & hi & l & u & E1 & E2 & _). cbn in E1. injection E1 as <-. discriminate.
      * assert (k = 2) as -> by (eapply (@steps_inj 1); [reflexivity|exact Sk|apply steps1; reflexivity]). assert (i = 1) as -> by lia.
        destruct (Leaf _ _ _ Oc) as (tr & lo & hi & l & u & E1 & E2 & E3 & E4 & E5 & E6). cbn in E1. injection E1 as <-. cbn in E2, E3. injection E2 as <-. injection E3 as <-. cbn in E4, E5. injection E4 as <-. injection E5 as <-.
        apply Qabs_case; intros; lra.
Qed.
Print Assumptions C38_dropped_refuted.

(** Entries are compared one at a time: the states (0,0) and (1,1) are taken to contain (0,1). *)
Module Example_joint.
  Local Open Scope Q_scope.
  Definition nd2 (s x y : Q) (ch : list (tree cnode)) : tree cnode := Node (mk_cnode [(0%nat, [[s; x; y]; [s + 1; x; y]])] s) ch.
  Definition ta := nd2 0 0 0 [nd2 0 1 1 []].
  Definition tb := nd2 0 0 1 [].
  Lemma nd2_covers s x y : covers 1 [0%nat] 3 (mk_cnode [(0%nat, [[s; x; y]; [s + 1; x; y]])] s) 1.
  Proof.
    intros a [<-|[]]. eexists. split; [reflexivity|]. split; [reflexivity|]. intros r L. assert (r = 0%nat) as -> by lia. eexists. eexists. split; [reflexivity|]. split; [reflexivity|]. split; [reflexivity|]. split; [reflexivity|]. cbn [nth c_start]. change (inject_Z (Z.of_nat 0)) with 0. change (inject_Z (Z.of_nat 1)) with 1. split; ring.
  Qed.
  Lemma leaf_grid s x y : on_grid 1 [0%nat] 3 (nd2 s x y []).
  Proof. eapply grid_node; [apply nd2_covers|lia|intros c []|contradiction|intros c []]. Qed.
  Lemma leaf_runs s x y : runs_to 1 [0%nat] 3 (s + 1) (nd2 s x y []).
  Proof. eapply runs_node; [apply nd2_covers|cbn [c_start]; change (inject_Z (Z.of_nat 1)) with 1; lra|intros _; cbn [c_start]; change (inject_Z (Z.of_nat 1)) with 1; lra|intros c []]. Qed.
  Lemma ta_grid : on_grid 1 [0%nat] 3 ta.
  Proof.
    eapply grid_node; [apply nd2_covers|lia| | |].
    - intros c [<-|[]]. exists 0%nat. reflexivity.
    - intros _. exists (nd2 0 1 1 []), 0%nat. split; [left; reflexivity|]. split; [reflexivity|lia].
    - intros c [<-|[]]. apply leaf_grid.
  Qed.
  Lemma ta_runs : runs_to 1 [0%nat] 3 1 ta.
  Proof.
    eapply runs_node; [apply nd2_covers|vm_compute; discriminate|discriminate|]. intros c [<-|[]]. eapply runs_node; [apply nd2_covers|vm_compute; discriminate|intros _; reflexivity|intros c []].
  Qed.
End Example_joint.
Theorem C38_joint_refuted : exists ta tb, on_grid 1 [0] 3 ta /\ on_grid 1 [0] 3 tb /\ runs_to 1 [0] 3 1 ta /\ runs_to 1 [0] 3 1 tb /\
  contains true (1 # 1000000) [0] ta [0] tb = Some true /\
  exists i v, occurs_row 1 tb i 0 v /\ forall w, occurs_row 1 ta i 0 w -> ~ Forall2 (fun x y => Qabs (x - y) <= 1 # 2)%Q v w.
Proof.
  exists Example_joint.ta, Example_joint.tb. split; [apply Example_joint.ta_grid|]. split; [apply Example_joint.leaf_grid|]. split; [apply Example_joint.ta_runs|]. split; [apply (Example_joint.leaf_runs 0)|].
  split; [vm_compute; reflexivity|]. exists 0, [0; 0; 1]%Q. split; [eapply row_here with (r := 0); try reflexivity; cbn; repeat split; lra|].
  assert (Leaf : forall n ch i w, occurs_row 1 (Node n ch) i 0 w -> i = 0 -> (exists tr lo hi, dget Nat.eqb 0 (c_trace n) = Some tr /\ nth_error tr 0 = Some lo /\ nth_error tr 1 = Some hi /\ in_box lo hi w) \/
    exists c, In c ch /\ occurs_row 1 c 0 0 w).
  { intros n ch i0 w O Z. inversion O as [? ? ? tr r lo hi|? ? c k i ? ? Ic Sk Oc Eq]; subst i0; [subst r; left; exists tr, lo, hi; auto|]. right. exists c. split; [exact Ic|]. assert (Zi : i = 0) by lia. rewrite Zi in Oc. exact Oc. }
  assert (Bx : forall a b c a' w, in_box [a; b; c]%Q [a'; b; c]%Q w -> exists t, exists x y, w = [t; x; y] /\ (x == b)%Q /\ (y == c)%Q).
  { intros a b c a' [|t [|x [|y [|z w]]]] Hb; cbn in Hb; try tauto. exists t, x, y. split; [reflexivity|]. split; lra. }
  intros w O F. apply Leaf in O; [|reflexivity]. destruct O as [(tr & lo & hi & E1 & E2 & E3 & B)|(c & [<-|[]] & O)].
  - cbn in E1. injection E1 as <-. injection E2 as <-. injection E3 as <-. destruct (Bx _ _ _ _ _ B) as (t & x & y & -> & X & Y).
    inversion F as [|? ? ? ? _ F1]; subst. inversion F1 as [|? ? ? ? _ F2]; subst. inversion F2 as [|? ? ? ? A _]; subst. rewrite Y in A. compute in A. congruence.
  - apply Leaf in O; [|reflexivity]. destruct O as [(tr & lo & hi & E1 & E2 & E3 & B)|(c & [] & _)]. cbn in E1. injection E1 as <-. injection E2 as <-. injection E3 as <-. destruct (Bx _ _ _ _ _ B) as (t & x & y & -> & X & Y).
    inversion F as [|? ? ? ? _ F1]; subst. inversion F1 as [|? ? ? ? A _]; subst. rewrite X in A. compute in A. congruence.
Qed.
Print Assumptions C38_joint_refuted.

(** Simulation trees are compared as if they were reachtubes: where a coordinate decreases the interval is empty, so a
    trace that goes from 10 to 5 is contained in one that goes from 100 to 90. *)
Theorem C38_simulation_refuted :
  let sim (x y : Q) : tree cnode := Node (mk_cnode [(0%nat, [[0; x]; [1; y]])] 0)%Q [] in
  contains true (1 # 1000000) [0] (sim 100 90)%Q [0] (sim 10 5)%Q = Some true.
Proof. vm_compute. reflexivity. Qed.
Print Assumptions C38_simulation_refuted.
