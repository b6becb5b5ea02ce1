(** Properties of the work lists of verify and simulate (C27-C30). *)
From Coq Require Import Ascii String.
From Verif Require Import Base BaseFacts Round RoundProofs Scheduler SchedulerSpec SchedulerProofs.
From Coq Require Import Permutation Lqa Qround Qfield.
Set Implicit Arguments.
Open Scope nat_scope.

Section Props.
  Variables content trace hits : Type.
  Variable height : content -> nat.
  Variable begin : content -> Q.
  Variable max_height : option nat.
  Variable horizon : Q.
  Variable expand : content -> option (list content * trace * hits).
  Notation skip := (skip height begin max_height horizon).
  Notation tick parallel ahead verifying := (@tick content trace hits height begin max_height horizon parallel ahead verifying expand).
  Notation run parallel ahead verifying := (@run content trace hits height begin max_height horizon parallel ahead verifying expand).
  Notation start := (@initial content trace hits).
  Notation unfolds := (@unfolds content trace hits skip expand).

  (** C27.  At any point of any run, local or parallel: ids are the positions 0, 1, 2, ... of the node table;
      no node was taken from the queue or processed twice, and none is queued again after that; every node but the
      root is the child of exactly one node. *)
  Theorem C27_ids_unique parallel ahead verifying root st : run parallel ahead verifying (start root) st ->
    nodes st = seq 0 (length (objs st)) /\
    (forall a o, nth_error (objs st) a = Some o -> o_id o = Some a) /\
    NoDup (popped st ++ map fst (queue st)) /\ NoDup (refs st ++ finished st) /\
    Permutation (concat (map (@o_child content trace hits) (objs st))) (seq 1 (length (objs st) - 1)).
  Proof.
    intros R. destruct (sinv_reach R) as [I _]. repeat split; try apply I. eapply popped_nodup; exact I.
  Qed.

  (** C27.  When the loop ends, every node of the table has been taken from the queue exactly once, and exactly those
      that are not cut off by the height or the horizon have been processed, once. *)
  Theorem C27_each_processed_once parallel ahead verifying root st :
    run parallel ahead verifying (start root) st -> final st ->
    Permutation (popped st) (seq 0 (length (objs st))) /\ NoDup (finished st) /\
    (forall a o, nth_error (objs st) a = Some o -> (In a (finished st) <-> skip (o_content o) = false)).
  Proof.
    intros R F. destruct (sinv_reach R) as [I _]. pose proof (final_popped I F) as P. split; [exact P|].
    pose proof (i_once I) as N. destruct F as [Fq Fr]. rewrite Fr in N. split; [exact N|].
    intros a o Ea. assert (Ha : In a (popped st)).
    { rewrite P. apply in_seq. assert (a < length (objs st)) by (apply nth_error_Some; congruence). lia. }
    pose proof (i_skip I a Ea Ha) as H. rewrite Fr in H. exact H.
  Qed.

  (** C28.  Whatever the settings and the order in which results arrive, the tree is the unfolding of the root. *)
  Theorem C28_tree_is_unfolding parallel ahead verifying root st :
    run parallel ahead verifying (start root) st -> final st ->
    exists t t', tree_at (objs st) 0 t /\ unfolds root t' /\ no_hits t = no_hits t'.
  Proof.
    intros R F. destruct (sinv_reach R) as [I _]. destruct (i_pos I) as (o & E & <-).
    destruct (final_tree I F 0 (le_n _) E) as (t & t' & H1 & H2 & H3 & _). eauto.
  Qed.

  Theorem C28_order_independent par1 ahead1 par2 ahead2 verifying root st1 st2 t1 t2 :
    run par1 ahead1 verifying (start root) st1 -> final st1 -> run par2 ahead2 verifying (start root) st2 -> final st2 ->
    tree_at (objs st1) 0 t1 -> tree_at (objs st2) 0 t2 -> no_hits t1 = no_hits t2.
  Proof.
    intros R1 F1 R2 F2 T1 T2.
    destruct (C28_tree_is_unfolding R1 F1) as (u1 & v1 & U1 & V1 & E1).
    destruct (C28_tree_is_unfolding R2 F2) as (u2 & v2 & U2 & V2 & E2).
    rewrite (tree_at_fun T1 U1), (tree_at_fun T2 U2), E1, E2. f_equal. eapply unfolds_fun; eassumption.
  Qed.

  (** C29.  No node deeper than allowed is ever created. *)
  Theorem C29_height parallel ahead verifying root st H :
    (forall c cs r h, expand c = Some (cs, r, h) -> Forall (fun c' => height c' = S (height c)) cs) ->
    run parallel ahead verifying (start root) st -> max_height = Some H ->
    forall a o, nth_error (objs st) a = Some o -> a <> 0 -> 1 <= height (o_content o) < H.
  Proof. intros Hh R EH a o Ea Ha. destruct (sinv_reach R) as [I _]. eapply heights; eauto. Qed.

  (** C29.  A node is expanded only if it starts before the horizon, by more than the rounding error. *)
  Theorem C29_horizon parallel ahead verifying root st : run parallel ahead verifying (start root) st ->
    forall a o, nth_error (objs st) a = Some o -> o_trace o <> None ->
    (0 < py_round 10 (horizon - begin (o_content o)))%Q /\ (begin (o_content o) < horizon)%Q /\
    (forall H, max_height = Some H -> S (height (o_content o)) < H).
  Proof.
    intros R a o Ea Ht. destruct (sinv_reach R) as [I _].
    assert (Hf : In a (finished st)).
    { destruct (in_dec Nat.eq_dec a (finished st)) as [Hf|Hf]; [exact Hf|].
      destruct (i_fresh I a Ea Hf) as (F1 & _). now rewrite F1 in Ht. }
    assert (Es : skip (o_content o) = false).
    { assert (In a (refs st ++ finished st)) as Hb by (apply in_or_app; now right).
      apply (i_skip I a Ea); [now apply (i_popped I)|exact Hb]. }
    unfold Scheduler.skip in Es. apply orb_false_iff in Es as [E1 E2].
    assert (P : (0 < py_round 10 (horizon - begin (o_content o)))%Q).
    { apply Qnot_le_lt. intros H. apply Qle_bool_iff in H. congruence. }
    split; [exact P|]. split.
    - apply Qnot_le_lt. intros L. assert (L0 : (horizon - begin (o_content o) <= 0)%Q) by lra.
      apply (py_round_mono 10) in L0. assert (Z0 : py_round 10 0 == 0%Q) by reflexivity. rewrite Z0 in L0. lra.
    - intros H EH. rewrite EH in E1. apply Nat.leb_gt in E1. lia.
  Qed.

  (** C29.  If the tree of the root is finite then the loop ends, on every schedule: there is a bound on the number of
      iterations, and as long as the loop has not ended it can go on. *)
  Theorem C29_terminates parallel ahead verifying root t : ahead <> 0 -> unfolds root t ->
    exists bound, forall n st, steps (tick parallel ahead verifying) n (start root) st ->
      n <= bound /\ (final st \/ exists st', tick parallel ahead verifying st st').
  Proof.
    intros Ha Ht. exists (2 * size t).
    assert (G : forall n st, steps (tick parallel ahead verifying) n (start root) st ->
      sinv height begin max_height horizon parallel verifying expand root st /\
      exists m, measure height begin max_height horizon expand st m /\ n + m <= 2 * size t).
    { intros n st R. remember (start root) as st0 eqn:E0. induction R as [x|n x y z R IH T]; subst.
      - split; [split; [apply inv_initial|reflexivity]|]. exists (2 * size t). split; [|lia].
        exists (2 * size t + 0), 0. cbn. split; [|split; [constructor|lia]]. constructor; [|constructor].
        exists root, t. split; [|split; [exact Ht|lia]]. eexists. split; reflexivity.
      - destruct (IH eq_refl) as (S & m & M & L). split; [eapply sinv_tick; eassumption|].
        destruct (measure_tick S T M) as (m' & M' & L'). exists m'. split; [exact M'|lia]. }
    intros n st R. destruct (G n st R) as (S & m & M & L). split; [lia|].
    destruct (queue st) as [|p q] eqn:Eq; [destruct (refs st) eqn:Er; [left; now split|]|];
      right; eapply tick_progress; try eassumption; intros [F1 F2]; congruence.
  Qed.

  (** C29.  The tree is finite if the height is bounded, ... *)
  Theorem C29_finite_by_height H : max_height = Some H ->
    (forall c, skip c = false -> expand c <> None) ->
    (forall c cs r h, expand c = Some (cs, r, h) -> Forall (fun c' => height c' = S (height c)) cs) ->
    forall root, exists t, unfolds root t.
  Proof.
    intros EH Ht Hh. apply (@unfolds_total content trace hits height begin max_height horizon expand Ht (fun c => H - height c)).
    intros c cs r h Es Ex. pose proof (Hh _ _ _ _ Ex) as Hall. revert Hall. apply Forall_impl. intros c' E.
    unfold Scheduler.skip in Es. rewrite EH in Es. apply orb_false_iff in Es as [E1 _]. apply Nat.leb_gt in E1. left. lia.
  Qed.

  (** ... or if every transition advances the time by at least some [dt > 0]. *)
  Theorem C29_finite_by_time dt : (0 < dt)%Q ->
    (forall c, skip c = false -> expand c <> None) ->
    (forall c cs r h, expand c = Some (cs, r, h) -> Forall (fun c' => (begin c + dt <= begin c')%Q) cs) ->
    forall root, exists t, unfolds root t.
  Proof.
    intros Hdt Ht Hb. apply (@unfolds_total content trace hits height begin max_height horizon expand Ht (fun c => Z.to_nat (Qceiling ((horizon - begin c) / dt)))).
    intros c cs r h Es Ex. pose proof (Hb _ _ _ _ Ex) as Hall. revert Hall. apply Forall_impl. intros c' Hc.
    destruct (Qlt_le_dec 0 (horizon - begin c')) as [L|L].
    - left. set (a := ((horizon - begin c) / dt)%Q). set (a' := ((horizon - begin c') / dt)%Q).
      assert (Ha' : (0 < a')%Q) by (unfold a'; apply Qlt_shift_div_l; [exact Hdt|lra]).
      assert (Haa : (a' + 1 <= a)%Q).
      { unfold a, a'. apply Qle_shift_div_l; [exact Hdt|].
        assert (E : (((horizon - begin c') / dt + 1) * dt == (horizon - begin c') + dt)%Q) by (field; lra). lra. }
      pose proof (Qceiling_lt a') as H1. pose proof (Qle_ceiling a) as H2. pose proof (Qle_ceiling a') as H3.
      assert (E1 : (inject_Z (Qceiling a' - 1) == inject_Z (Qceiling a') - 1)%Q).
      { unfold Z.sub. rewrite inject_Z_plus. reflexivity. }
      assert (H4 : (Qceiling a' < Qceiling a)%Z) by (rewrite Zlt_Qlt; lra).
      assert (H5 : (0 < Qceiling a')%Z) by (rewrite Zlt_Qlt; change (inject_Z 0) with 0%Q; lra). lia.
    - right. unfold Scheduler.skip. apply orb_true_iff. right. apply Qle_bool_iff.
      apply (py_round_mono 10) in L. assert (Z0 : py_round 10 0 == 0%Q) by reflexivity. rewrite Z0 in L. exact L.
  Qed.

  (** C30.  verify: the complete trees, with the assertion hits of every node, do not depend on the settings either. *)
  Theorem C30_verify_hits parallel ahead root st t : run parallel ahead true (start root) st -> final st ->
    tree_at (objs st) 0 t -> unfolds root t.
  Proof.
    intros R F T. destruct (sinv_reach R) as [I _]. destruct (i_pos I) as (o & E & <-).
    destruct (final_tree I F 0 (le_n _) E) as (u & v & H1 & H2 & _ & H4).
    rewrite (tree_at_fun T H1), H4 by auto. exact H2.
  Qed.

  Corollary C30_verify_same par1 ahead1 par2 ahead2 root st1 st2 t1 t2 :
    run par1 ahead1 true (start root) st1 -> final st1 -> run par2 ahead2 true (start root) st2 -> final st2 ->
    tree_at (objs st1) 0 t1 -> tree_at (objs st2) 0 t2 -> t1 = t2.
  Proof.
    intros R1 F1 R2 F2 T1 T2. eapply unfolds_fun; [exact (C30_verify_hits R1 F1 T1)|exact (C30_verify_hits R2 F2 T2)].
  Qed.

  (** C30 for simulate, without parallelism: the hits of every node are kept.  With parallelism they are lost, see
      [C30_simulate_refuted]. *)
  Theorem C30_simulate_partial ahead verifying root st t : run false ahead verifying (start root) st -> final st ->
    tree_at (objs st) 0 t -> unfolds root t.
  Proof.
    intros R F T. destruct (sinv_reach R) as [I _]. destruct (i_pos I) as (o & E & <-).
    destruct (final_tree I F 0 (le_n _) E) as (u & v & H1 & H2 & _ & H4).
    rewrite (tree_at_fun T H1), H4 by auto. exact H2.
  Qed.
End Props.

(** A small scenario: nodes are (height, start time); a node has two children, one time unit later, until time 2; the
    hits of a node are its start time. *)
Module Example_scheduler.
  Definition content := (nat * Q)%type.
  Definition expand (c : content) : option (list content * unit * Q) :=
    Some (if Qle_bool 2 (snd c) then [] else [(S (fst c), (snd c + 1)%Q); (S (fst c), (snd c + (3#2))%Q)], tt, snd c).
  Definition root : content := (0, 0%Q).

  (** The hypotheses of the theorems hold for it. *)
  Example time_advances : forall c cs r h, expand c = Some (cs, r, h) -> Forall (fun c' => (snd c + 1 <= snd c')%Q) cs.
  Proof.
    intros c cs r h E. unfold expand in E. injection E as <- <- <-. destruct (Qle_bool 2 (snd c)); [constructor|].
    repeat constructor; cbn; lra.
  Qed.
  Example height_grows : forall c cs r h, expand c = Some (cs, r, h) -> Forall (fun c' => fst c' = S (fst c)) cs.
  Proof.
    intros c cs r h E. unfold expand in E. injection E as <- <- <-. destruct (Qle_bool 2 (snd c)); repeat constructor.
  Qed.

  Example finite : exists t, unfolds (skip fst snd None 5%Q) expand root t.
  Proof. apply (@C29_finite_by_time _ unit Q fst snd None 5%Q expand 1%Q); [reflexivity|discriminate|apply time_advances]. Qed.

  (** A root with one generation of children. *)
  Definition leaf (c : content) : option (list content * unit * Q) :=
    Some (if fst c =? 0 then [(1, 1%Q); (1, (3#2)%Q)] else [], tt, snd c).
  Definition at_ (d : list (option Q * bool)) (q : list (nat * nat)) (r p f : list nat) : state content unit Q :=
    {| objs := map (fun x : (nat * (option Q * bool)) * content => mk_obj (snd x) (Some (fst (fst x))) (if snd (snd (fst x)) then Some tt else None) (fst (snd (fst x)))
                               (if snd (snd (fst x)) && (fst (fst x) =? 0) then [1; 2] else []))
                 (combine (combine (seq 0 3) d) [(0, 0%Q); (1, 1%Q); (1, (3#2)%Q)]);
       nodes := seq 0 (length d); queue := q; refs := r; popped := p; finished := f |}.
  Definition local_end : state content unit Q :=
    at_ [(Some 0%Q, true); (Some 1%Q, true); (Some (3#2)%Q, true)] [] [] [0; 1; 2] [0; 1; 2].
  Definition remote_end (h : Q -> option Q) : state content unit Q :=
    at_ [(h 0%Q, true); (h 1%Q, true); (h (3#2)%Q, true)] [] [] [0; 1; 2] [0; 2; 1].
  Definition keep (ver : bool) (h : Q) : option Q := if ver then Some h else None.

  Example local_run : forall ver, run fst snd None 5%Q false 2 ver leaf (initial unit Q root) local_end.
  Proof.
    intros ver. set (s1 := at_ [(Some 0%Q, true); (None, false); (None, false)] [(1, 0); (2, 1)] [] [0] [0]).
    set (s2 := at_ [(Some 0%Q, true); (Some 1%Q, true); (None, false)] [(2, 1)] [] [0; 1] [0; 1]).
    apply (@Run_step _ _ _ _ _ _ _ _ _ _ _ _ s2).
    - apply (@Run_step _ _ _ _ _ _ _ _ _ _ _ _ s1).
      + apply (@Run_step _ _ _ _ _ _ _ _ _ _ _ _ (initial unit Q root)); [apply Run_refl|].
        apply (@Tick_local _ _ _ _ _ _ _ _ _ _ _ _ 0 0 [] (@mk_obj content unit Q (0, 0%Q) (Some 0) None None []) 0 [(1, 1%Q); (1, (3#2)%Q)] tt 0%Q s1 s1);
        try (destruct ver; vm_compute; reflexivity). apply Settle_go. vm_compute. lia.
      + apply (@Tick_local _ _ _ _ _ _ _ _ _ _ _ _ 1 0 [(2, 1)] (@mk_obj content unit Q (1, 1%Q) (Some 1) None None []) 1 [] tt 1%Q s2 s2);
        try (destruct ver; vm_compute; reflexivity). apply Settle_go. vm_compute. lia.
    - apply (@Tick_local _ _ _ _ _ _ _ _ _ _ _ _ 2 1 [] (@mk_obj content unit Q (1, (3#2)%Q) (Some 2) None None []) 2 [] tt (3#2)%Q local_end local_end);
        try (destruct ver; vm_compute; reflexivity). apply Settle_go. vm_compute. lia.
  Qed.

  (** A parallel run in which the second child comes back first. *)
  Example remote_run : forall ver, run fst snd None 5%Q true 3 ver leaf (initial unit Q root) (remote_end (keep ver)).
  Proof.
    intros ver. pose (k := keep ver).
    set (s1 := with_refs (pop (initial unit Q root) 0 []) [0]).
    set (s2 := at_ [(k 0%Q, true); (None, false); (None, false)] [(1, 0); (2, 1)] [] [0] [0]).
    set (s3 := at_ [(k 0%Q, true); (None, false); (None, false)] [(2, 1)] [1] [0; 1] [0]).
    set (s4 := at_ [(k 0%Q, true); (None, false); (None, false)] [] [1; 2] [0; 1; 2] [0]).
    set (s5 := at_ [(k 0%Q, true); (None, false); (k (3#2)%Q, true)] [] [1] [0; 1; 2] [0; 2]).
    apply (@Run_step _ _ _ _ _ _ _ _ _ _ _ _ s5); [apply (@Run_step _ _ _ _ _ _ _ _ _ _ _ _ s4);
      [apply (@Run_step _ _ _ _ _ _ _ _ _ _ _ _ s3); [apply (@Run_step _ _ _ _ _ _ _ _ _ _ _ _ s2);
      [apply (@Run_step _ _ _ _ _ _ _ _ _ _ _ _ s1); [apply (@Run_step _ _ _ _ _ _ _ _ _ _ _ _ (initial unit Q root)); [apply Run_refl|]|]|]|]|]|].
    - apply (@Tick_remote _ _ _ _ _ _ _ _ _ _ _ _ 0 0 [] (@mk_obj content unit Q (0, 0%Q) (Some 0) None None [])); try reflexivity.
      apply Settle_go. vm_compute. lia.
    - apply Tick_wait; [reflexivity|discriminate|].
      apply (@Wait _ _ _ _ _ _ _ s1 [] 0 [] (@mk_obj content unit Q (0, 0%Q) (Some 0) None None []) 0 [(1, 1%Q); (1, (3#2)%Q)] tt 0%Q); destruct ver; reflexivity.
    - apply (@Tick_remote _ _ _ _ _ _ _ _ _ _ _ _ 1 0 [(2, 1)] (@mk_obj content unit Q (1, 1%Q) (Some 1) None None [])); try reflexivity.
      apply Settle_go. vm_compute. lia.
    - apply (@Tick_remote _ _ _ _ _ _ _ _ _ _ _ _ 2 1 [] (@mk_obj content unit Q (1, (3#2)%Q) (Some 2) None None [])); try reflexivity.
      apply Settle_go. vm_compute. lia.
    - apply Tick_wait; [reflexivity|discriminate|].
      apply (@Wait _ _ _ _ _ _ _ s4 [1] 2 [] (@mk_obj content unit Q (1, (3#2)%Q) (Some 2) None None []) 2 [] tt (3#2)%Q); destruct ver; reflexivity.
    - apply Tick_wait; [reflexivity|discriminate|].
      apply (@Wait _ _ _ _ _ _ _ s5 [] 1 [] (@mk_obj content unit Q (1, 1%Q) (Some 1) None None []) 1 [] tt 1%Q); destruct ver; reflexivity.
  Qed.
End Example_scheduler.

(** C30 fails for simulate with parallelism: the same scenario, run with and without it, to the end, gives different
    assertion hits (none at all with it). *)
Theorem C30_simulate_refuted : exists (expand : Example_scheduler.content -> option (list Example_scheduler.content * unit * Q)) root st1 st2 t1 t2,
  run fst snd None 5%Q false 2 false expand (initial unit Q root) st1 /\ final st1 /\
  run fst snd None 5%Q true 3 false expand (initial unit Q root) st2 /\ final st2 /\
  tree_at (objs st1) 0 t1 /\ tree_at (objs st2) 0 t2 /\ t1 <> t2 /\
  (exists h c r ts, t1 = Tree c r (Some h) ts) /\ (exists c r ts, t2 = Tree c r None ts).
Proof.
  exists Example_scheduler.leaf, Example_scheduler.root, Example_scheduler.local_end, (Example_scheduler.remote_end (fun _ => None)).
  exists (Tree (0, 0%Q) (Some tt) (Some 0%Q) [Tree (1, 1%Q) (Some tt) (Some 1%Q) []; Tree (1, (3#2)%Q) (Some tt) (Some (3#2)%Q) []]).
  exists (Tree (0, 0%Q) (Some tt) None [Tree (1, 1%Q) (Some tt) None []; Tree (1, (3#2)%Q) (Some tt) None []]).
  split; [apply Example_scheduler.local_run|]. split; [split; reflexivity|].
  split; [apply (Example_scheduler.remote_run false)|]. split; [split; reflexivity|].
  split; [|split; [|split; [discriminate|split; repeat eexists]]].
  - apply (@T_node Example_scheduler.content unit Q _ 0 (mk_obj (0, 0%Q) (Some 0) (Some tt) (Some 0%Q) [1; 2])); [reflexivity|]. constructor; [|constructor; [|constructor]].
    + apply (@T_node Example_scheduler.content unit Q _ 1 (mk_obj (1, 1%Q) (Some 1) (Some tt) (Some 1%Q) [])); [reflexivity|constructor].
    + apply (@T_node Example_scheduler.content unit Q _ 2 (mk_obj (1, (3#2)%Q) (Some 2) (Some tt) (Some (3#2)%Q) [])); [reflexivity|constructor].
  - apply (@T_node Example_scheduler.content unit Q _ 0 (mk_obj (0, 0%Q) (Some 0) (Some tt) None [1; 2])); [reflexivity|]. constructor; [|constructor; [|constructor]].
    + apply (@T_node Example_scheduler.content unit Q _ 1 (mk_obj (1, 1%Q) (Some 1) (Some tt) None [])); [reflexivity|constructor].
    + apply (@T_node Example_scheduler.content unit Q _ 2 (mk_obj (1, (3#2)%Q) (Some 2) (Some tt) None [])); [reflexivity|constructor].
Qed.

Print Assumptions C27_ids_unique.
Print Assumptions C27_each_processed_once.
Print Assumptions C28_tree_is_unfolding.
Print Assumptions C28_order_independent.
Print Assumptions C29_height.
Print Assumptions C29_horizon.
Print Assumptions C29_terminates.
Print Assumptions C29_finite_by_height.
Print Assumptions C29_finite_by_time.
Print Assumptions C30_verify_hits.
Print Assumptions C30_verify_same.
Print Assumptions C30_simulate_partial.
Print Assumptions C30_simulate_refuted.
