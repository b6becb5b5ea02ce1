(** C55: initial conditions are copies.  C56: track modes and map lanes. *)
From Coq Require Import Ascii String.
From Verif Require Import Base BaseFacts PyText Dict ResetProofs Scenario ScenarioSpec ScenarioProofs ScenarioMain.
Set Implicit Arguments.
Open Scope nat_scope.

(** C55.  After every history of [set_map], [add_agent] and [set_init_single] calls, interleaved with any changes the user
    makes to their own lists, what the scenario holds for each agent is what was last handed in for it, as it was
    at that moment (a single point as the box with both corners there). *)
Theorem C55_history h evs c : wf h -> history (start h) evs c ->
  forall id, stored_init (st c) id = given c id /\ stored_static (st c) id = given_static c id /\
             stored_uncertain (st c) id = given_uncertain c id.
Proof.
  intros W H id. assert (V := history_Inv (start_Inv W) H).
  unfold stored_init, stored_static, stored_uncertain.
  assert (A := inv_init V id). assert (B := inv_static V id). assert (D := inv_uncertain V id).
  destruct (dget word_eqb id (init_dict (st c))), (dget word_eqb id (static_dict (st c))),
    (dget word_eqb id (uncertain_param_dict (st c))); cbn [obind]; intuition.
Qed.
Print Assumptions C55_history.

(** C55.  A call is accepted exactly when the agent exists and the lengths fit. *)
Theorem C55_accepted_iff s id o mode static uncertain v : wf (hp s) ->
  o < length (outer (hp s)) -> flat_ok (hp s) static -> outer_ok (hp s) uncertain -> read (hp s) o = Some v ->
  (snd (set_init_single s id o mode static uncertain) = true <-> acceptable s id v mode).
Proof. apply set_ok_iff. Qed.
Print Assumptions C55_accepted_iff.

(** C55.  A rejected call changes nothing: not the scenario, not its agents, not a list of the caller. *)
Theorem C55_rejected_unchanged s id o mode static uncertain :
  snd (set_init_single s id o mode static uncertain) = false ->
  fst (set_init_single s id o mode static uncertain) = s.
Proof.
  intros H. destruct (set_init_single s id o mode static uncertain) as [s' ok] eqn:E. simpl in *. subst ok.
  eapply set_fail_same. exact E.
Qed.
Print Assumptions C55_rejected_unchanged.

(** C55.  An accepted call sets its agent's box and mode, leaves every list of the caller as it was, and leaves
    what is held for every other agent, and the other agents, as they were. *)
Theorem C55_effect s id o mode static uncertain s' v : wf (hp s) ->
  o < length (outer (hp s)) -> flat_ok (hp s) static -> outer_ok (hp s) uncertain -> read (hp s) o = Some v ->
  set_init_single s id o mode static uncertain = (s', true) ->
  stored_init s' id = Some (as_box v) /\ stored_mode s' id = Some mode /\
  (forall x, x < length (inner (hp s)) -> read_flat (hp s') x = read_flat (hp s) x) /\
  (forall x, x < length (outer (hp s)) -> read (hp s') x = read (hp s) x) /\
  (forall id', id' <> id -> stored_mode s' id' = stored_mode s id' /\
     dget word_eqb id' (agent_dict s') = dget word_eqb id' (agent_dict s) /\
     dget word_eqb id' (init_dict s') = dget word_eqb id' (init_dict s) /\
     dget word_eqb id' (static_dict s') = dget word_eqb id' (static_dict s) /\
     dget word_eqb id' (uncertain_param_dict s') = dget word_eqb id' (uncertain_param_dict s)).
Proof.
  intros W Ho Os Ou Rv H.
  destruct (@set_ok_spec s id o mode static uncertain s' W Ho Os Ou H)
      as [v' [i [x [u [ag [ag' [Rv' [_ [E [W' [D1 [D2 [D3 [D4 [_ [D5 [_ [_ [F1 [R1 _]]]]]]]]]]]]]]]]]]]].
  rewrite Rv in Rv'. injection Rv' as <-.
  unfold stored_init, stored_mode. rewrite D1, D2, D3, D4, D5.
  split; [rewrite dget_put, word_eqb_refl; exact R1|].
  split; [rewrite dget_put, word_eqb_refl; reflexivity|].
  split; [intros y Hy; apply (ext_flat E Hy)|]. split; [intros y Hy; apply (ext_read W E Hy)|].
  intros id' N. rewrite !dget_put, (proj2 (word_eqb_neq id' id) N). auto.
Qed.
Print Assumptions C55_effect.

(** C55.  [add_agent] always succeeds, and stores a copy of the initial set the agent was built with, as it is. *)
Theorem C55_add_agent s ag : wf (hp s) ->
  outer_ok (hp s) (init_cont ag) -> flat_ok (hp s) (static_parameters ag) -> outer_ok (hp s) (uncertain_parameters ag) ->
  exists s', add_agent s ag = Some s' /\
    (forall o, init_cont ag = Some o -> stored_init s' (aid ag) = read (hp s) o) /\
    (forall m, init_disc ag = Some m -> stored_mode s' (aid ag) = Some m) /\
    (forall id', id' <> aid ag -> dget word_eqb id' (init_dict s') = dget word_eqb id' (init_dict s) /\
                                  stored_mode s' id' = stored_mode s id').
Proof.
  intros W Oi Os Ou.
  destruct (@add_agent_spec s ag W Oi Os Ou) as [s2 [i [x [u [A2 [E [W' [D1 [D2 [D3 [D4 [P1 _]]]]]]]]]]]].
  exists s2. split; [exact A2|]. unfold stored_init, stored_mode. rewrite D1, D2. split; [|split].
  - intros o Eo. rewrite Eo in P1 |- *. rewrite dget_put, word_eqb_refl. cbn [obind]. apply P1.
  - intros m Em. rewrite Em, dget_put, word_eqb_refl. reflexivity.
  - intros id' N. destruct (init_cont ag), (init_disc ag); rewrite ?dget_put, ?(proj2 (word_eqb_neq id' (aid ag)) N); auto.
Qed.
Print Assumptions C55_add_agent.

(** *** [set_init]: all agents at once *)
Lemma put_keys {V} k (v : V) d : dget word_eqb k d <> None -> map fst (put k v d) = map fst d.
Proof.
  intros H. unfold put, dset. rewrite dalter_keys by exact word_eqb_eq. unfold dmem.
  destruct (dget word_eqb k d); [reflexivity|congruence].
Qed.

Definition job_ok (h : heap) (j : nat * list word * option nat * option nat) : Prop :=
  let '(o, m, s, u) := j in o < length (outer h) /\ flat_ok h s /\ outer_ok h u.

Lemma job_ok_ext h h' j : ext h h' -> job_ok h j -> job_ok h' j.
Proof.
  intros E. assert (A := ext_len_in E). assert (B := ext_len_out E). destruct j as [[[o m] [s|]] [u|]]; simpl; lia.
Qed.

Lemma loop_spec l : forall s s', wf (hp s) -> Forall (fun e => job_ok (hp s) (snd e)) l -> NoDup (map fst l) ->
  set_init_loop s l = (s', true) ->
  ext (hp s) (hp s') /\ wf (hp s') /\ map fst (agent_dict s') = map fst (agent_dict s) /\
  (forall id, ~ In id (map fst l) -> dget word_eqb id (init_dict s') = dget word_eqb id (init_dict s) /\
     stored_mode s' id = stored_mode s id /\
     dget word_eqb id (static_dict s') = dget word_eqb id (static_dict s) /\
     dget word_eqb id (uncertain_param_dict s') = dget word_eqb id (uncertain_param_dict s)) /\
  (forall id o m st un, In (id, (o, m, st, un)) l ->
     exists i, dget word_eqb id (init_dict s') = Some i /\ i < length (outer (hp s')) /\
     read (hp s') i = (do v <- read (hp s) o; Some (as_box v)) /\
     stored_mode s' id = Some m /\ dmem word_eqb id (static_dict s') = true /\ dmem word_eqb id (uncertain_param_dict s') = true).
Proof.
  induction l as [|[id [[[o m] sa] un]] l IH]; intros s s' W F N H.
  - simpl in H. injection H as <-. split; [apply ext_refl|]. split; [exact W|]. split; [reflexivity|].
    split; [auto|]. intros ? ? ? ? ? [].
  - simpl in H. destruct (set_init_single s id o m sa un) as [s1 ok] eqn:E1. destruct ok; [|discriminate].
    inversion F as [|? ? J F']; subst. destruct J as [Ho [Os Ou]]. inversion N as [|? ? Nid N']; subst.
    destruct (@set_ok_spec s id o m sa un s1 W Ho Os Ou E1)
      as [v [i [x [u [ag [ag' [Rv [_ [E [W' [D1 [D2 [D3 [D4 [A [D5 [_ [_ [F1 [R1 _]]]]]]]]]]]]]]]]]]]].
    destruct (IH s1 s') as [E2 [W2 [K2 [O2 P2]]]]; [exact W'| |exact N'|exact H|].
    { eapply Forall_impl; [|exact F']. intros e. apply job_ok_ext, E. }
    split; [exact (ext_trans E E2)|]. split; [exact W2|].
    split; [rewrite K2, D5; apply put_keys; congruence|]. split.
    + intros id' Nin. simpl in Nin. destruct (O2 id') as [Q1 [Q2 [Q3 Q4]]]; [tauto|].
      assert (Nq : word_eqb id' id = false) by (apply word_eqb_neq; intros ->; tauto).
      unfold stored_mode in *. rewrite Q1, Q2, Q3, Q4, D1, D2, D3, D4, !dget_put, Nq. auto.
    + intros id' o' m' st' un' [Eq|Hin].
      * injection Eq as <- <- <- <- <-. destruct (O2 id Nid) as [Q1 [Q2 [Q3 Q4]]].
        exists i. rewrite Q1, D1, dget_put, word_eqb_refl. split; [reflexivity|].
        assert (L2 := ext_len_out E2). destruct F1 as [Hi _].
        split; [lia|]. split; [rewrite (ext_read W' E2) by lia; rewrite R1, Rv; reflexivity|].
        unfold dmem. rewrite Q2, Q3, Q4. unfold stored_mode. rewrite D2, D3, D4, !dget_put, word_eqb_refl. auto.
      * destruct (P2 id' o' m' st' un' Hin) as [i' [Q1 [Q2 [Q3 Q4]]]]. exists i'. split; [exact Q1|]. split; [exact Q2|].
        split; [|exact Q4]. rewrite Q3. rewrite Forall_forall in F'. assert (J := F' _ Hin). simpl in J.
        rewrite (ext_read W E) by tauto. reflexivity.
Qed.

Lemma nth_combine {A B} (l : list A) (m : list B) k a b :
  nth_error l k = Some a -> nth_error m k = Some b -> nth_error (combine l m) k = Some (a, b).
Proof.
  revert m k. induction l as [|x l IH]; intros [|y m] [|k]; simpl; try discriminate.
  - intros [= ->] [= ->]. reflexivity.
  - apply IH.
Qed.
Lemma combine_fst {A B} (l : list A) (m : list B) : length l = length m -> map fst (combine l m) = l.
Proof. revert m. induction l as [|x l IH]; intros [|y m]; simpl; try discriminate; [auto|]. intros [= H]. rewrite IH by exact H. reflexivity. Qed.

(** C55.  When [set_init] returns normally, agent number [k] has the [k]-th box and mode, and the scenario passes
    the check made before simulating and verifying. *)
Theorem C55_set_init s inits modes statics uncertains s' : wf (hp s) -> NoDup (map fst (agent_dict s)) ->
  Forall (fun o => o < length (outer (hp s))) inits -> Forall (flat_ok (hp s)) statics -> Forall (outer_ok (hp s)) uncertains ->
  set_init s inits modes statics uncertains = (s', true) ->
  check_init s' = true /\
  forall k id o m, nth_error (map fst (agent_dict s)) k = Some id -> nth_error inits k = Some o -> nth_error modes k = Some m ->
    stored_init s' id = (do v <- read (hp s) o; Some (as_box v)) /\ stored_mode s' id = Some m.
Proof.
  intros W N Fi Fs Fu H. unfold set_init in H.
  match type of H with (if ?b then _ else _) = _ => destruct b eqn:C; [|discriminate] end.
  rewrite !andb_true_iff, !orb_true_iff, !Nat.eqb_eq in C. destruct C as [[[L1 L2] L3] L4].
  cbv zeta in H. set (n := length (agent_dict s)) in *.
  set (ss := if length statics =? 0 then repeat None n else statics) in *.
  set (uu := if length uncertains =? 0 then repeat None n else uncertains) in *.
  assert (Ls : length ss = n).
  { unfold ss. destruct (length statics =? 0) eqn:Z; [apply repeat_length|]. apply Nat.eqb_neq in Z. lia. }
  assert (Lu : length uu = n).
  { unfold uu. destruct (length uncertains =? 0) eqn:Z; [apply repeat_length|]. apply Nat.eqb_neq in Z. lia. }
  assert (Fss : Forall (flat_ok (hp s)) ss).
  { unfold ss. destruct (length statics =? 0); [|exact Fs]. apply Forall_forall. intros x Hx. apply repeat_spec in Hx. subst x. exact I. }
  assert (Fuu : Forall (outer_ok (hp s)) uu).
  { unfold uu. destruct (length uncertains =? 0); [|exact Fu]. apply Forall_forall. intros x Hx. apply repeat_spec in Hx. subst x. exact I. }
  set (ids := map fst (agent_dict s)) in *. assert (Lid : length ids = n) by (unfold ids; apply map_length).
  set (jobs := combine (combine (combine inits modes) ss) uu) in *.
  assert (Lj : length jobs = n) by (unfold jobs; rewrite !combine_length; lia).
  destruct (@loop_spec (combine ids jobs) s s' W) as [E [W' [K [_ P]]]].
  - apply Forall_forall. intros [id j] Hin. simpl. apply in_combine_r in Hin. destruct j as [[[o m] st] un].
    assert (Hu := in_combine_r _ _ _ _ Hin). apply in_combine_l in Hin.
    assert (Hs := in_combine_r _ _ _ _ Hin). apply in_combine_l in Hin. apply in_combine_l in Hin.
    rewrite Forall_forall in Fi, Fss, Fuu. simpl. auto.
  - rewrite combine_fst by congruence. exact N.
  - exact H.
  - assert (Q : forall k id o m, nth_error ids k = Some id -> nth_error inits k = Some o -> nth_error modes k = Some m ->
       exists st un, In (id, (o, m, st, un)) (combine ids jobs)).
    { intros k id o m Hid Ho Hm. assert (Hk : k < n) by (rewrite <- Lid; apply nth_error_Some; congruence).
      destruct (nth_error ss k) as [x|] eqn:Ex; [|apply nth_error_None in Ex; lia].
      destruct (nth_error uu k) as [u|] eqn:Eu; [|apply nth_error_None in Eu; lia].
      exists x, u. apply (nth_error_In _ k). apply nth_combine; [exact Hid|]. unfold jobs.
      repeat (apply nth_combine; try assumption). }
    split.
    + unfold check_init. apply forallb_forall. intros [id ag] Hin. cbn [fst].
      assert (Hid : In id ids) by (unfold ids; rewrite <- K; apply (in_map fst) in Hin; exact Hin).
      apply In_nth_error in Hid. destruct Hid as [k Hk]. assert (Hkn : k < n) by (rewrite <- Lid; apply nth_error_Some; congruence).
      destruct (nth_error inits k) as [o|] eqn:Eo; [|apply nth_error_None in Eo; lia].
      destruct (nth_error modes k) as [m|] eqn:Em; [|apply nth_error_None in Em; lia].
      destruct (Q k id o m Hk Eo Em) as [x [u Hj]]. destruct (P id o m x u Hj) as [i [P1 [_ [_ [P2 [P3 P4]]]]]].
      rewrite P3, P4. unfold dmem. rewrite P1. unfold stored_mode in P2. rewrite P2. reflexivity.
    + intros k id o m Hk Eo Em. destruct (Q k id o m Hk Eo Em) as [x [u Hj]].
      destruct (P id o m x u Hj) as [i [P1 [_ [P5 [P2 _]]]]]. unfold stored_init. rewrite P1. auto.
Qed.
Print Assumptions C55_set_init.

(** C56.  After [add_agent] the agent's track modes are those it had, in order, followed by the lanes of the map
    that were not among them, each once; its other mode lists are unchanged; an agent without track modes gets
    none. *)
Theorem C56_add_agent s ag s' lanes : map_lanes s = Some lanes -> add_agent s ag = Some s' ->
  exists ag', dget word_eqb (aid ag) (agent_dict s') = Some ag' /\
    (forall ms, dget word_eqb (w "TrackMode") (mode_defs ag) = Some ms ->
       exists added, dget word_eqb (w "TrackMode") (mode_defs ag') = Some (ms ++ added) /\ NoDup added /\
         forall l, In l added <-> In l lanes /\ ~ In l ms) /\
    (dget word_eqb (w "TrackMode") (mode_defs ag) = None -> mode_defs ag' = mode_defs ag) /\
    (forall k, k <> w "TrackMode" -> dget word_eqb k (mode_defs ag') = dget word_eqb k (mode_defs ag)) /\
    (forall id', id' <> aid ag -> dget word_eqb id' (agent_dict s') = dget word_eqb id' (agent_dict s)).
Proof.
  intros M H. unfold add_agent in H. rewrite M in H. cbn [init_cont static_parameters uncertain_parameters update_agent_lane_mode with_modes] in H.
  destruct (copy_opt (hp s) (init_cont ag)) as [[h1 c]|]; [|discriminate]. cbn [obind fst snd] in H.
  destruct (copy_flat_or_empty h1 (static_parameters ag)) as [[h2 x]|]; [|discriminate]. cbn [obind fst snd] in H.
  destruct (copy_or_empty h2 (uncertain_parameters ag)) as [[h3 u]|]; [|discriminate]. cbn [obind fst snd] in H.
  injection H as <-. cbn [agent_dict]. eexists. split; [rewrite dget_put; cbn [aid]; rewrite word_eqb_refl; reflexivity|].
  cbn [mode_defs aid]. split; [|split; [|split]].
  - intros ms E. destruct (update_lanes_track lanes _ E) as [ms' [E' [added [-> [N A]]]]].
    exists added. auto.
  - intros E. apply update_lanes_none, E.
  - intros k Hk. apply update_lanes_other, Hk.
  - intros id' N. rewrite dget_put, (proj2 (word_eqb_neq id' (aid ag)) N). reflexivity.
Qed.
Print Assumptions C56_add_agent.

(** C56.  Setting the map does the same for every agent already in the scenario. *)
Theorem C56_set_map s lanes id ag : dget word_eqb id (agent_dict s) = Some ag ->
  exists ag', dget word_eqb id (agent_dict (set_map s lanes)) = Some ag' /\
    (forall ms, dget word_eqb (w "TrackMode") (mode_defs ag) = Some ms ->
       exists added, dget word_eqb (w "TrackMode") (mode_defs ag') = Some (ms ++ added) /\ NoDup added /\
         forall l, In l added <-> In l lanes /\ ~ In l ms) /\
    (forall k, k <> w "TrackMode" -> dget word_eqb k (mode_defs ag') = dget word_eqb k (mode_defs ag)).
Proof.
  intros H. exists (update_agent_lane_mode ag lanes). split.
  - unfold set_map. cbn [agent_dict]. revert H. generalize (agent_dict s). induction l as [|[k v] l IH]; simpl; [discriminate|].
    destruct (word_eqb id k); [intros [= ->]; reflexivity|exact IH].
  - unfold update_agent_lane_mode, with_modes. cbn [mode_defs]. split.
    + intros ms E. destruct (update_lanes_track lanes _ E) as [ms' [E' [added [-> [N A]]]]]. exists added. auto.
    + intros k Hk. apply update_lanes_other, Hk.
Qed.
Print Assumptions C56_set_map.

Module Example_scenario.
  Definition point := [Num 1; Num 2].
  Definition h0 := mkheap [point; [Num 3; Num 4]] [[0]; [0; 1]].
  Definition car : agent := mkagent (w "car") true (Some (2, 1)) [(w "TrackMode", [w "T1"])] None None None None.
  Definition s1 : state :=
    mkstate h0 [] [] [] [] [] (Some [w "T0"; w "T1"]).

  Lemma wf0 : wf h0.
  Proof. repeat constructor. Qed.

  (** Add the agent, set it to the single point, then overwrite the caller's list: the scenario keeps the point. *)
  Definition evs := [EMap [w "T0"; w "T1"]; EAdd car; ESet (w "car") 0 [w "Normal"] None None; EInner 0 [Num 9]].
  Example run : exists c, history (start h0) evs c /\
     stored_init (st c) (w "car") = Some [point; point] /\ given c (w "car") = Some [point; point] /\
     read_flat (hp (st c)) 0 = Some [Num 9].
  Proof.
    eexists. split.
    - change evs with (((([] ++ [EMap [w "T0"; w "T1"]]) ++ [EAdd car]) ++ [ESet (w "car") 0 [w "Normal"] None None]) ++ [EInner 0 [Num 9]]).
      eapply hist_snoc; [eapply hist_snoc; [eapply hist_snoc; [eapply hist_snoc; [apply hist_nil|]|]|]|].
      + apply step_map.
      + eapply step_add; [exact I|exact I|exact I|vm_compute; reflexivity].
      + eapply step_set_ok; [vm_compute; lia|exact I|exact I|vm_compute; reflexivity].
      + eapply step_inner; [vm_compute; intuition discriminate|vm_compute; lia|vm_compute; reflexivity].
    - vm_compute. auto.
  Qed.

  (** Two coordinates are needed; a list of one is rejected. *)
  Example rejects : exists s, add_agent (mkstate (mkheap [[Num 1]] [[0]]) [] [] [] [] [] None) car = Some s /\
     snd (set_init_single s (w "car") 0 [w "Normal"] None None) = false /\
     snd (set_init_single s (w "bike") 0 [w "Normal"] None None) = false.
  Proof. eexists. split; [vm_compute; reflexivity|]. vm_compute. auto. Qed.

  Example tracks : exists s ag, add_agent s1 car = Some s /\ dget word_eqb (w "car") (agent_dict s) = Some ag /\
     mode_defs ag = [(w "TrackMode", [w "T1"; w "T0"])].
  Proof. eexists. eexists. split; [vm_compute; reflexivity|]. split; [vm_compute; reflexivity|reflexivity]. Qed.

  (** Both agents at once. *)
  Example both : exists s, add_agent s1 car = Some s /\ snd (set_init s [1] [[w "Normal"]] [] []) = true /\
     stored_init (fst (set_init s [1] [[w "Normal"]] [] [])) (w "car") = Some [point; [Num 3; Num 4]].
  Proof. eexists. split; [vm_compute; reflexivity|]. vm_compute. auto. Qed.
End Example_scenario.

(** C55 (refuted for [set_init]).  A [set_init] call rejected at its second agent has already changed the first. *)
Theorem C55_set_init_atomic_refuted :
  exists s inits modes, wf (hp s) /\ Forall (fun o => o < length (outer (hp s))) inits /\
    NoDup (map fst (agent_dict s)) /\ length inits = length (agent_dict s) /\ length modes = length (agent_dict s) /\
    snd (set_init s inits modes [] []) = false /\
    exists id, stored_init (fst (set_init s inits modes [] [])) id <> stored_init s id.
Proof.
  pose (a1 := mkagent (w "a") true (Some (1, 1)) [] None None None None).
  pose (a2 := mkagent (w "b") true (Some (2, 1)) [] None None None None).
  exists (mkstate (mkheap [[Num 1]] [[0]]) [(w "a", a1); (w "b", a2)] [] [] [] [] None), [0; 0], [[w "m"]; [w "m"]].
  split; [repeat constructor|]. split; [repeat constructor|].
  split; [repeat constructor; simpl; intuition discriminate|]. split; [reflexivity|]. split; [reflexivity|].
  split; [reflexivity|]. exists (w "a"). vm_compute. discriminate.
Qed.
Print Assumptions C55_set_init_atomic_refuted.

(** C55 (refuted for the constructor).  An initial point given when the agent is built is stored by [add_agent] as
    a set with one corner, not as a box, and its length is not checked. *)
Theorem C55_constructor_refuted :
  exists s ag s' v, wf (hp s) /\ outer_ok (hp s) (init_cont ag) /\ has_logic ag = true /\ first_def ag = Some (2, 1) /\
    add_agent s ag = Some s' /\ stored_init s' (aid ag) = Some [v] /\ length v = 1.
Proof.
  exists (mkstate (mkheap [[Num 1]] [[0]]) [] [] [] [] [] None),
         (mkagent (w "a") true (Some (2, 1)) [] (Some 0) (Some [w "m"]) None None).
  eexists. exists [Num 1]. split; [repeat constructor|]. split; [simpl; lia|]. split; [reflexivity|]. split; [reflexivity|].
  split; [vm_compute; reflexivity|]. vm_compute. auto.
Qed.
Print Assumptions C55_constructor_refuted.
