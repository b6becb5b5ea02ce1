(** Proofs about starting analyses. *)
From Coq Require Import Ascii String Lqa.
From Verif Require Import Base BaseFacts PyText Dict LaneMap3d ResetProofs Scenario ScenarioSpec ScenarioProofs ScenarioMain Runs RunsSpec.
Set Implicit Arguments.
Open Scope nat_scope.

Arguments set_fail_same {s id o mode static uncertain s'}.

(** ** The invariant of scenarios *)
Record sane (s : state) : Prop := {
  sane_wf : wf (hp s);
  sane_init : forall id o, dget word_eqb id (init_dict s) = Some o -> o < length (outer (hp s)) /\ dget word_eqb id (agent_dict s) <> None;
  sane_mode : forall id m, dget word_eqb id (init_mode_dict s) = Some m -> dget word_eqb id (agent_dict s) <> None;
  sane_static : forall id a, dget word_eqb id (static_dict s) = Some a -> a < length (inner (hp s)) /\ dget word_eqb id (agent_dict s) <> None;
  sane_uncertain : forall id o, dget word_eqb id (uncertain_param_dict s) = Some o -> o < length (outer (hp s)) /\ dget word_eqb id (agent_dict s) <> None;
  sane_agents : forall id ag, dget word_eqb id (agent_dict s) = Some ag -> refs_ok (hp s) ag }.

Lemma refs_ok_ext h h' ag : ext h h' -> refs_ok h ag -> refs_ok h' ag.
Proof.
  intros E [A [B C]]. assert (L1 := ext_len_in E). assert (L2 := ext_len_out E).
  unfold refs_ok, outer_ok, flat_ok in *.
  destruct (init_cont ag), (static_parameters ag), (uncertain_parameters ag); repeat split; trivial; lia.
Qed.

Lemma known_iff s id : known s id <-> dget word_eqb id (agent_dict s) <> None.
Proof.
  unfold known. rewrite (dget_None word_eqb word_eqb_eq). destruct (in_dec (list_eq_dec ascii_dec) id (map fst (agent_dict s))); tauto.
Qed.

Lemma sane_new h : wf h -> sane (new_scenario h).
Proof. intros W. constructor; simpl; auto; discriminate. Qed.

Lemma set_map_get s lanes id :
  dget word_eqb id (agent_dict (set_map s lanes)) =
  match dget word_eqb id (agent_dict s) with Some ag => Some (update_agent_lane_mode ag lanes) | None => None end.
Proof.
  unfold set_map. cbn [agent_dict]. induction (agent_dict s) as [|[k v] l IH]; simpl; [reflexivity|].
  destruct (word_eqb id k); [reflexivity|exact IH].
Qed.

Lemma sane_map s lanes : sane s -> sane (set_map s lanes).
Proof.
  intros [W A B C D E]. constructor; cbn [hp init_dict init_mode_dict static_dict uncertain_param_dict set_map]; try assumption.
  - intros id o H. rewrite set_map_get. destruct (A id o H) as [? K]. split; [assumption|]. destruct (dget word_eqb id (agent_dict s)); congruence.
  - intros id o H. rewrite set_map_get. assert (K := B id o H). destruct (dget word_eqb id (agent_dict s)); congruence.
  - intros id o H. rewrite set_map_get. destruct (C id o H) as [? K]. split; [assumption|]. destruct (dget word_eqb id (agent_dict s)); congruence.
  - intros id o H. rewrite set_map_get. destruct (D id o H) as [? K]. split; [assumption|]. destruct (dget word_eqb id (agent_dict s)); congruence.
  - intros id ag H. rewrite set_map_get in H. destruct (dget word_eqb id (agent_dict s)) as [ag0|] eqn:Q; [|discriminate].
    injection H as <-. exact (E id ag0 Q).
Qed.

Lemma sane_heap s h : sane s -> wf h -> ext (hp s) h -> sane (heap_step s h).
Proof.
  intros [W A B C D F] W' E. assert (L1 := ext_len_in E). assert (L2 := ext_len_out E).
  constructor; cbn [heap_step hp init_dict init_mode_dict static_dict uncertain_param_dict agent_dict]; try assumption.
  - intros id o H. destruct (A id o H). split; [lia|assumption].
  - intros id o H. destruct (C id o H). split; [lia|assumption].
  - intros id o H. destruct (D id o H). split; [lia|assumption].
  - intros id ag H. exact (refs_ok_ext E (F id ag H)).
Qed.

(** Changing one agent's entries. *)
Lemma put_other {V} (k a : word) (v : V) d : a <> k -> dget word_eqb a (put k v d) = dget word_eqb a d.
Proof. intros N. rewrite dget_put, (proj2 (word_eqb_neq a k) N). reflexivity. Qed.
Lemma put_same {V} (k : word) (v : V) d : dget word_eqb k (put k v d) = Some v.
Proof. rewrite dget_put, word_eqb_refl. reflexivity. Qed.
Lemma put_some {V} (k a : word) (v : V) d : dget word_eqb a d <> None -> dget word_eqb a (put k v d) <> None.
Proof. rewrite dget_put. destruct (word_eqb a k); congruence. Qed.

Lemma add_agent_agents s ag s' : add_agent s ag = Some s' ->
  exists ag', agent_dict s' = put (aid ag) ag' (agent_dict s) /\ init_cont ag' = init_cont ag /\ init_disc ag' = init_disc ag /\
    static_parameters ag' = static_parameters ag /\ uncertain_parameters ag' = uncertain_parameters ag.
Proof.
  unfold add_agent. set (ag' := match map_lanes s with Some lanes => update_agent_lane_mode ag lanes | None => ag end).
  intros H. exists ag'. destruct (copy_opt _ _) as [[? ?]|]; [|discriminate]. cbn [obind fst snd] in H.
  destruct (copy_flat_or_empty _ _) as [[? ?]|]; [|discriminate]. cbn [obind fst snd] in H.
  destruct (copy_or_empty _ _) as [[? ?]|]; [|discriminate]. cbn [obind fst snd] in H. injection H as <-. cbn [agent_dict].
  unfold ag'. destruct (map_lanes s); repeat split.
Qed.
Arguments add_agent_agents {s ag s'}.

Lemma sane_add s ag s' : sane s -> refs_ok (hp s) ag -> add_agent s ag = Some s' -> sane s'.
Proof.
  intros S [Oi [Os Ou]] H. destruct (add_agent_agents H) as [ag' [A [K1 [K2 [K3 K4]]]]].
  destruct (@add_agent_spec s ag (sane_wf S) Oi Os Ou) as [s2 [i [x [u [A2 [E [W' [D1 [D2 [D3 [D4 [P1 [F2 [_ [F3 _]]]]]]]]]]]]]]].
  rewrite H in A2. injection A2 as <-. assert (L1 := ext_len_in E). assert (L2 := ext_len_out E).
  constructor; rewrite ?A.
  - exact W'.
  - intros id o. rewrite D1. destruct (init_cont ag).
    + rewrite dget_put. destruct (word_eqb id (aid ag)) eqn:Q.
      * apply word_eqb_eq in Q. subst id. intros [= <-]. destruct P1 as [[P _] _]. split; [lia|]. rewrite put_same. discriminate.
      * intros G. destruct (sane_init S id G). split; [lia|apply put_some; assumption].
    + intros G. destruct (sane_init S id G). split; [lia|apply put_some; assumption].
  - intros id m. rewrite D2. destruct (init_disc ag).
    + rewrite dget_put. destruct (word_eqb id (aid ag)) eqn:Q.
      * apply word_eqb_eq in Q. subst id. intros _. rewrite put_same. discriminate.
      * intros G. apply put_some, (sane_mode S id G).
    + intros G. apply put_some, (sane_mode S id G).
  - intros id o. rewrite D3, dget_put. destruct (word_eqb id (aid ag)) eqn:Q.
    + apply word_eqb_eq in Q. subst id. intros [= <-]. unfold fresh_flat in F2. split; [lia|]. rewrite put_same. discriminate.
    + intros G. destruct (sane_static S id G). split; [lia|apply put_some; assumption].
  - intros id o. rewrite D4, dget_put. destruct (word_eqb id (aid ag)) eqn:Q.
    + apply word_eqb_eq in Q. subst id. intros [= <-]. destruct F3 as [F3 _]. split; [lia|]. rewrite put_same. discriminate.
    + intros G. destruct (sane_uncertain S id G). split; [lia|apply put_some; assumption].
  - intros id ag2. rewrite dget_put. destruct (word_eqb id (aid ag)).
    + intros [= <-]. apply (refs_ok_ext E). unfold refs_ok. rewrite K1, K3, K4. auto.
    + intros G. apply (refs_ok_ext E), (sane_agents S id G).
Qed.

Lemma deepcopy_fresh h o h' o' : wf h -> deepcopy h o = Some (h', o') -> ext h h' /\ wf h' /\ fresh h h' o' /\ read h' o' = read h o.
Proof.
  intros W H. assert (L : o < length (outer h)).
  { apply nth_error_Some. unfold deepcopy in H. destruct (nth_error (outer h) o); [discriminate|discriminate H]. }
  destruct (deepcopy_spec W L) as [h2 [o2 [D K]]]. rewrite H in D. injection D as <- <-. exact K.
Qed.
Arguments deepcopy_fresh {h o h' o'}.
Lemma deepcopy_flat_fresh h a h' a' : wf h -> deepcopy_flat h a = Some (h', a') -> ext h h' /\ wf h' /\ fresh_flat h h' a'.
Proof.
  intros W H. assert (L : a < length (inner h)).
  { apply nth_error_Some. unfold deepcopy_flat in H. destruct (nth_error (inner h) a); [discriminate|discriminate H]. }
  destruct (deepcopy_flat_spec W L) as [h2 [o2 [D K]]]. rewrite H in D. injection D as <- <-. tauto.
Qed.
Arguments deepcopy_flat_fresh {h a h' a'}.

Lemma outer_ok_ext h h' o : ext h h' -> outer_ok h o -> outer_ok h' o.
Proof. intros E. assert (L := ext_len_out E). destruct o; simpl; [lia|auto]. Qed.
Arguments outer_ok_ext {h h'} o.
Lemma flat_ok_ext h h' o : ext h h' -> flat_ok h o -> flat_ok h' o.
Proof. intros E. assert (L := ext_len_in E). destruct o; simpl; [lia|auto]. Qed.
Arguments flat_ok_ext {h h'} o.

(** The agent's own copies after [set_init_single]. *)
Lemma store_refs s id ag o rows mode static uncertain s' : wf (hp s) -> nth_error (outer (hp s)) o = Some rows ->
  store_init s id ag o rows mode static uncertain = Some s' ->
  exists ag', agent_dict s' = put id ag' (agent_dict s) /\ refs_ok (hp s') ag'.
Proof.
  intros W R H. unfold store_init in H.
  destruct (if length rows =? 1 then new_outer (hp s) (rows ++ rows) else (hp s, o)) as [h0 i] eqn:B.
  assert (W0 : wf h0).
  { destruct (length rows =? 1); injection B as <- _; [|exact W].
    apply (@wf_new_outer (hp s) (rows ++ rows) W). apply Forall_app. split; apply (wf_rows W R). }
  destruct (deepcopy h0 i) as [[h1 c]|] eqn:D1; [|discriminate]. cbn [obind fst snd] in H.
  destruct (deepcopy_fresh W0 D1) as [_ [W1 _]].
  destruct (deepcopy h1 i) as [[h2 a]|] eqn:D2; [|discriminate]. cbn [obind fst snd] in H.
  destruct (deepcopy_fresh W1 D2) as [_ [W2 [F2 _]]].
  match type of H with obind ?e _ = _ => destruct e as [[[h3 x] xa]|] eqn:D3; [|discriminate] end. cbn [obind fst snd] in H.
  assert (K3 : ext h2 h3 /\ wf h3 /\ flat_ok h3 xa).
  { destruct (truthy (inner h2) static) as [y|].
    - destruct (deepcopy_flat h2 y) as [[h4 p]|] eqn:Q1; [|discriminate]. cbn [obind fst snd] in D3.
      destruct (deepcopy_flat_fresh W2 Q1) as [E1 [V1 _]].
      destruct (deepcopy_flat h4 y) as [[h5 q]|] eqn:Q2; [|discriminate]. cbn [obind fst snd] in D3.
      destruct (deepcopy_flat_fresh V1 Q2) as [E2 [V2 G]]. injection D3 as <- <- <-.
      split; [exact (ext_trans E1 E2)|]. split; [exact V2|]. unfold fresh_flat in G. simpl. lia.
    - simpl in D3. injection D3 as <- <- <-. split; [apply ext_new_inner|]. split; [apply (wf_new_inner _ W2)|exact I]. }
  destruct K3 as [E3 [W3 G3]].
  match type of H with obind ?e _ = _ => destruct e as [[[h4 u] ua]|] eqn:D4; [|discriminate] end. cbn [obind fst snd] in H.
  assert (K4 : ext h3 h4 /\ outer_ok h4 ua).
  { destruct (truthy (outer h3) uncertain) as [y|].
    - destruct (deepcopy h3 y) as [[h5 p]|] eqn:Q1; [|discriminate]. cbn [obind fst snd] in D4.
      destruct (deepcopy_fresh W3 Q1) as [E1 [V1 _]].
      destruct (deepcopy h5 y) as [[h6 q]|] eqn:Q2; [|discriminate]. cbn [obind fst snd] in D4.
      destruct (deepcopy_fresh V1 Q2) as [E2 [V2 [G _]]]. injection D4 as <- <- <-.
      split; [exact (ext_trans E1 E2)|]. destruct G as [G _]. simpl. lia.
    - simpl in D4. injection D4 as <- <- <-. split; [apply ext_new_outer|exact I]. }
  destruct K4 as [E4 G4]. injection H as <-. cbn [agent_dict hp]. eexists. split; [reflexivity|].
  unfold refs_ok. cbn [with_initial init_cont static_parameters uncertain_parameters].
  split; [apply (outer_ok_ext (Some a) (ext_trans E3 E4)); destruct F2 as [F2 _]; simpl; lia|].
  split; [apply (flat_ok_ext _ E4 G3)|exact G4].
Qed.

Lemma set_refs s id o mode static uncertain s' : wf (hp s) -> set_init_single s id o mode static uncertain = (s', true) ->
  exists ag', agent_dict s' = put id ag' (agent_dict s) /\ refs_ok (hp s') ag'.
Proof.
  intros W. unfold set_init_single. destruct (dget word_eqb id (agent_dict s)) as [ag|]; [|discriminate].
  destruct (nth_error (outer (hp s)) o) as [rows|] eqn:R; [|discriminate].
  destruct (init_accepted _ _ _ _); [|discriminate].
  destruct (store_init s id ag o rows mode static uncertain) as [s2|] eqn:S; [|discriminate].
  intros [= <-]. eapply store_refs; eassumption.
Qed.
Arguments set_refs {s id o mode static uncertain s'}.

Lemma sane_set s id o mode static uncertain s' ok : sane s -> o < length (outer (hp s)) -> flat_ok (hp s) static ->
  outer_ok (hp s) uncertain -> set_init_single s id o mode static uncertain = (s', ok) -> sane s'.
Proof.
  intros S Ho Os Ou H. destruct ok; [|rewrite (set_fail_same H); exact S].
  destruct (set_refs (sane_wf S) H) as [ag' [A G]].
  destruct (@set_ok_spec s id o mode static uncertain s' (sane_wf S) Ho Os Ou H)
      as [v [i [x [u [ag [ag2 [Rv [_ [E [W' [D1 [D2 [D3 [D4 [A0 [_ [_ [_ [F1 [_ [F2 [_ [F3 _]]]]]]]]]]]]]]]]]]]]]]].
  assert (L1 := ext_len_in E). assert (L2 := ext_len_out E).
  constructor; rewrite ?A.
  - exact W'.
  - intros k j. rewrite D1, dget_put. destruct (word_eqb k id) eqn:Q.
    + apply word_eqb_eq in Q. subst k. intros [= <-]. destruct F1 as [F1 _]. split; [lia|]. rewrite put_same. discriminate.
    + intros J. destruct (sane_init S k J). split; [lia|apply put_some; assumption].
  - intros k j. rewrite D2, dget_put. destruct (word_eqb k id) eqn:Q.
    + apply word_eqb_eq in Q. subst k. rewrite put_same. discriminate.
    + intros J. apply put_some, (sane_mode S k J).
  - intros k j. rewrite D3, dget_put. destruct (word_eqb k id) eqn:Q.
    + apply word_eqb_eq in Q. subst k. intros [= <-]. unfold fresh_flat in F2. split; [lia|]. rewrite put_same. discriminate.
    + intros J. destruct (sane_static S k J). split; [lia|apply put_some; assumption].
  - intros k j. rewrite D4, dget_put. destruct (word_eqb k id) eqn:Q.
    + apply word_eqb_eq in Q. subst k. intros [= <-]. destruct F3 as [F3 _]. split; [lia|]. rewrite put_same. discriminate.
    + intros J. destruct (sane_uncertain S k J). split; [lia|apply put_some; assumption].
  - intros k a. rewrite dget_put. destruct (word_eqb k id).
    + intros [= <-]. exact G.
    + intros J. apply (refs_ok_ext E), (sane_agents S k J).
Qed.
Arguments sane_set {s id o mode static uncertain s' ok}.

Lemma sane_agent s id o mode static uncertain s' : sane s -> agent_set_initial s id o mode static uncertain = Some s' -> sane s'.
Proof.
  intros S H. unfold agent_set_initial in H. assert (W := sane_wf S).
  destruct (dget word_eqb id (agent_dict s)) as [ag|] eqn:A; [|discriminate]. cbn [obind] in H.
  destruct (deepcopy (hp s) o) as [[h1 c]|] eqn:D1; [|discriminate]. cbn [obind fst snd] in H.
  destruct (deepcopy_fresh W D1) as [E1 [W1 [F1 _]]].
  destruct (copy_flat_opt h1 static) as [[h2 x]|] eqn:D2; [|discriminate]. cbn [obind fst snd] in H.
  assert (K2 : ext h1 h2 /\ wf h2 /\ flat_ok h2 x).
  { unfold copy_flat_opt in D2. destruct static as [y|].
    - destruct (deepcopy_flat h1 y) as [[h5 p]|] eqn:Q1; [|discriminate]. cbn [obind fst snd] in D2.
      destruct (deepcopy_flat_fresh W1 Q1) as [X1 [X2 X3]]. injection D2 as <- <-. repeat split; try assumption; try apply X1.
      unfold fresh_flat in X3. simpl. lia.
    - injection D2 as <- <-. split; [apply ext_refl|]. split; [exact W1|exact I]. }
  destruct K2 as [E2 [W2 G2]].
  destruct (copy_opt h2 uncertain) as [[h3 u]|] eqn:D3; [|discriminate]. cbn [obind fst snd] in H.
  assert (K3 : ext h2 h3 /\ wf h3 /\ outer_ok h3 u).
  { unfold copy_opt in D3. destruct uncertain as [y|].
    - destruct (deepcopy h2 y) as [[h5 p]|] eqn:Q1; [|discriminate]. cbn [obind fst snd] in D3.
      destruct (deepcopy_fresh W2 Q1) as [X1 [X2 [[X3 _] _]]]. injection D3 as <- <-. split; [exact X1|]. split; [exact X2|].
      simpl. lia.
    - injection D3 as <- <-. split; [apply ext_refl|]. split; [exact W2|exact I]. }
  destruct K3 as [E3 [W3 G3]]. injection H as <-.
  assert (E := ext_trans E1 (ext_trans E2 E3)). assert (L1 := ext_len_in E). assert (L2 := ext_len_out E).
  constructor; cbn [hp init_dict init_mode_dict static_dict uncertain_param_dict agent_dict].
  - exact W3.
  - intros k j J. destruct (sane_init S k J). split; [lia|apply put_some; assumption].
  - intros k j J. apply put_some, (sane_mode S k J).
  - intros k j J. destruct (sane_static S k J). split; [lia|apply put_some; assumption].
  - intros k j J. destruct (sane_uncertain S k J). split; [lia|apply put_some; assumption].
  - intros k a. rewrite dget_put. destruct (word_eqb k id).
    + intros [= <-]. unfold refs_ok. cbn [with_initial init_cont static_parameters uncertain_parameters].
      split; [apply (outer_ok_ext (Some c) (ext_trans E2 E3)); destruct F1 as [F1 _]; simpl; lia|].
      split; [apply (flat_ok_ext _ E3 G2)|exact G3].
    + intros J. apply (refs_ok_ext E), (sane_agents S k J).
Qed.
Arguments sane_agent {s id o mode static uncertain s'}.

(** ** Filling in missing initial sets *)
(** What a run leaves of a scenario's initial conditions. *)
Definition kept (s s' : state) : Prop :=
  map fst (agent_dict s') = map fst (agent_dict s) /\
  forall id, dget word_eqb id (init_dict s) <> None ->
    stored_init s' id = stored_init s id /\ stored_mode s' id = stored_mode s id /\
    stored_static s' id = stored_static s id /\ stored_uncertain s' id = stored_uncertain s id.

Lemma kept_refl s : kept s s.
Proof. split; auto. Qed.

Lemma ext_stored s h id (S : sane s) : wf h -> ext (hp s) h ->
  stored_init (heap_step s h) id = stored_init s id /\ stored_static (heap_step s h) id = stored_static s id /\
  stored_uncertain (heap_step s h) id = stored_uncertain s id.
Proof.
  intros W E. unfold stored_init, stored_static, stored_uncertain. cbn [heap_step hp init_dict static_dict uncertain_param_dict].
  repeat split.
  - destruct (dget word_eqb id (init_dict s)) as [o|] eqn:Q; [|reflexivity]. cbn [obind].
    apply (ext_read (sane_wf S) E), (sane_init S id Q).
  - destruct (dget word_eqb id (static_dict s)) as [o|] eqn:Q; [|reflexivity]. cbn [obind].
    apply (ext_flat E), (sane_static S id Q).
  - destruct (dget word_eqb id (uncertain_param_dict s)) as [o|] eqn:Q; [|reflexivity]. cbn [obind].
    apply (ext_read (sane_wf S) E), (sane_uncertain S id Q).
Qed.
Arguments ext_stored {s h} id.

(** What is held for the other agents after [set_init_single]. *)
Lemma set_others s id o mode static uncertain s' ok : sane s -> o < length (outer (hp s)) -> flat_ok (hp s) static ->
  outer_ok (hp s) uncertain -> set_init_single s id o mode static uncertain = (s', ok) ->
  map fst (agent_dict s') = map fst (agent_dict s) /\ ext (hp s) (hp s') /\
  forall k, k <> id -> stored_init s' k = stored_init s k /\ stored_mode s' k = stored_mode s k /\
    stored_static s' k = stored_static s k /\ stored_uncertain s' k = stored_uncertain s k /\
    dget word_eqb k (agent_dict s') = dget word_eqb k (agent_dict s) /\
    dget word_eqb k (init_dict s') = dget word_eqb k (init_dict s).
Proof.
  intros S Ho Os Ou H. destruct ok.
  2:{ rewrite (set_fail_same H). split; [reflexivity|]. split; [apply ext_refl|auto 10]. }
  destruct (@set_ok_spec s id o mode static uncertain s' (sane_wf S) Ho Os Ou H)
      as [v [i [x [u [ag [ag2 [Rv [_ [E [W' [D1 [D2 [D3 [D4 [A0 [A [_ [_ [F1 [_ [F2 [_ [F3 _]]]]]]]]]]]]]]]]]]]]]]].
  split.
  { rewrite A. unfold put, dset. rewrite dalter_keys by exact word_eqb_eq. unfold dmem. rewrite A0. reflexivity. }
  split; [exact E|]. intros k N. destruct (ext_stored k S W' E) as [P1 [P2 P3]].
  unfold stored_init, stored_static, stored_uncertain, stored_mode in *.
  rewrite D1, D2, D3, D4, A, !put_other by exact N. auto 10.
Qed.
Arguments set_others {s id o mode static uncertain s' ok}.

Lemma fill_spec ids : forall s s' ok, sane s -> fill_loop ids s = (s', ok) -> sane s' /\ kept s s' /\
  forall id, dget word_eqb id (init_dict s) = None ->
    (init_dict s' = init_dict s /\ stored_mode s' id = stored_mode s id) \/
    dget word_eqb id (init_dict s') = None \/
    exists ag o v, dget word_eqb id (agent_dict s) = Some ag /\ init_cont ag = Some o /\ read (hp s) o = Some v /\
      stored_init s' id = Some (as_box v) /\ stored_mode s' id = init_disc ag.
Proof.
  induction ids as [|id ids IH]; intros s s' ok S H; simpl in H.
  - injection H as <- <-. split; [exact S|]. split; [apply kept_refl|]. auto.
  - unfold dmem in H. destruct (dget word_eqb id (init_dict s)) as [oi|] eqn:Q; [exact (IH s s' ok S H)|].
    destruct (dget word_eqb id (agent_dict s)) as [ag|] eqn:A.
    2:{ injection H as <- <-. split; [exact S|]. split; [apply kept_refl|]. auto. }
    destruct (init_cont ag) as [o|] eqn:C; [|exact (IH s s' ok S H)].
    destruct (init_disc ag) as [m|] eqn:M; [|exact (IH s s' ok S H)].
    destruct (sane_agents S id A) as [Oi [Os Ou]]. rewrite C in Oi. simpl in Oi.
    destruct (set_init_single s id o m (static_parameters ag) (uncertain_parameters ag)) as [s1 ok1] eqn:T.
    assert (S1 := sane_set S Oi Os Ou T).
    destruct (set_others S Oi Os Ou T) as [K1 [E1 O1]].
    assert (KN : forall k, dget word_eqb k (init_dict s) <> None -> k <> id) by (intros k Hk ->; congruence).
    destruct ok1.
    2:{ injection H as <- <-. rewrite (set_fail_same T). split; [exact S|]. split; [apply kept_refl|]. auto. }
    destruct (@set_ok_spec s id o m _ _ s1 (sane_wf S) Oi Os Ou T)
      as [v [i [x [u [ag1 [ag2 [Rv [_ [_ [W1 [D1 [D2 [D3 [D4 [A0 [A1 [_ [_ [F1 [R1 _]]]]]]]]]]]]]]]]]]]].
    destruct (IH s1 s' ok S1 H) as [S' [[K2 O2] P2]]. split; [exact S'|]. split.
    { split; [congruence|]. intros k Hk. destruct (O1 k (KN k Hk)) as [? [? [? [? [? G]]]]].
      destruct (O2 k) as [? [? [? ?]]]; [rewrite G; exact Hk|]. repeat split; congruence. }
    intros k Hk. destruct (list_eq_dec ascii_dec k id) as [Ek|N].
    + subst k. right. right. exists ag, o, v. split; [exact A|]. split; [exact C|]. split; [exact Rv|].
      destruct (O2 id) as [G1 [G2 _]]; [rewrite D1, put_same; discriminate|]. rewrite G1, G2.
      unfold stored_init, stored_mode. rewrite D1, D2, !put_same. cbn [obind]. auto.
    + destruct (O1 k N) as [? [? [? [? [Gk G]]]]]. destruct (P2 k) as [[P3 P4]|[P3|P3]]; [congruence| | |].
      * right. left. rewrite P3, G. exact Hk.
      * right. left. exact P3.
      * right. right. destruct P3 as [ag' [o' [v' [B1 [B2 [B3 [B4 B5]]]]]]]. exists ag', o', v'.
        split; [congruence|]. split; [exact B2|]. split; [|auto].
        rewrite <- B3. symmetry. apply (ext_read (sane_wf S) E1).
        destruct (sane_agents S k) with (ag := ag') as [X _]; [congruence|]. rewrite B2 in X. exact X.
Qed.
Arguments fill_spec {ids s s' ok}.
