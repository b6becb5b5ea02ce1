(** Property C117: configurations of lane segments. *)
From Coq Require Import Ascii String.
From Verif Require Import Base BaseFacts Dict PyText ResetProofs LaneConfig.
Set Implicit Arguments.
Open Scope nat_scope.

Lemma call_keys c kw a : call c kw = Some a -> exists f, a = map (fun p => (fst p, f (fst p) (snd p))) (params c).
Proof.
  unfold call. destruct (forallb _ kw); [|discriminate]. intros H.
  exists (fun x d => match dget word_eqb x kw with Some v => v | None => match d with Some v => v | None => Nothing end end).
  revert a H. induction (params c) as [|p l IH]; intros a H; [injection H as <-; reflexivity|]. cbn [mapM] in H.
  unfold fill in H at 1. cbn [map]. destruct (dget word_eqb (fst p) kw); [|destruct (snd p); [|discriminate]]; cbn [option_map obind] in H;
    (destruct (mapM (fill kw) l); [|discriminate]); injection H as <-; f_equal; apply IH; reflexivity.
Qed.

Lemma to_config_keys c lane config : to_config c lane = Some config -> map fst config = config_names c.
Proof.
  unfold to_config. generalize (config_names c). intros l. revert config. induction l as [|x l IH]; intros config H; [injection H as <-; reflexivity|].
  cbn [mapM] in H. destruct (dget word_eqb x lane); [|discriminate]. cbn [option_map obind] in H. destruct (mapM _ l) as [r|]; [|discriminate]. injection H as <-. cbn [map fst]. f_equal. apply IH. reflexivity.
Qed.

(** ** C117: the dictionary of to_config, completed with the identifier, gives the same segment back. *)
Theorem C117_round_trip_partial : forall unit phases geometry c kwargs lane, In c [Straight2; Circular2; Straight3] ->
  new unit phases geometry c kwargs = Some lane ->
  exists config id, to_config c lane = Some config /\ dget word_eqb (w "id") lane = Some id /\
    from_config unit phases geometry c ((w "id", id) :: config) = Some lane.
Proof.
  intros unit phases geometry c kwargs lane Hc H. unfold new in H. destruct (call c kwargs) as [a|] eqn:E; [|discriminate]. cbn [obind] in H. apply call_keys in E. destruct E as [f ->].
  destruct Hc as [<- | [<- | [<- | []]]]; apply (f_equal (fun o => match o with Some x => x | None => lane end)) in H; subst lane; unfold params, last_five; cbn [app map fst snd];
    match goal with |- context [striped (w "line_types", ?v)] => generalize v end; intros v; destruct v as [ | | | |[|n l]| ];
    eexists _, _; (split; [reflexivity|]); (split; [reflexivity|]); reflexivity.
Qed.
Print Assumptions C117_round_trip_partial.

(** ** C117 is false of the dictionary itself: from_config rejects what to_config wrote, for every segment of every class. *)
Theorem C117_round_trip_refuted : forall unit phases geometry c kwargs lane config,
  new unit phases geometry c kwargs = Some lane -> to_config c lane = Some config ->
  from_config unit phases geometry c config = None.
Proof.
  intros unit phases geometry c kwargs lane config _ H.
  assert (N : dget word_eqb (w "id") config = None).
  { apply to_config_keys in H. apply (dget_None _ word_eqb_eq). rewrite H. destruct c; cbn; intuition discriminate. }
  assert (C : call c config = None).
  { unfold call. destruct (forallb _ config); [|reflexivity]. destruct c; cbn [params app mapM]; unfold fill at 1; cbn [fst snd]; rewrite N; reflexivity. }
  unfold from_config, new. rewrite C. destruct c; unfold obind; repeat (match goal with |- context [dget word_eqb ?x config] => destruct (dget word_eqb x config) end; [|reflexivity]); reflexivity.
Qed.
Print Assumptions C117_round_trip_refuted.

(** ** C117 is false of arcs in space even with the identifier: their plane is not written. *)
Theorem C117_arc3_refuted : forall unit phases geometry c kwargs lane config id, In c [Circular3; Circular3_v2] ->
  new unit phases geometry c kwargs = Some lane -> to_config c lane = Some config ->
  from_config unit phases geometry c ((w "id", id) :: config) = None.
Proof.
  intros unit phases geometry c kwargs lane config id Hc _ H.
  assert (N : dget word_eqb (w "norm_vec") ((w "id", id) :: config) = None).
  { apply to_config_keys in H. apply (dget_None _ word_eqb_eq). cbn [map fst]. rewrite H. destruct Hc as [<- | [<- | []]]; cbn; intuition discriminate. }
  assert (C : call c ((w "id", id) :: config) = None).
  { unfold call. destruct (forallb _ _); [|reflexivity]. destruct (mapM _ _) as [a|] eqn:E; [|reflexivity]. exfalso.
    assert (M : forall l r, mapM (fill ((w "id", id) :: config)) l = Some r -> ~ In (w "norm_vec", None) l).
    { induction l as [|p l IH]; intros r El I; [exact I|]. cbn [mapM] in El. destruct (fill _ p) eqn:Ep; [|discriminate]. cbn [obind] in El.
      destruct (mapM _ l) as [r'|]; [|discriminate]. destruct I as [-> | I]; [|exact (IH _ eq_refl I)]. unfold fill in Ep. cbn [fst snd] in Ep. rewrite N in Ep. discriminate. }
    apply (M _ _ E). destruct Hc as [<- | [<- | []]]; cbn [params app In]; tauto. }
  unfold from_config, new. rewrite C. destruct Hc as [<- | [<- | []]]; unfold obind; destruct (dget word_eqb (w "center") _); reflexivity.
Qed.
Print Assumptions C117_arc3_refuted.

(** ** C117: a constructor keeps what it is given. *)
Theorem C117_new : forall unit phases geometry c kwargs lane x v, In c [Straight2; Circular2; Straight3] ->
  new unit phases geometry c kwargs = Some lane -> dget word_eqb x kwargs = Some v -> v <> Nothing -> v <> Lines [] ->
  dget word_eqb x lane = Some v.
Proof.
  intros unit phases geometry c kwargs lane x v Hc H Hx V1 V2. unfold new, call in H. destruct (forallb _ kwargs) eqn:F; [|discriminate].
  assert (I : existsb (fun p => word_eqb x (fst p)) (params c) = true).
  { rewrite forallb_forall in F. apply dget_In in Hx; [|exact word_eqb_eq]. exact (F _ Hx). }
  assert (G : forall l a, mapM (fill kwargs) l = Some a -> existsb (fun p => word_eqb x (fst p)) l = true -> dget word_eqb x (map striped a) = Some v).
  { induction l as [|p l IH]; intros a E Ex; [discriminate|]. cbn [mapM] in E. destruct (fill kwargs p) as [kv|] eqn:Ep; [|discriminate]. cbn [obind] in E. destruct (mapM (fill kwargs) l) as [a'|]; [|discriminate]. injection E as <-.
    assert (K : fst kv = fst p) by (unfold fill in Ep; destruct (dget word_eqb (fst p) kwargs); [injection Ep as <-; reflexivity|destruct (snd p); [injection Ep as <-; reflexivity|discriminate]]).
    assert (K' : fst (striped kv) = fst p) by (unfold striped; destruct (word_eqb _ _); [destruct (snd kv) as [ | | | |[|]| ]|]; exact K).
    cbn [map dget]. destruct (striped kv) as [k' v'] eqn:Es. cbn [fst] in K'. subst k'. cbn [existsb] in Ex. destruct (word_eqb x (fst p)) eqn:Exp.
    - apply word_eqb_eq in Exp. subst x. unfold fill in Ep. rewrite Hx in Ep. injection Ep as <-. f_equal.
      unfold striped in Es. cbn [fst snd] in Es. destruct (word_eqb _ _); [|injection Es as <-; reflexivity]. destruct v as [ | | | |[|]| ]; try (injection Es as <-; reflexivity); [destruct (V2 eq_refl)|destruct (V1 eq_refl)].
    - apply IH; [reflexivity|exact Ex]. }
  destruct (mapM (fill kwargs) (params c)) as [a|] eqn:E; [|discriminate]. cbn [obind] in H.
  destruct Hc as [<- | [<- | [<- | []]]]; injection H as <-; eapply G; eassumption.
Qed.
Print Assumptions C117_new.

(** ** C117: what is not given is a striped lane of width 4, allowed, with speed limit 20 and priority 0. *)
Theorem C117_defaults : forall unit phases geometry c kwargs lane x d, In c [Straight2; Circular2; Straight3] ->
  new unit phases geometry c kwargs = Some lane -> dget word_eqb x kwargs = None ->
  In (x, d) [(w "width", Num 4); (w "line_types", Lines [1; 1]); (w "forbidden", Flag false); (w "speed_limit", Num 20); (w "priority", Num 0)] ->
  dget word_eqb x lane = Some d.
Proof.
  intros unit phases geometry c kwargs lane x d Hc H Hx Hd. unfold new, call in H. destruct (forallb _ kwargs); [|discriminate].
  assert (G : forall l a, mapM (fill kwargs) l = Some a -> dget word_eqb x (map striped a) = match dget word_eqb x l with Some (Some v) => Some (snd (striped (x, v))) | _ => None end).
  { induction l as [|p l IH]; intros a E; [injection E as <-; reflexivity|]. cbn [mapM] in E. destruct (fill kwargs p) as [kv|] eqn:Ep; [|discriminate]. cbn [obind] in E. destruct (mapM (fill kwargs) l) as [a'|]; [|discriminate]. injection E as <-.
    assert (K : fst kv = fst p) by (unfold fill in Ep; destruct (dget word_eqb (fst p) kwargs); [injection Ep as <-; reflexivity|destruct (snd p); [injection Ep as <-; reflexivity|discriminate]]).
    assert (K' : fst (striped kv) = fst p) by (unfold striped; destruct (word_eqb _ _); [destruct (snd kv) as [ | | | |[|]| ]|]; exact K).
    cbn [map dget]. destruct (striped kv) as [k' v'] eqn:Es. cbn [fst] in K'. subst k'. destruct p as [y o]. cbn [fst] in *. destruct (word_eqb x y) eqn:Exy.
    - apply word_eqb_eq in Exy. unfold fill in Ep. cbn [fst snd] in Ep. rewrite <- Exy, Hx in Ep. destruct o as [v|]; [|discriminate]. injection Ep as <-. rewrite Es. reflexivity.
    - apply IH. reflexivity. }
  destruct (mapM (fill kwargs) (params c)) as [a|] eqn:E; [|discriminate]. cbn [obind] in H. specialize (G _ _ E).
  assert (L : lane = map striped a) by (destruct Hc as [<- | [<- | [<- | []]]]; injection H as <-; reflexivity). subst lane. rewrite G.
  destruct Hd as [Ed | [Ed | [Ed | [Ed | [Ed | []]]]]]; injection Ed as <- <-; destruct Hc as [<- | [<- | [<- | []]]]; reflexivity.
Qed.
Print Assumptions C117_defaults.

Module Example_config.
  Definition road : dict word value := [(w "id", Text (w "seg0")); (w "start", Vec [0; 0]%Q); (w "end", Vec [100; 0]%Q); (w "width", Num 3)].
  Definition unit0 (v : value) := v.
  Definition phases0 (r s e : value) := (s, e).
  Definition geometry0 (s e n d r : value) := Some (s, Num 1, Num 0, d).
  Example made : exists lane, new unit0 phases0 geometry0 Straight2 road = Some lane /\ dget word_eqb (w "line_types") lane = Some (Lines [1; 1]) /\ dget word_eqb (w "width") lane = Some (Num 3).
  Proof. eexists. split; [vm_compute; reflexivity|]. split; reflexivity. Qed.
  Definition bend : dict word value :=
    [(w "id", Text (w "b")); (w "start", Vec [10; 0; 0]%Q); (w "end", Vec [0; 10; 0]%Q); (w "norm_vec", Vec [0; 0; 1]%Q); (w "delta_phase", Num 1)].
  Example made3 : exists lane config, new unit0 phases0 geometry0 Circular3_v2 bend = Some lane /\ to_config Circular3_v2 lane = Some config.
  Proof. eexists _, _. split; vm_compute; reflexivity. Qed.
End Example_config.
