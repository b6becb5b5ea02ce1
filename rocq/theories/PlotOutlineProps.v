(** C101: the outline of a node, [combine_rect=None]. *)
From Coq Require Import Ascii String Lqa.
From Verif Require Import Base BaseFacts Dict PyText Guard Tree TreeSpec TreeProofs TreeProps ResetProofs Plot PlotSpec PlotGeom PlotProofs PlotMain PlotBand PlotGroup PlotProps.
Set Implicit Arguments.
Open Scope nat_scope.

(** [path] goes along the lower corners of all boxes of [tr] in order, back along the upper corners, and ends where it began. *)
Definition around (tr : list vec) (x_dim y_dim : nat) (path : list pt) : Prop :=
  exists m, length tr = 2 * m /\ length path = 2 * m + 1 /\
    (forall j lo hi, box_at tr j lo hi -> exists p p',
      nth_error path j = Some p /\ point_of x_dim y_dim lo p /\ nth_error path (2 * m - 1 - j) = Some p' /\ point_of x_dim y_dim hi p') /\
    nth_error path (2 * m) = nth_error path 0.

Lemma outline_around x_dim y_dim line fill tr m : Forall (has_dims x_dim y_dim) tr -> length tr = 2 * m -> 0 < m ->
  exists path, outline x_dim y_dim line fill tr = Some (Filled path line fill) /\ around tr x_dim y_dim path.
Proof.
  intros F L Hm. destruct (@boxes_of x_dim y_dim tr m F L) as (bs & Lb & Bs & C1 & C2 & C3 & C4). unfold outline.
  assert (R0 : range_by 0 (length tr - 1) 2 = range_by 0 (2 * m) 2).
  { unfold range_by. f_equal. f_equal. rewrite L. replace (2 * m - 0 + (2 - 1)) with (1 + m * 2) by lia. rewrite Nat.div_add by lia. replace (2 * m - 1 - 0 + (2 - 1)) with (0 + m * 2) by lia. rewrite Nat.div_add by lia. reflexivity. }
  assert (R1 : range_by 1 (length tr - 1 + 1) 2 = range_by 1 (2 * m + 1) 2).
  { unfold range_by. f_equal. f_equal. rewrite L. replace (2 * m + 1 - 1 + (2 - 1)) with (1 + m * 2) by lia. rewrite Nat.div_add by lia. replace (2 * m - 1 + 1 - 1 + (2 - 1)) with (0 + m * 2) by lia. rewrite Nat.div_add by lia. reflexivity. }
  rewrite R0, R1, C1, C2, C3, C4. cbn [obind]. destruct bs as [|b0 bs'] eqn:Eb; [cbn in Lb; lia|]. rewrite <- Eb in *.
  assert (E0 : nth_error bs 0 = Some b0) by (rewrite Eb; reflexivity). rewrite !nth_error_map, E0. cbn [option_map obind].
  set (path := map fst bs ++ rev (map snd bs) ++ [fst b0]).
  assert (Ep : zip (map (fun b => fst (fst b)) bs ++ rev (map (fun b => fst (snd b)) bs) ++ [fst (fst b0)]) (map (fun b => snd (fst b)) bs ++ rev (map (fun b => snd (snd b)) bs) ++ [snd (fst b0)]) = path).
  { unfold path. rewrite <- !map_rev. repeat rewrite zip_app by (rewrite ?map_length; reflexivity). rewrite !zip_map.
    assert (E : forall l : list box, map (fun a => (fst (fst a), snd (fst a))) l = map fst l) by (intros l; apply map_ext; intros [[? ?] ?]; reflexivity).
    assert (E' : forall l : list box, map (fun a => (fst (snd a), snd (snd a))) l = map snd l) by (intros l; apply map_ext; intros [? [? ?]]; reflexivity).
    rewrite E, E'. cbn [zip]. rewrite <- surjective_pairing. reflexivity. }
  rewrite Ep. exists path. split; [reflexivity|]. exists m. split; [exact L|]. split; [|split].
  - unfold path. rewrite !app_length, rev_length, !map_length. cbn. lia.
  - intros j lo hi B. assert (Hj : j < m) by (destruct B as [_ B2]; assert (2 * j + 1 < length tr) by (apply nth_error_Some; congruence); lia).
    destruct (nth_error bs j) as [b|] eqn:Ej; [|apply nth_error_None in Ej; lia]. destruct (Bs j b Ej) as (lo' & hi' & [B1 B2] & A1 & A2 & A3 & A4).
    destruct B as [B3 B4]. rewrite B3 in B1. rewrite B4 in B2. injection B1 as <-. injection B2 as <-.
    exists (fst b), (snd b). split; [|split; [split; assumption|split; [|split; assumption]]].
    + unfold path. rewrite nth_error_app1 by (rewrite map_length; lia). rewrite nth_error_map, Ej. reflexivity.
    + unfold path. rewrite nth_error_app2 by (rewrite map_length; lia). rewrite map_length, nth_error_app1 by (rewrite rev_length, map_length; lia).
      rewrite nth_error_rev by (rewrite map_length; lia). rewrite map_length, nth_error_map. replace (length bs - S (2 * m - 1 - j - length bs)) with j by lia. rewrite Ej. reflexivity.
  - unfold path. rewrite nth_error_app2 by (rewrite map_length; lia). rewrite nth_error_app2 by (rewrite rev_length, !map_length; lia). rewrite rev_length, !map_length.
    replace (2 * m - length bs - length bs) with 0 by lia. rewrite nth_error_app1 by (rewrite map_length; lia). rewrite nth_error_map, E0. reflexivity.
Qed.

Section Props.
  Variables (t : ptree) (lanes : list shape) (fig : figure) (x_dim y_dim : nat) (scale labels : bool) (plot_color : list (list word)).
  Hypothesis C : complete t x_dim y_dim.
  Hypothesis Nm : labels = true -> named t.
  Hypothesis En : enough plot_color (length (t_agents t)).
  Hypothesis Bx : boxed t x_dim y_dim.
  Hypothesis Ln : only_lanes lanes.

  (** C101.  Without grouping, each node is one filled shape for each agent, in the agent's colours: the path around its
      boxes.  Nothing else is filled. *)
  Theorem C101_outline : (forall q a tr, trace_at t q a tr -> varies tr x_dim y_dim) ->
    exists fig', reachtube_tree t lanes fig x_dim y_dim scale labels 1 None plot_color = Some (t, fig') /\
      (forall i a q tr line fill, nth_error (t_agents t) i = Some a -> trace_at t q a tr -> agent_colors plot_color i line fill ->
        exists path, In (Filled path line fill) (f_shapes fig') /\ around tr x_dim y_dim path) /\
      (forall path line fill, In (Filled path line fill) (f_shapes fig') -> In (Filled path line fill) (f_shapes fig) \/
        exists i a q tr, nth_error (t_agents t) i = Some a /\ trace_at t q a tr /\ agent_colors plot_color i line fill /\ around tr x_dim y_dim path).
  Proof.
    intros Va. assert (Fine := tube_fine C Bx (k := 0) ltac:(lia)).
    assert (Sh : forall q a tr l c, trace_at t q a tr -> exists path, tube_shapes x_dim y_dim l c None tr = Some [Filled path l c] /\ around tr x_dim y_dim path).
    { intros q a tr l c Ht. destruct (Fine q a tr Ht) as (m & Lm & Hm & F). destruct (@outline_around x_dim y_dim l c tr m F Lm Hm) as (path & E & A). exists path. split; [|exact A].
      unfold tube_shapes. destruct (@still_ok x_dim y_dim tr F) as [[|] Es]; [destruct (still_varies (Va q a tr Ht) Es)|]. rewrite Es. cbn [obind]. rewrite E. reflexivity. }
    destruct (@reachtube_fig t x_dim y_dim labels scale plot_color C Nm En lanes fig None) as (fig' & s & l & E & S & _ & K & L).
    { intros q a tr l c Ht. destruct (Sh q a tr l c Ht) as (path & -> & _). discriminate. }
    exists fig'. split; [exact E|]. split.
    - intros i a q tr line fill Hi Ht Ac. destruct (Sh q a tr line fill Ht) as (path & Et & A). exists path. split; [|exact A]. apply S. right. right. left. exists i, a, q, tr, [Filled path line fill], line, fill. cbn. auto 10.
    - intros path line fill H. apply S in H. destruct H as [H|[H|[H|H]]]; [auto| | |].
      + exfalso. destruct (Ln _ H) as [lp Hl]. discriminate.
      + right. destruct H as (i & a & q & tr & s' & l' & c' & Hi & Ac & Ht & Et & I). destruct (Sh q a tr l' c' Ht) as (path' & Et' & A). rewrite Et' in Et. injection Et as <-. destruct I as [[= -> -> ->]|[]]. exists i, a, q, tr. auto.
      + exfalso. destruct (known_facts C K L) as (_ & N & _). destruct (N _ H) as [(? & ? & ? & Hl)|(? & ? & Hl)]; discriminate.
  Qed.
End Props.
Print Assumptions C101_outline.

(** The outline of two boxes. *)
Module Example_outline.
  Import Example_tubes.
  Example drawn_two : exists fig', reachtube_tree tubes [] blank 1 2 true true 1 None colors = Some (tubes, fig') /\ exists path l c, In (Filled path l c) (f_shapes fig') /\ path = [(0, 0); (2, 0); (4, 1); (2, 1); (0, 0)]%Q /\ around [[0; 0; 0]; [1; 2; 1]; [1; 2; 0]; [2; 4; 1]]%Q 1 2 path.
  Proof.
    eexists. split; [vm_compute; reflexivity|]. do 3 eexists. split; [left; reflexivity|]. split; [reflexivity|]. exists 2. split; [reflexivity|]. split; [reflexivity|]. split; [|reflexivity].
    intros [|[|j]] lo hi [A B]; cbn in A, B.
    - injection A as <-. injection B as <-. do 2 eexists. repeat split.
    - injection A as <-. injection B as <-. do 2 eexists. repeat split.
    - exfalso. assert (2 * S (S j) < 4) by (change 4 with (length [[0; 0; 0]; [1; 2; 1]; [1; 2; 0]; [2; 4; 1]]%Q); apply nth_error_Some; cbn; rewrite A; discriminate). lia.
  Qed.
  Example hypotheses : complete tubes 1 2 /\ named tubes /\ boxed tubes 1 2 /\ enough colors (length (t_agents tubes)) /\ only_lanes [] /\ (forall q a tr, trace_at tubes q a tr -> varies tr 1 2).
  Proof.
    destruct fine as (A & B & D & V & _). split; [exact A|]. split; [exact B|]. split; [exact D|]. split; [exact hypotheses_colors|]. split; [intros s []|exact V].
  Qed.
End Example_outline.
