(** Highway maps with a table of lane changes (C82). *)
From Coq Require Import Ascii String Reals Lra.
From Verif Require Import Base BaseFacts PyText Dict ScanProofs LaneMap3d Angle AngleSpec AngleProofs Lane LaneSpec LaneProofs Intersection IntersectionSpec IntersectionProofs TableMap TableMapSpec TableMapProofs.
Set Implicit Arguments.
Open Scope nat_scope.

(** C82.  [h_exist] says whether [h] has an answer: when it does, [h] gives a lane; when it does not, [h] raises.  (With an empty
    table [h] answers None.) *)
Theorem C82_exist : forall m lane src dest, m_h m <> [] ->
  (h_exist m lane src dest = true <-> exists x, th m lane src dest = Some (Some x)) /\
  (h_exist m lane src dest = false <-> th m lane src dest = None).
Proof.
  intros m lane src dest N.
  assert (A : h_exist m lane src dest = true <-> exists x, th m lane src dest = Some (Some x)).
  { split; [apply th_exist|]. intros (x & E). eapply exist_th. exact E. }
  split; [exact A|]. split.
  - intros H. unfold h_exist in H. unfold th. destruct (m_h m); [congruence|]. destruct (dget _ _ _); [discriminate|reflexivity].
  - intros H. destruct (h_exist m lane src dest); [|reflexivity]. destruct A as [A _]. destruct (A eq_refl) as (x & E). congruence.
Qed.
Print Assumptions C82_exist.

(** C82.  Whatever is asked of a car that starts on a lane of the map in normal mode, in any order, the map never raises if it is
    only asked what it has an entry for; the physical lane is always one of the map; while the car is not switching its lane is
    itself one of the map; and a switch can always be ended. *)
Theorem C82_histories : forall m lane requests, In m tables -> is_lane m lane ->
  exists mode' lane', tdrive m (w "Normal") lane requests = Some (mode', lane') /\
    is_lane m (get_phys_lane lane') /\ (~ switching mode' -> is_lane m lane') /\
    (switching mode' -> exists back, th m lane' mode' (w "Normal") = Some (Some back) /\ is_lane m back).
Proof.
  intros m lane requests Hm Hl.
  assert (O : state_ok m (w "Normal") lane).
  { left. split; [exact Hl|]. split; [|apply not_switching; reflexivity]. each_table Hm; cbn in Hl; repeat (destruct Hl as [<-|Hl]; [reflexivity|]); destruct Hl. }
  destruct (tdrive_ok Hm requests O) as (mode' & lane' & E & [(A & B & C)|(A & B & C)]); exists mode', lane'; (split; [exact E|]).
  - rewrite B. split; [exact A|]. split; [auto|]. intros S. contradiction.
  - split; [exact B|]. split; [intros S; contradiction|]. intros _. destruct (th_exist _ _ _ _ C) as (x & Ex). exists x. split; [exact Ex|].
    apply th_In in Ex. destruct (@entry_ok _ _ _ _ _ Hm Ex) as [(D & _)|(D & _)]; [exact D|]. exfalso. revert D. apply not_switching. reflexivity.
Qed.
Print Assumptions C82_histories.

(** C82.  Switching left (right) leads to the lane that runs 3 to the left (right) over its whole length, and from there back; the
    car is counted on its old lane until the switch is over. *)
Theorem C82_left : forall m lane x, In m tables -> th m lane (w "Normal") (w "SwitchLeft") = Some (Some x) ->
  get_phys_lane x = lane /\ exists lane' l l', th m x (w "SwitchLeft") (w "Normal") = Some (Some lane') /\
    dget word_eqb lane (m_lanes m) = Some l /\ dget word_eqb lane' (m_lanes m) = Some l' /\ lane_left_by 3 l' l.
Proof.
  intros m lane x Hm H. apply th_In in H. each_table Hm; each_entry H;
  (split; [reflexivity|]); do 3 eexists; (split; [reflexivity|]); (split; [reflexivity|]); (split; [reflexivity|]); first [apply along_left; lra|apply bend_left; lra].
Qed.
Print Assumptions C82_left.
Theorem C82_right : forall m lane x, In m tables -> th m lane (w "Normal") (w "SwitchRight") = Some (Some x) ->
  get_phys_lane x = lane /\ exists lane' l l', th m x (w "SwitchRight") (w "Normal") = Some (Some lane') /\
    dget word_eqb lane (m_lanes m) = Some l /\ dget word_eqb lane' (m_lanes m) = Some l' /\ lane_left_by 3 l l'.
Proof.
  intros m lane x Hm H. apply th_In in H. each_table Hm; each_entry H;
  (split; [reflexivity|]); do 3 eexists; (split; [reflexivity|]); (split; [reflexivity|]); (split; [reflexivity|]); first [apply along_left; lra|apply bend_left; lra].
Qed.
Print Assumptions C82_right.

(** C82.  Conversely, wherever a lane runs 3 to the left of another the switch is offered, both ways. *)
Theorem C82_offered : forall m a b l l', In m tables ->
  dget word_eqb a (m_lanes m) = Some l -> dget word_eqb b (m_lanes m) = Some l' -> lane_left_by 3 l' l ->
  h_exist m a (w "Normal") (w "SwitchLeft") = true /\ h_exist m b (w "Normal") (w "SwitchRight") = true.
Proof.
  intros m a b l l' Hm A B L. apply (dget_In word_eqb word_eqb_iff) in A, B.
  each_table Hm; cbn [m_lanes simple_map3 simple_map4 simple_map6 m1] in A, B;
  repeat (destruct A as [A|A]; [injection A; clear A; intros; subst|]); try (destruct A; fail);
  repeat (destruct B as [B|B]; [injection B; clear B; intros; subst|]); try (destruct B; fail);
  first [split; reflexivity | exfalso; unfold bend, along_x in L; apply along_only in L; lra].
Qed.
Print Assumptions C82_offered.

(** C82.  [left_lane] and [right_lane] are the lanes the switches lead to. *)
Theorem C82_neighbours : forall a b,
  (left_lane simple_map4 a = Some b <->
     exists x, th simple_map4 a (w "Normal") (w "SwitchLeft") = Some (Some x) /\ th simple_map4 x (w "SwitchLeft") (w "Normal") = Some (Some b)) /\
  (right_lane simple_map4 a = Some b <->
     exists x, th simple_map4 a (w "Normal") (w "SwitchRight") = Some (Some x) /\ th simple_map4 x (w "SwitchRight") (w "Normal") = Some (Some b)).
Proof.
  intros a b. split; split.
  - intros H. apply (dget_In word_eqb word_eqb_iff) in H. cbn [m_left simple_map4] in H.
    repeat (destruct H as [H|H]; [injection H; clear H; intros; subst; eexists; split; reflexivity|]). destruct H.
  - intros (x & H & K). apply th_In in H. each_entry H; vm_compute in K; injection K as <-; reflexivity.
  - intros H. apply (dget_In word_eqb word_eqb_iff) in H. cbn [m_right simple_map4] in H.
    repeat (destruct H as [H|H]; [injection H; clear H; intros; subst; eexists; split; reflexivity|]). destruct H.
  - intros (x & H & K). apply th_In in H. each_entry H; vm_compute in K; injection K as <-; reflexivity.
Qed.
Print Assumptions C82_neighbours.

(** C82.  The lanes that bend are smooth. *)
Theorem C82_smooth : forall lane l, dget word_eqb lane (m_lanes simple_map6) = Some l ->
  exists s1 s2 s3, l = [s1; s2; s3] /\ joint s1 s2 /\ joint s2 s3.
Proof.
  intros lane l H. apply (dget_In word_eqb word_eqb_iff) in H. cbn [m_lanes simple_map6] in H.
  repeat (destruct H as [H|H]; [injection H; clear H; intros; subst; apply bend_smooth; lra|]). destruct H.
Qed.
Print Assumptions C82_smooth.

(** C82, refuted for M1: a car that brakes can never drive normally again, whatever is asked. *)
Theorem C82_brake_refuted : forall lane requests, is_lane m1 lane ->
  h_exist m1 lane (w "Normal") (w "Brake") = true /\
  tdrive m1 (w "Normal") lane (w "Brake" :: requests) = Some (w "Brake", lane).
Proof.
  intros lane requests H.
  assert (N : forall r, h_exist m1 lane (w "Brake") r = false).
  { intros r. destruct (h_exist m1 lane (w "Brake") r) eqn:E; [|reflexivity]. exfalso. destruct (th_exist _ _ _ _ E) as (x & Ex). apply th_In in Ex.
    cbn [m_h m1] in Ex. unfold braking, e in Ex. repeat (destruct Ex as [Ex|Ex]; [discriminate Ex|]). destruct Ex. }
  assert (S : forall l, tdrive m1 (w "Brake") lane l = Some (w "Brake", lane)) by (induction l as [|r l IH]; [reflexivity|cbn [tdrive]; rewrite N; exact IH]).
  assert (E : h_exist m1 lane (w "Normal") (w "Brake") = true /\ th m1 lane (w "Normal") (w "Brake") = Some (Some lane)).
  { cbn in H. repeat (destruct H as [<-|H]; [split; reflexivity|]). destruct H. }
  destruct E as [E1 E2]. split; [exact E1|]. cbn [tdrive]. rewrite E1, E2. apply S.
Qed.
Print Assumptions C82_brake_refuted.

(** C82, the map with double switches.  Every switching mode but "SwitchLeft" does what its name says: it goes between the lane
    and the one it asks for, is refused if there is none, and any mode that does not switch ends it there.  Missing: "SwitchLeft",
    see [C82_single_left_refuted]. *)
Theorem C82_double_partial : forall i mode dest, i < 5 -> ~ switching mode -> switching dest -> dest <> w "SwitchLeft" ->
  switch2_h (lane2 i) mode dest = Some (option_map (change2 i) (wanted dest i)) /\
  (forall j, wanted dest i = Some j -> j < 5 /\ get_phys_lane (change2 i j) = lane2 i /\
    forall mode', ~ switching mode' -> switch2_h (change2 i j) dest mode' = Some (Some (lane2 j))).
Proof.
  intros i mode dest Hi M D N. split.
  - rewrite lane_start by assumption. assert (E : prefix_of (w "Switch") dest = true) by (apply switching_iff; exact D). rewrite E.
    destruct D as (t & ->). change (skipn 6 (w "Switch" ++ t)) with t. unfold wanted.
    assert (P : forall s, word_eqb (w "Switch" ++ t) (w "Switch" ++ s) = word_eqb t s).
    { intros s. destruct (word_eqb t s) eqn:Q; [apply word_eqb_iff in Q; subst; apply word_eqb_iff; reflexivity|].
      destruct (word_eqb (w "Switch" ++ t) (w "Switch" ++ s)) eqn:Q'; [|reflexivity]. apply word_eqb_iff in Q'. apply app_inv_head in Q'. subst.
      rewrite (proj2 (word_eqb_iff s s) eq_refl) in Q. discriminate. }
    change (w "SwitchLeft") with (w "Switch" ++ w "Left") in *. change (w "SwitchLeft2") with (w "Switch" ++ w "Left2").
    change (w "SwitchRight") with (w "Switch" ++ w "Right"). change (w "SwitchRight2") with (w "Switch" ++ w "Right2"). rewrite !P.
    destruct (word_eqb t (w "Left")) eqn:B0; [apply word_eqb_iff in B0; subst; congruence|].
    do 5 (destruct i as [|i]; [
      destruct (word_eqb t (w "Left2")) eqn:B1;
      [apply word_eqb_iff in B1; subst; reflexivity|destruct (word_eqb t (w "Right")) eqn:B2;
      [apply word_eqb_iff in B2; subst; reflexivity|destruct (word_eqb t (w "Right2")) eqn:B3; [apply word_eqb_iff in B3; subst; reflexivity|reflexivity]]]|]). lia.
  - intros j J. assert (Hj : j < 5).
    { unfold wanted in J. repeat match type of J with (if ?b then _ else _) = _ => destruct b eqn:?; try discriminate end; injection J as <-;
      repeat match goal with H : (_ <=? _) = true |- _ => apply Nat.leb_le in H end; lia. }
    split; [exact Hj|]. split.
    + do 5 (destruct i as [|i]; [do 5 (destruct j as [|j]; [reflexivity|]); lia|]). lia.
    + intros mode' M'. rewrite change_finish by assumption. destruct (prefix_of (w "Switch") mode') eqn:E; [exfalso; apply M', switching_iff, E|reflexivity].
Qed.
Print Assumptions C82_double_partial.

(** C82, refuted for "SwitchLeft" on that map: it is always refused, although the lane to the left is there. *)
Theorem C82_single_left_refuted : forall i mode, i < 5 -> ~ switching mode ->
  switch2_h (lane2 i) mode (w "SwitchLeft") = Some None /\
  (0 < i -> wanted (w "SwitchLeft") i = Some (i - 1) /\
    exists l l', dget word_eqb (lane2 i) switch2_lanes = Some l /\ dget word_eqb (lane2 (i - 1)) switch2_lanes = Some l' /\ lane_left_by 3 l' l).
Proof.
  intros i mode Hi M. rewrite lane_start by assumption. split; [reflexivity|]. intros P.
  do 5 (destruct i as [|i]; [first [lia|split; [reflexivity|]; do 2 eexists; split; [reflexivity|]; split; [reflexivity|]; apply along_left; [lra|cbn; lra]]|]). lia.
Qed.
Print Assumptions C82_single_left_refuted.

(** C82.  And no sequence of requests makes that map raise or leave the road. *)
Theorem C82_double_histories : forall i mode requests, i < 5 -> ~ switching mode ->
  exists mode' lane', drive2 mode (lane2 i) requests = Some (mode', lane') /\
    In (get_phys_lane lane') (map fst switch2_lanes) /\ (~ switching mode' -> In lane' (map fst switch2_lanes)).
Proof.
  intros i mode requests Hi M. assert (K : forall j, j < 5 -> In (lane2 j) (map fst switch2_lanes)).
  { intros j Hj. do 5 (destruct j as [|j]; [cbn; auto 10|]). lia. }
  destruct (@drive2_ok requests mode (lane2 i)) as (mode' & lane' & E & [[S (j & Hj & ->)]|[S (j & k & Hj & Hk & ->)]]); [left; split; [exact M|exists i; auto]|..];
  do 2 eexists; (split; [exact E|]).
  - assert (P : get_phys_lane (lane2 j) = lane2 j) by (do 5 (destruct j as [|j]; [reflexivity|]); lia). rewrite P. auto.
  - assert (P : get_phys_lane (change2 j k) = lane2 j) by (do 5 (destruct j as [|j]; [do 5 (destruct k as [|k]; [reflexivity|]); lia|]); lia). rewrite P.
    split; [auto|]. intros C. contradiction.
Qed.
Print Assumptions C82_double_histories.

Module Example_C82.
  Example there_and_back : tdrive simple_map6 (w "Normal") (w "T1") [w "SwitchLeft"; w "SwitchRight"; w "Brake"; w "Normal"; w "SwitchLeft"; w "SwitchRight"; w "Normal"]
    = Some (w "Normal", w "T1") /\ In simple_map6 tables /\ is_lane simple_map6 (w "T1").
  Proof. split; [reflexivity|]. split; cbn; auto 10. Qed.
  Example changing : th simple_map4 (w "T0") (w "Normal") (w "SwitchLeft") = Some (Some (w "M04")) /\ get_phys_lane (w "M04") = w "T0".
  Proof. split; reflexivity. Qed.
  Example raises : th simple_map3 (w "T0") (w "Normal") (w "Normal") = None.
  Proof. reflexivity. Qed.
  Example empty : th simple_map2 (w "Lane1") (w "Normal") (w "SwitchLeft") = Some None.
  Proof. reflexivity. Qed.
  Example double : switch2_h (lane2 3) (w "Normal") (w "SwitchLeft2") = Some (Some (w "M31")) /\ wanted (w "SwitchLeft2") 3 = Some 1.
  Proof. split; reflexivity. Qed.
End Example_C82.
