(** Proofs for TableMapProps.v. *)
From Coq Require Import Ascii String Reals Lra.
From Verif Require Import Base BaseFacts PyText Dict ScanProofs LaneMap3d Angle AngleSpec AngleProofs Lane LaneSpec LaneProofs Intersection IntersectionSpec IntersectionProofs TableMap TableMapSpec.
Set Implicit Arguments.
Open Scope nat_scope.

Lemma hkey_eqb_iff x y : hkey_eqb x y = true <-> x = y.
Proof.
  destruct x as [[a b] c], y as [[a' b'] c']. unfold hkey_eqb. cbn [fst snd]. rewrite !andb_true_iff, !word_eqb_iff. split.
  - intros [[-> ->] ->]. reflexivity.
  - intros E. injection E as -> -> ->. auto.
Qed.
Lemma th_In m lane src dest x : th m lane src dest = Some (Some x) -> In ((lane, src, dest), x) (m_h m).
Proof.
  unfold th. destruct (m_h m) as [|e0 l] eqn:E; [discriminate|]. intros H. destruct (dget hkey_eqb (lane, src, dest) (e0 :: l)) as [y|] eqn:G; [|discriminate].
  injection H as <-. apply (dget_In hkey_eqb hkey_eqb_iff _ _ G).
Qed.
Lemma th_exist m lane src dest : h_exist m lane src dest = true -> exists x, th m lane src dest = Some (Some x).
Proof.
  unfold h_exist, th. destruct (dget hkey_eqb (lane, src, dest) (m_h m)) as [x|] eqn:G; [|discriminate]. intros _. destruct (m_h m); [discriminate|].
  exists x. reflexivity.
Qed.
Lemma exist_th m lane src dest x : th m lane src dest = Some (Some x) -> h_exist m lane src dest = true.
Proof.
  unfold h_exist, th. destruct (m_h m) as [|e0 l] eqn:E; [discriminate|]. intros H. destruct (dget hkey_eqb (lane, src, dest) (e0 :: l)) as [y|]; [reflexivity|discriminate].
Qed.

(** All entries of a table. *)
Ltac each_entry H :=
  cbn [m_h simple_map3 simple_map4 simple_map6 m1 three_lanes five_lanes braking] in H; unfold three_lanes, five_lanes, braking, e in H;
  repeat (destruct H as [H|H]; [first [discriminate H|injection H; clear H; intros; subst]|]); [..|destruct H].
Ltac each_table H := destruct H as [<-|[<-|[<-|[<-|[]]]]].

(** ** Histories *)
Definition state_ok (m : tmap) (mode lane : word) : Prop :=
  is_lane m lane /\ get_phys_lane lane = lane /\ ~ switching mode \/
  switching mode /\ is_lane m (get_phys_lane lane) /\ h_exist m lane mode (w "Normal") = true.
Lemma not_switching mode : prefix_of (w "Switch") mode = false -> ~ switching mode.
Proof. intros E S. apply switching_iff in S. congruence. Qed.
Lemma entry_ok m lane src dest x : In m tables -> In ((lane, src, dest), x) (m_h m) -> state_ok m dest x.
Proof.
  intros Hm H. each_table Hm; each_entry H;
  first [left; split; [cbn; auto 10|split; [reflexivity|apply not_switching; reflexivity]]
        |right; split; [apply switching_iff; reflexivity|split; [cbn; auto 10|reflexivity]]].
Qed.
Lemma tdrive_ok m : In m tables -> forall requests mode lane, state_ok m mode lane ->
  exists mode' lane', tdrive m mode lane requests = Some (mode', lane') /\ state_ok m mode' lane'.
Proof.
  intros Hm. induction requests as [|r rest IH]; intros mode lane O; [exists mode, lane; auto|].
  cbn [tdrive]. destruct (h_exist m lane mode r) eqn:E; [|apply IH, O].
  destruct (th_exist _ _ _ _ E) as (x & Ex). rewrite Ex. apply IH. eapply entry_ok; [exact Hm|]. eapply th_In. exact Ex.
Qed.

(** ** Geometry *)
Lemma axis_dir x y x1 y1 : (x1 - x = 0 /\ 0 < y1 - y \/ 0 < x1 - x /\ y1 - y = 0)%R ->
  dir_lat x y x1 y1 = (if Rlt_dec 0 (x1 - x) then (0, 1) else (-1, 0))%R.
Proof.
  intros [[A B]|[A B]]; unfold dir_lat, dir; cbn [fst snd]; destruct (Rlt_dec 0 (x1 - x)) as [P|P]; try lra; rewrite ?A, ?B.
  - destruct (norm_axis B) as (_ & -> & _). f_equal; field; lra.
  - destruct (norm_axis A) as (-> & _). f_equal; field; lra.
Qed.
Open Scope R_scope.
Lemma along_left y y' x1 : 0 < x1 -> y' = y + 3 -> lane_left_by 3 (along_x y' x1) (along_x y x1).
Proof.
  intros P ->. constructor; [|constructor]. apply straight_left; try lra.
  - apply pair_neq. lra.
  - rewrite axis_dir by (right; split; lra). destruct (Rlt_dec 0 (x1 - 0)); [|lra]. cbn [fst]. ring.
  - rewrite axis_dir by (right; split; lra). destruct (Rlt_dec 0 (x1 - 0)); [|lra]. cbn [snd]. ring.
Qed.
Lemma bend_left y r x y' r' x' : 0 < r' -> y' = y + 3 -> r = r' + 3 -> x = x' + 3 -> lane_left_by 3 (bend y' r' x') (bend y r x).
Proof.
  intros P -> -> ->. constructor; [|constructor; [|constructor; [|constructor]]].
  - apply straight_left; try lra.
    + apply pair_neq. lra.
    + rewrite axis_dir by (right; split; lra). destruct (Rlt_dec 0 (225 / 10 - 0)); [|lra]. cbn [fst]. ring.
    + rewrite axis_dir by (right; split; lra). destruct (Rlt_dec 0 (225 / 10 - 0)); [|lra]. cbn [snd]. ring.
  - apply circular_left; cbn [turn]; lra.
  - apply straight_left; try lra.
    + apply pair_neq. lra.
    + rewrite axis_dir by (left; split; lra). destruct (Rlt_dec 0 (x' + 3 - (x' + 3))); [lra|]. cbn [fst]. ring.
    + rewrite axis_dir by (left; split; lra). destruct (Rlt_dec 0 (x' + 3 - (x' + 3))); [lra|]. cbn [snd]. ring.
Qed.
(** Conversely, lanes that begin along the x axis. *)
Lemma along_only y x1 l y' x1' l' d : 0 < x1 -> 0 < x1' -> lane_left_by d (Straight 0 y' x1' y' 3 :: l') (Straight 0 y x1 y 3 :: l) -> y' = y + d.
Proof.
  intros P P' H. assert (F : left_by d (Straight 0 y' x1' y' 3) (Straight 0 y x1 y 3)) by (inversion H; assumption).
  destruct (F 0) as (lon' & _ & E).
  { cbn [length_of]. replace (y - y) with 0 by ring. assert (Q : 0 < x1 - 0) by lra. destruct (norm_axis Q) as (N & _). rewrite N. lra. }
  cbn [position] in E. rewrite !axis_dir in E by (right; split; lra).
  destruct (Rlt_dec 0 (x1 - 0)); [|lra]. destruct (Rlt_dec 0 (x1' - 0)); [|lra].
  unfold dir in E. cbn [fst snd] in E. replace (y - y) with 0 in E by ring. replace (y' - y') with 0 in E by ring. injection E as _ E.
  assert (Z : forall k, 0 / k = 0) by (intros; unfold Rdiv; ring). rewrite !Z in E. lra.
Qed.

Lemma cs_3 : cos (3 * PI / 2) = 0 /\ sin (3 * PI / 2) = -1.
Proof. replace (3 * PI / 2) with ((2 + 1) * PI / 2) by lra. destruct quarter3 as (A & B & _). auto. Qed.
Lemma bend_smooth y r x : 0 < r -> y = 13 - r -> x = 225 / 10 + r ->
  exists s1 s2 s3, bend y r x = [s1; s2; s3] /\ joint s1 s2 /\ joint s2 s3.
Proof.
  intros P -> ->. do 3 eexists. split; [reflexivity|]. destruct cs_3 as [C S]. split; split.
  - rewrite straight_end by (apply pair_neq; lra). rewrite circular_start by exact P. rewrite C, S. f_equal; ring.
  - eapply heads_same.
    + apply (@straight_heads _ _ _ _ _ _ (225 / 10) 1 0); lra.
    + destruct (circular_heads_start (225 / 10) 13 (3 * PI / 2) (2 * PI) false 3 P) as [A B]. unfold heads. rewrite A, B. cbn [turn fst snd]. rewrite C, S. split; ring.
  - rewrite circular_end by exact P. rewrite straight_start, cos_2PI, sin_2PI. f_equal; ring.
  - eapply heads_same.
    + apply circular_heads_end, P.
    + cbn [turn]. rewrite cos_2PI, sin_2PI. replace (- (1) * 0) with 0 by ring. replace (1 * 1) with 1 by ring. apply (@straight_heads _ _ _ _ _ _ 87 0 1); lra.
Qed.
Open Scope nat_scope.

(** ** SimpleMap4Switch2 *)
Definition digit5 (i : nat) : ascii := nth i ["0"; "1"; "2"; "3"; "4"]%char "0"%char.
Lemma str5 i : i < 5 -> str i = [digit5 i].
Proof. intros H. do 5 (destruct i as [|i]; [reflexivity|]). lia. Qed.
Lemma int5 i : i < 5 -> int [digit5 i] = Some i.
Proof. intros H. do 5 (destruct i as [|i]; [reflexivity|]). lia. Qed.
Lemma change_finish i j mode dest : i < 5 -> j < 5 -> switching mode ->
  switch2_h (change2 i j) mode dest = if prefix_of (w "Switch") dest then Some None else Some (Some (lane2 j)).
Proof.
  intros Hi Hj S. apply switching_iff in S. unfold switch2_h. rewrite S. destruct (prefix_of (w "Switch") dest); [reflexivity|].
  unfold change2, lane2. rewrite !str5 by assumption. reflexivity.
Qed.
Lemma lane_start i mode dest : i < 5 -> ~ switching mode ->
  switch2_h (lane2 i) mode dest =
    if prefix_of (w "Switch") dest then
      if word_eqb (skipn 6 dest) (w "Left2") && (1 <? i) then Some (Some (change2 i (i - 2)))
      else if word_eqb (skipn 6 dest) (w "Right") && (i <? 4) then Some (Some (change2 i (i + 1)))
      else if word_eqb (skipn 6 dest) (w "Right2") && (i <? 3) then Some (Some (change2 i (i + 2)))
      else Some None
    else Some (Some (lane2 i)).
Proof.
  intros Hi S. unfold switch2_h. destruct (prefix_of (w "Switch") mode) eqn:E; [exfalso; apply S, switching_iff, E|].
  destruct (prefix_of (w "Switch") dest); [|reflexivity]. unfold lane2. rewrite (str5 Hi).
  change (nth_error (w "T" ++ [digit5 i]) 1) with (Some (digit5 i)). cbn [obind]. rewrite (int5 Hi). cbn [obind].
  unfold change2. reflexivity.
Qed.
Definition ok2 (mode lane : word) : Prop :=
  (~ switching mode /\ exists i, i < 5 /\ lane = lane2 i) \/ (switching mode /\ exists i j, i < 5 /\ j < 5 /\ lane = change2 i j).
Lemma drive2_ok requests : forall mode lane, ok2 mode lane -> exists mode' lane', drive2 mode lane requests = Some (mode', lane') /\ ok2 mode' lane'.
Proof.
  induction requests as [|r rest IH]; intros mode lane O; [exists mode, lane; auto|]. cbn [drive2]. destruct O as [[S (i & Hi & ->)]|[S (i & j & Hi & Hj & ->)]].
  - rewrite lane_start by assumption. destruct (prefix_of (w "Switch") r) eqn:E.
    + assert (Sr : switching r) by (apply switching_iff; exact E).
      destruct (_ && (1 <? i)) eqn:B1; [apply andb_true_iff in B1; destruct B1 as [_ B1]; apply Nat.ltb_lt in B1; apply IH; right; split; [exact Sr|]; exists i, (i - 2); repeat split; lia|].
      destruct (_ && (i <? 4)) eqn:B2; [apply andb_true_iff in B2; destruct B2 as [_ B2]; apply Nat.ltb_lt in B2; apply IH; right; split; [exact Sr|]; exists i, (i + 1); repeat split; lia|].
      destruct (_ && (i <? 3)) eqn:B3; [apply andb_true_iff in B3; destruct B3 as [_ B3]; apply Nat.ltb_lt in B3; apply IH; right; split; [exact Sr|]; exists i, (i + 2); repeat split; lia|].
      apply IH. left. split; [exact S|exists i; auto].
    + apply IH. left. split; [apply not_switching, E|exists i; auto].
  - rewrite change_finish by assumption. destruct (prefix_of (w "Switch") r) eqn:E.
    + apply IH. right. split; [exact S|exists i, j; auto].
    + apply IH. left. split; [apply not_switching, E|exists j; auto].
Qed.
