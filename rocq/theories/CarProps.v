(** Cars (C83). *)
From Coq Require Import Ascii String Reals Lra.
From Verif Require Import Base BaseFacts PyText Dict ScanProofs LaneMap3d Angle AngleSpec AngleProofs Lane LaneSpec LaneProofs Intersection IntersectionSpec IntersectionProofs TableMap TableMapSpec TableMapProofs Car CarSpec CarProofs.
Set Implicit Arguments.
Open Scope R_scope.

(** The only way to get a command: an answer of the map and a mode that is known. *)
Lemma action_inv speed accel double lanes mode name x y theta v s a :
  car_action speed accel double lanes [mode; name] [x; y; theta; v] = Some (s, a) ->
  exists l wd lat d heading, lane_of lanes name = Some l /\ lane_width l = Some wd /\ get_lateral l x y = Some lat /\
    wish speed accel double mode wd (- lat) v = Some (d, a) /\ get_heading l x y = Some heading /\ s = steer (wrap_to_pi (heading - theta)) d v.
Proof.
  unfold car_action. destruct (lane_of lanes name) as [l|]; [|discriminate]. cbn [obind]. destruct (lane_width l) as [wd|] eqn:W; [|discriminate]. cbn [obind].
  destruct (get_lateral l x y) as [lat|] eqn:L; [|discriminate]. cbn [obind]. destruct (wish speed accel double mode wd (- lat) v) as [[d a']|] eqn:D; [|discriminate]. cbn [obind].
  destruct (get_heading l x y) as [h|] eqn:H; [|discriminate]. cbn [obind fst snd]. intros E. injection E as <- <-. exists l, wd, lat, d, h. auto 10.
Qed.

(** C83.  The steering angle is within 0.61 either way.  Braking neither accelerates nor reverses and keeps to the car's limit;
    accelerating keeps to the limit and aims for the car's speed; in every other mode the speed is kept. *)
Theorem C83_limits : forall speed accel double lanes mode name x y theta v s a,
  car_action speed accel double lanes [mode; name] [x; y; theta; v] = Some (s, a) ->
  - (61 / 100) <= s <= 61 / 100 /\
  (mode = w "Brake" -> 0 <= accel -> 0 <= v -> - accel <= a <= 0 /\ - v <= a /\ (0 < accel -> 0 < v -> a < 0)) /\
  (mode = w "Accel" -> a <= accel /\ (0 <= accel -> v <= speed -> 0 <= a <= speed - v) /\ (0 < accel -> v < speed -> 0 < a) /\ (speed < v -> a < 0)) /\
  (mode <> w "Brake" -> mode <> w "Accel" -> a = 0).
Proof.
  intros speed accel double lanes mode name x y theta v s a H. apply action_inv in H. destruct H as (l & wd & lat & d & h & _ & _ & _ & W & _ & ->).
  split; [apply clip_range; lra|]. split; [|split].
  - intros -> A V. replace (wish speed accel double (w "Brake") wd (- lat) v) with (Some (- lat, Rmax (- accel) (- v))) in W by (destruct double; reflexivity). injection W as <- <-.
    destruct (Rle_dec (- accel) (- v)); [rewrite Rmax_right by assumption|rewrite Rmax_left by lra]; repeat split; intros; lra.
  - intros ->. replace (wish speed accel double (w "Accel") wd (- lat) v) with (Some (- lat, Rmin accel (speed - v))) in W by (destruct double; reflexivity). injection W as <- <-.
    destruct (Rle_dec accel (speed - v)); [rewrite Rmin_left by assumption|rewrite Rmin_right by lra]; repeat split; intros; try lra.
  - intros B A. unfold wish in W.
    repeat match type of W with (if ?b then _ else _) = _ => destruct b eqn:?; try (injection W as _ <-; reflexivity) end; try discriminate.
    + exfalso. apply B. apply word_eqb_iff. assumption.
    + exfalso. apply A. apply word_eqb_iff. assumption.
Qed.
Print Assumptions C83_limits.

(** C83, refuted: the limit does not hold against the direction of travel.  In mode "Accel" a car that is faster than its speed
    brakes as hard as it likes. *)
Theorem C83_limit_refuted : forall bound, exists v s a,
  car_action 2 1 false (m_lanes simple_map3) [w "Accel"; w "T1"] [0; 0; 0; v] = Some (s, a) /\ a < - bound.
Proof.
  intros bound. exists (Rabs bound + 3). unfold car_action. change (lane_of (m_lanes simple_map3) (w "T1")) with (Some (along_x 0 500)).
  cbn [obind lane_width along_x seg_width]. fold (along_x 0 500). rewrite along_lateral, along_heading by lra.
  assert (O : is_on (Straight 0 0 500 0 3) 0 0 = true).
  { unfold is_on. rewrite along_local, along_length by lra. cbn [fst]. unfold COMPENSATE. destruct (Rle_dec (0 - 3) 0); [|lra]. destruct (Rlt_dec 0 500); [reflexivity|lra]. }
  rewrite O. cbn [obind]. change (wish 2 1 false (w "Accel") 3 (- (0 - 0)) (Rabs bound + 3)) with (Some (- (0 - 0), Rmin 1 (2 - (Rabs bound + 3)))).
  cbn [obind fst snd]. do 2 eexists. split; [reflexivity|]. pose proof (Rle_abs bound). pose proof (Rabs_pos bound). rewrite Rmin_right by lra. lra.
Qed.
Print Assumptions C83_limit_refuted.

(** C83.  On a lane of the map a car answers exactly in the modes it knows. *)
Theorem C83_answers : forall speed accel double lanes mode name x y theta v l i s,
  lane_of lanes name = Some l -> get_lane_segment l x y = Some (i, s) ->
  (car_action speed accel double lanes [mode; name] [x; y; theta; v] <> None <-> In mode (known double)).
Proof.
  intros speed accel double lanes mode name x y theta v l i s L F.
  assert (W : exists wd, lane_width l = Some wd) by (destruct l as [|s0 l]; [discriminate|eexists; reflexivity]). destruct W as (wd & W).
  unfold car_action. rewrite L. cbn [obind]. rewrite W. cbn [obind]. unfold get_lateral, get_heading. rewrite F. cbn [obind].
  set (d := - snd (local s x y)). split.
  - intros H. destruct (wish speed accel double mode wd d v) as [da|] eqn:E; [|exfalso; apply H; reflexivity]. clear H. unfold wish in E.
    assert (K : forall b, word_eqb mode b = true -> mode = b) by (intros b Hb; apply word_eqb_iff; exact Hb).
    unfold known. apply in_or_app.
    repeat match type of E with (if ?b then _ else _) = _ => let Q := fresh "Q" in destruct b eqn:Q end; try discriminate;
    repeat match goal with Q : (_ || _)%bool = true |- _ => apply orb_true_iff in Q; destruct Q as [Q|Q] | Q : (_ && _)%bool = true |- _ => apply andb_true_iff in Q; destruct Q as [-> Q] end;
    match goal with Q : word_eqb mode _ = true |- _ => apply K in Q; rewrite Q; first [left; cbn; auto 10; fail|right; cbn; auto 10; fail] end.
  - intros H. assert (E : wish speed accel double mode wd d v <> None).
    { unfold known in H. apply in_app_or in H. destruct H as [H|H]; [|destruct double; [|destruct H]]; cbn in H;
      repeat (destruct H as [<-|H]; [first [discriminate|destruct double; discriminate]|]); destruct H. }
    destruct (wish speed accel double mode wd d v); [discriminate|congruence].
Qed.
Print Assumptions C83_answers.

(** C83.  Full turns do not matter: the same car with its heading given as another number for the same angle gets the same
    command. *)
Theorem C83_turns : forall speed accel double lanes mode x y theta theta' v, same_angle theta theta' ->
  car_action speed accel double lanes mode [x; y; theta; v] = car_action speed accel double lanes mode [x; y; theta'; v].
Proof.
  intros speed accel double lanes mode x y theta theta' v (k & E). unfold car_action.
  destruct mode as [|m [|n [|? ?]]]; try reflexivity. destruct (lane_of lanes n) as [l|]; [|reflexivity]. cbn [obind].
  destruct (lane_width l); [|reflexivity]. cbn [obind]. destruct (get_lateral l x y); [|reflexivity]. cbn [obind].
  destruct (wish _ _ _ _ _ _ _); [|reflexivity]. cbn [obind]. destruct (get_heading l x y) as [h|]; [|reflexivity]. cbn [obind].
  replace (wrap_to_pi (h - theta)) with (wrap_to_pi (h - theta')); [reflexivity|]. apply wrap_unique; [apply wrap_range|].
  destruct (wrap_same (h - theta')) as (j & J). exists (j + k)%Z. rewrite J, E, plus_IZR. ring.
Qed.
Print Assumptions C83_turns.

(** C83, refuted for NPCAgent: after a full turn a car that follows its lane steers to the right as hard as it can. *)
Theorem C83_npc_turns_refuted :
  let at_ theta := npc_action (m_lanes simple_map3) [w "Normal"; w "T1"] [0; 0; theta; 1] in
  same_angle 0 (2 * PI) /\ at_ 0 = Some (0, 0) /\ at_ (2 * PI) = Some (- (61 / 100), 0).
Proof.
  assert (O : is_on (Straight 0 0 500 0 3) 0 0 = true).
  { unfold is_on. rewrite along_local, along_length by lra. cbn [fst]. unfold COMPENSATE. destruct (Rle_dec (0 - 3) 0); [|lra]. destruct (Rlt_dec 0 500); [reflexivity|lra]. }
  assert (Z : forall x, 0 < x -> arctan2 0 x = 0).
  { intros x P. unfold arctan2. destruct (Rlt_dec 0 x); [|lra]. unfold Rdiv. rewrite Rmult_0_l. apply atan_0. }
  assert (A : forall th, npc_action (m_lanes simple_map3) [w "Normal"; w "T1"] [0; 0; th; 1] = Some (clip (- th) (- (61 / 100)) (61 / 100), 0)).
  { intros th. unfold npc_action. change (lane_of (m_lanes simple_map3) (w "T1")) with (Some (along_x 0 500)). cbn [obind].
    rewrite along_lateral, along_heading, O by lra. cbn [obind]. unfold steer. rewrite (Z (500 - 0)) by lra. replace (45 / 100 * - (0 - 0)) with 0 by field. rewrite Z by lra.
    do 2 f_equal. f_equal. ring. }
  cbv beta zeta. rewrite !A. split; [exists (-1)%Z; ring|]. split.
  - rewrite clip_id by lra. do 2 f_equal. ring.
  - do 2 f_equal. unfold clip. pose proof PI2_3_2. rewrite Rmax_right by lra. apply Rmin_left. lra.
Qed.
Print Assumptions C83_npc_turns_refuted.

(** The sign of the steering angle is the sign of the sum before it is limited. *)
Lemma steer_sign psi d v : (0 < psi + arctan2 (45 / 100 * d) v -> 0 < steer psi d v) /\ (psi + arctan2 (45 / 100 * d) v < 0 -> steer psi d v < 0) /\
  (psi + arctan2 (45 / 100 * d) v = 0 -> steer psi d v = 0).
Proof.
  unfold steer, clip. set (q := psi + arctan2 (45 / 100 * d) v). repeat split; intros Q.
  - rewrite Rmax_left by lra. apply Rmin_glb_lt; lra.
  - apply Rle_lt_trans with (Rmax q (- (61 / 100))); [apply Rmin_l|]. apply Rmax_lub_lt; lra.
  - rewrite Q. rewrite Rmax_left by lra. rewrite Rmin_left by lra. reflexivity.
Qed.
Lemma off_sign lat v : 0 < v -> (lat < 0 -> 0 < arctan2 (45 / 100 * - lat) v) /\ (0 < lat -> arctan2 (45 / 100 * - lat) v < 0) /\ (lat = 0 -> arctan2 (45 / 100 * - lat) v = 0).
Proof.
  intros V. unfold arctan2. destruct (Rlt_dec 0 v); [|lra]. assert (I : 0 < / v) by (apply Rinv_0_lt_compat, V). repeat split; intros Q.
  - rewrite <- atan_0 at 1. apply atan_increasing. unfold Rdiv at 1. apply Rmult_lt_0_compat; lra.
  - rewrite <- atan_0 at 1. apply atan_increasing. assert (0 < 45 / 100 * lat / v) by (unfold Rdiv at 1; apply Rmult_lt_0_compat; lra).
    replace (45 / 100 * - lat / v) with (- (45 / 100 * lat / v)) by (field; lra). lra.
  - rewrite Q. replace (45 / 100 * - 0 / v) with 0 by (field; lra). apply atan_0.
Qed.

(** C83.  A car that is aligned with its lane steers towards the middle of the lane: to the left when it is to the right of it,
    to the right when it is to the left of it, straight on when it is in the middle.  A car in the middle of its lane turns into
    the direction of the lane the short way round. *)
Theorem C83_steers : forall speed accel double lanes name x y theta v s a l lat heading error,
  car_action speed accel double lanes [w "Normal"; name] [x; y; theta; v] = Some (s, a) -> 0 < v ->
  lane_of lanes name = Some l -> get_lateral l x y = Some lat -> get_heading l x y = Some heading ->
  same_angle error (heading - theta) -> - PI <= error < PI ->
  (error = 0 -> (lat < 0 -> 0 < s) /\ (0 < lat -> s < 0) /\ (lat = 0 -> s = 0)) /\
  (lat = 0 -> (0 < error -> 0 < s) /\ (error < 0 -> s < 0)).
Proof.
  intros speed accel double lanes name x y theta v s a l lat heading error H V L La He Er Rg. apply action_inv in H. destruct H as (l' & wd & lat' & d & h & L' & _ & La' & W & He' & ->).
  rewrite L in L'. injection L' as <-. rewrite La in La'. injection La' as <-. rewrite He in He'. injection He' as <-.
  change (Some (- lat, 0) = Some (d, a)) in W. injection W as <- <-.
  assert (Z : wrap_to_pi (heading - theta) = error) by (symmetry; apply wrap_unique; assumption). rewrite Z.
  destruct (steer_sign error (- lat) v) as (S1 & S2 & S3). destruct (off_sign lat V) as (O1 & O2 & O3). split.
  - intros ->. rewrite Rplus_0_l in *. auto.
  - intros E. specialize (O3 E). rewrite O3, Rplus_0_r in *. auto.
Qed.
Print Assumptions C83_steers.
(** C83.  The same for a passing car, comparing its heading and the lane's as numbers.  Missing: the short way round, see
    [C83_npc_turns_refuted]. *)
Theorem C83_npc_steers_partial : forall lanes mode name x y theta v s a l lat heading,
  npc_action lanes [mode; name] [x; y; theta; v] = Some (s, a) -> 0 < v ->
  lane_of lanes name = Some l -> get_lateral l x y = Some lat -> get_heading l x y = Some heading ->
  (theta = heading -> (lat < 0 -> 0 < s) /\ (0 < lat -> s < 0) /\ (lat = 0 -> s = 0)) /\
  (lat = 0 -> (theta < heading -> 0 < s) /\ (heading < theta -> s < 0)).
Proof.
  intros lanes mode name x y theta v s a l lat heading H V L La He. unfold npc_action in H. rewrite L in H. cbn [obind] in H. rewrite La in H. cbn [obind] in H. rewrite He in H. cbn [obind] in H.
  injection H as <- <-. destruct (steer_sign (heading - theta) (- lat) v) as (S1 & S2 & S3). destruct (off_sign lat V) as (O1 & O2 & O3). split.
  - intros ->. unfold Rminus in *. rewrite Rplus_opp_r, Rplus_0_l in *. auto.
  - intros E. specialize (O3 E). rewrite O3, Rplus_0_r in *. split; intros Q; [apply S1|apply S2]; lra.
Qed.
Print Assumptions C83_npc_steers_partial.

(** C83.  On the straight highways: while it switches, a car is steered exactly like a car that drives normally on the lane it
    switches to, in every state. *)
Theorem C83_switch : forall m side lane x lane', In m straight_maps -> side = w "SwitchLeft" \/ side = w "SwitchRight" ->
  th m lane (w "Normal") side = Some (Some x) -> th m x side (w "Normal") = Some (Some lane') ->
  forall speed accel double state,
    car_action speed accel double (m_lanes m) [side; x] state = car_action speed accel double (m_lanes m) [w "Normal"; lane'] state.
Proof.
  intros m side lane x lane' Hm Hs H K speed accel double.
  assert (WL : forall d v, wish speed accel double (w "SwitchLeft") 3 d v = Some (d + 3, 0)) by reflexivity.
  assert (WR : forall d v, wish speed accel double (w "SwitchRight") 3 d v = Some (d + -3, 0)) by reflexivity.
  apply th_In in H. destruct Hm as [<-|[<-|[<-|[]]]]; destruct Hs as [-> | ->]; each_entry H; vm_compute in K; injection K as <-;
  first [eapply (@shifted _ _ _ _ _ _ _ _ _ _ 3); [|reflexivity|reflexivity|exact WL|]; lra
        |eapply (@shifted _ _ _ _ _ _ _ _ _ _ (-3)); [|reflexivity|reflexivity|exact WR|]; lra].
Qed.
Print Assumptions C83_switch.

(** C83.  The same on the highway with double switches: for all four switching modes. *)
Theorem C83_switch2 : forall dest i j speed accel state, (i < 5)%nat -> wanted dest i = Some j ->
  car_action speed accel true switch2_lanes [dest; change2 i j] state = car_action speed accel true switch2_lanes [w "Normal"; lane2 j] state.
Proof.
  intros dest i j speed accel state Hi H.
  assert (L : forall k, (k < 5)%nat -> lane_of switch2_lanes (lane2 k) = Some (along_x (6 - 3 * INR k) 100)).
  { intros k Hk. do 5 (destruct k as [|k]; [reflexivity|]). lia. }
  assert (M : forall k n, (k < 5)%nat -> (n < 5)%nat -> lane_of switch2_lanes (change2 k n) = Some (along_x (6 - 3 * INR k) 100)).
  { intros k n Hk Hn. do 5 (destruct k as [|k]; [do 5 (destruct n as [|n]; [reflexivity|]); lia|]). lia. }
  unfold wanted in H.
  destruct (word_eqb dest (w "SwitchLeft")) eqn:E1.
  { apply word_eqb_iff in E1. subst. destruct (1 <=? i)%nat eqn:B; [|discriminate]. apply Nat.leb_le in B. injection H as <-.
    apply (@shifted _ _ _ _ _ _ _ (6 - 3 * INR i) (6 - 3 * INR (i - 1)) 100 3); [lra|apply M; lia|apply L; lia|reflexivity|]. rewrite minus_INR by lia. cbn [INR]. ring. }
  destruct (word_eqb dest (w "SwitchLeft2")) eqn:E2.
  { apply word_eqb_iff in E2. subst. destruct (2 <=? i)%nat eqn:B; [|discriminate]. apply Nat.leb_le in B. injection H as <-.
    apply (@shifted _ _ _ _ _ _ _ (6 - 3 * INR i) (6 - 3 * INR (i - 2)) 100 (3 * 2)); [lra|apply M; lia|apply L; lia|reflexivity|]. rewrite minus_INR by lia. cbn [INR]. ring. }
  destruct (word_eqb dest (w "SwitchRight")) eqn:E3.
  { apply word_eqb_iff in E3. subst. destruct (i + 1 <=? 4)%nat eqn:B; [|discriminate]. apply Nat.leb_le in B. injection H as <-.
    apply (@shifted _ _ _ _ _ _ _ (6 - 3 * INR i) (6 - 3 * INR (i + 1)) 100 (- 3)); [lra|apply M; lia|apply L; lia|reflexivity|]. rewrite plus_INR. cbn [INR]. ring. }
  destruct (word_eqb dest (w "SwitchRight2")) eqn:E4; [|discriminate].
  apply word_eqb_iff in E4. subst. destruct (i + 2 <=? 4)%nat eqn:B; [|discriminate]. apply Nat.leb_le in B. injection H as <-.
  apply (@shifted _ _ _ _ _ _ _ (6 - 3 * INR i) (6 - 3 * INR (i + 2)) 100 (- (3 * 2))); [lra|apply M; lia|apply L; lia|reflexivity|]. rewrite plus_INR. cbn [INR]. ring.
Qed.
Print Assumptions C83_switch2.

(** C83, the highway that bends: the same wherever both lanes find the position on corresponding segments.  Missing: around the
    joints the two lanes may choose different segments, and the commands then differ. *)
Theorem C83_bend_partial : forall lane x lane' l l' px py i s s',
  th simple_map6 lane (w "Normal") (w "SwitchLeft") = Some (Some x) -> th simple_map6 x (w "SwitchLeft") (w "Normal") = Some (Some lane') ->
  dget word_eqb lane (m_lanes simple_map6) = Some l -> dget word_eqb lane' (m_lanes simple_map6) = Some l' ->
  get_lane_segment l px py = Some (i, s) -> get_lane_segment l' px py = Some (i, s') ->
  forall speed accel double theta v,
    car_action speed accel double (m_lanes simple_map6) [w "SwitchLeft"; x] [px; py; theta; v] =
    car_action speed accel double (m_lanes simple_map6) [w "Normal"; lane'] [px; py; theta; v].
Proof.
  intros lane x lane' l l' px py i s s' H K L L' F F' speed accel double theta v. apply th_In in H.
  assert (G : forall y r xx y' r' xx', 0 < r' -> y' = y + 3 -> r = r' + 3 -> xx = xx' + 3 ->
    get_lane_segment (bend y r xx) px py = Some (i, s) -> get_lane_segment (bend y' r' xx') px py = Some (i, s') ->
    lane_of (m_lanes simple_map6) x = Some (bend y r xx) -> lane_of (m_lanes simple_map6) lane' = Some (bend y' r' xx') ->
    car_action speed accel double (m_lanes simple_map6) [w "SwitchLeft"; x] [px; py; theta; v] =
    car_action speed accel double (m_lanes simple_map6) [w "Normal"; lane'] [px; py; theta; v]).
  { intros y r xx y' r' xx' P Y R X F1 F2 O1 O2. destruct (@bend_same _ _ _ _ _ _ _ _ _ _ _ P Y R X F1 F2) as [A B]. unfold car_action. rewrite O1, O2. cbn [obind].
    change (lane_width (bend y r xx)) with (Some 3). change (lane_width (bend y' r' xx')) with (Some 3). cbn [obind]. unfold get_lateral, get_heading.
    rewrite F1, F2. cbn [obind]. rewrite A, B.
    change (wish speed accel double (w "SwitchLeft") 3 (- snd (local s px py)) v) with (Some (- snd (local s px py) + 3, 0)).
    change (wish speed accel double (w "Normal") 3 (- (snd (local s px py) - 3)) v) with (Some (- (snd (local s px py) - 3), 0)). cbn [obind fst snd].
    replace (- snd (local s px py) + 3) with (- (snd (local s px py) - 3)) by ring. reflexivity. }
  each_entry H; vm_compute in K; injection K as <-.
  - change (Some (bend 0 13 (355 / 10)) = Some l) in L. change (Some (bend 3 10 (325 / 10)) = Some l') in L'. injection L as <-. injection L' as <-.
    eapply G; [| | | |exact F|exact F'|reflexivity|reflexivity]; lra.
  - change (Some (bend (-3) 16 (385 / 10)) = Some l) in L. change (Some (bend 0 13 (355 / 10)) = Some l') in L'. injection L as <-. injection L' as <-.
    eapply G; [| | | |exact F|exact F'|reflexivity|reflexivity]; lra.
Qed.
Print Assumptions C83_bend_partial.

(** C83.  A simulation has a row per time step until the time bound is reached and not beyond the next step; the first row is the
    initial state; and every other row is the solver's answer for the row before it and the command the car gives there, with the
    speed set to 0 if it would be negative. *)
Theorem C83_trace : forall act integrate init T dt tr, 0 < dt -> 0 <= T -> tc_simulate act integrate init T dt = Some tr ->
  nth_error tr 0 = Some (0, init) /\
  T <= dt * INR (length tr - 1) < T + dt /\
  forall i t st, nth_error tr (S i) = Some (t, st) ->
    t = dt * INR (S i) /\
    exists t0 st0 u v, nth_error tr i = Some (t0, st0) /\ act st0 = Some u /\
      speed_of (integrate st0 u dt) = Some v /\ speed_of st = Some (Rmax v 0) /\
      length st = length (integrate st0 u dt) /\ forall k, k <> 3%nat -> nth_error st k = nth_error (integrate st0 u dt) k.
Proof.
  intros act integrate init T dt tr Hdt HT H. unfold tc_simulate in H. destruct (ceil (T / dt) <? 0)%Z eqn:C; [discriminate|]. apply Z.ltb_ge in C.
  destruct (rows act integrate dt (Z.to_nat (ceil (T / dt))) 0 init) as [r|] eqn:E; [|discriminate]. cbn [obind] in H. injection H as <-.
  destruct (@rows_spec _ _ _ _ _ _ _ E) as [L S]. split; [reflexivity|]. split.
  - cbn [length]. rewrite Nat.sub_succ, Nat.sub_0_r, L, INR_IZR_INZ, Z2Nat.id by exact C. destruct (up_ceil (T / dt)) as [A B].
    assert (Q : T = dt * (T / dt)) by (field; lra). split.
    + rewrite Q at 1. apply Rmult_le_compat_l; lra.
    + rewrite Q at 2. replace (dt * (T / dt) + dt) with (dt * (T / dt + 1)) by ring. apply Rmult_lt_compat_l; lra.
  - intros i t st H. cbn [nth_error] in H. destruct (S i t st H) as (Et & st0 & u & P & A & N). split; [exact Et|].
    assert (P' : exists t0, nth_error ((0, init) :: r) i = Some (t0, st0)).
    { destruct i as [|i]; [injection P as <-; exists 0; reflexivity|]. cbn [nth_error]. destruct (nth_error r i) as [[t0 st1]|]; [|discriminate].
      injection P as <-. exists t0. reflexivity. }
    destruct P' as (t0 & P'). destruct (integrate st0 u dt) as [|x [|y [|th [|v zs]]]] eqn:I; try discriminate. cbn [no_reverse] in N. injection N as <-.
    exists t0, st0, u, v. split; [exact P'|]. split; [exact A|]. rewrite I. split; [reflexivity|]. split; [|split; [reflexivity|]].
    + cbn. f_equal. destruct (Rlt_dec v 0); [rewrite Rmax_right by lra|rewrite Rmax_left by lra]; reflexivity.
    + intros [|[|[|[|k]]]] K; try reflexivity. congruence.
Qed.
Print Assumptions C83_trace.

(** C83.  With steps of at most 1 and a solver that is exact for the speed, a car that starts between 0 and its speed stays there,
    in every mode and for every number of steps; braking never makes it faster, accelerating never slower, and nothing else
    changes its speed. *)
Theorem C83_speed : forall speed accel double lanes mode name integrate init v0 T dt tr,
  0 < dt <= 1 -> 0 <= T -> 0 <= accel -> exact_speed integrate -> speed_of init = Some v0 -> 0 <= v0 <= speed ->
  tc_simulate (car_action speed accel double lanes [mode; name]) integrate init T dt = Some tr ->
  (forall i t st, nth_error tr i = Some (t, st) -> exists v, speed_of st = Some v /\ 0 <= v <= speed) /\
  (forall i t st t' st' v v', nth_error tr i = Some (t, st) -> nth_error tr (S i) = Some (t', st') -> speed_of st = Some v -> speed_of st' = Some v' ->
    (mode = w "Brake" -> v' <= v) /\ (mode = w "Accel" -> v <= v') /\ (mode <> w "Brake" -> mode <> w "Accel" -> v' = v)).
Proof.
  intros speed accel double lanes mode name integrate init v0 T dt tr Hdt HT Ha Ex S0 V0 H.
  destruct (@C83_trace _ _ _ _ _ _ (proj1 Hdt) HT H) as (F & _ & Step).
  assert (One : forall i t st t' st' v, nth_error tr i = Some (t, st) -> nth_error tr (S i) = Some (t', st') -> speed_of st = Some v -> 0 <= v <= speed ->
    exists v', speed_of st' = Some v' /\ 0 <= v' <= speed /\ (mode = w "Brake" -> v' <= v) /\ (mode = w "Accel" -> v <= v') /\ (mode <> w "Brake" -> mode <> w "Accel" -> v' = v)).
  { intros i t st t' st' v N N' Sv V. destruct (Step i t' st' N') as (_ & t0 & st0 & [s a] & vi & N0 & A & Si & Sv' & _). rewrite N in N0. injection N0 as <- <-.
    rewrite (Ex st (s, a) dt v Sv) in Si. injection Si as <-. cbn [snd] in Sv'. exists (Rmax (v + a * dt) 0). split; [exact Sv'|].
    assert (Q : exists x y th, st = [x; y; th; v]).
    { unfold car_action in A. destruct st as [|x [|y [|th [|v1 [|z zs]]]]]; try discriminate A. cbn in Sv. injection Sv as ->. eauto. }
    destruct Q as (x & y & th & ->). destruct (@C83_limits _ _ _ _ _ _ _ _ _ _ _ _ A) as (_ & B & C & D).
    destruct (word_eqb mode (w "Brake")) eqn:E1.
    - apply word_eqb_iff in E1. destruct (B E1 Ha (proj1 V)) as ((B1 & B2) & B3 & _).
      assert (K1 : - v <= a * dt) by (apply Rle_trans with (- v * dt); [|apply Rmult_le_compat_r; lra]; assert (v * dt <= v * 1) by (apply Rmult_le_compat_l; lra); lra).
      assert (K2 : a * dt <= 0) by (assert (0 <= - a * dt) by (apply Rmult_le_pos; lra); lra).
      rewrite Rmax_left by lra. split; [lra|]. split; [intros; lra|]. split; [intros G; rewrite E1 in G; discriminate G|]. intros G; contradiction.
    - destruct (word_eqb mode (w "Accel")) eqn:E2.
      + apply word_eqb_iff in E2. destruct (C E2) as (_ & C2 & _). destruct (C2 Ha (proj2 V)) as [C3 C4].
        assert (K1 : 0 <= a * dt) by (apply Rmult_le_pos; lra).
        assert (K2 : a * dt <= speed - v) by (apply Rle_trans with (a * 1); [apply Rmult_le_compat_l; lra|lra]).
        rewrite Rmax_left by lra. split; [lra|]. split; [intros G; rewrite E2 in G; discriminate G|]. split; [intros; lra|]. intros _ G; contradiction.
      + assert (M1 : mode <> w "Brake") by (intros G; apply word_eqb_iff in G; congruence). assert (M2 : mode <> w "Accel") by (intros G; apply word_eqb_iff in G; congruence).
        rewrite (D M1 M2). rewrite Rmult_0_l, Rplus_0_r, Rmax_left by lra. split; [exact V|]. split; [intros; lra|]. split; [intros; lra|]. intros; reflexivity. }
  assert (All : forall i t st, nth_error tr i = Some (t, st) -> exists v, speed_of st = Some v /\ 0 <= v <= speed).
  { induction i as [|i IH]; intros t st N.
    - rewrite F in N. injection N as <- <-. exists v0. auto.
    - destruct (nth_error tr i) as [[t0 st0]|] eqn:N0; [|apply nth_error_None in N0; assert (S i < length tr)%nat by (apply nth_error_Some; congruence); lia].
      destruct (IH t0 st0 eq_refl) as (v & Sv & V). destruct (One i t0 st0 t st v N0 N Sv V) as (v' & Sv' & V' & _). exists v'. auto. }
  split; [exact All|]. intros i t st t' st' v v' N N' Sv Sv'. destruct (All i t st N) as (v1 & Sv1 & V1). rewrite Sv in Sv1. injection Sv1 as <-.
  destruct (One i t st t' st' v N N' Sv V1) as (v2 & Sv2 & _ & B & C & D). rewrite Sv' in Sv2. injection Sv2 as <-. auto.
Qed.
Print Assumptions C83_speed.

(** C83.  The other cars.  A passing car keeps its speed and steers within the same limits; the car that waits between decisions
    and the one with double switches act on position, heading and speed alone, whatever the clock says; the car for tests turns
    gently, only in the direction it switches to, and not at all once it has turned far. *)
Theorem C83_others : forall speed accel lanes mode x y theta v clock s a,
  (npc_action lanes mode [x; y; theta; v] = Some (s, a) -> - (61 / 100) <= s <= 61 / 100 /\ a = 0) /\
  debounced_action speed accel lanes mode [x; y; theta; v; clock] = car_action speed accel false lanes mode [x; y; theta; v] /\
  switch2_action speed accel lanes mode [x; y; theta; v; clock] = car_action speed accel true lanes mode [x; y; theta; v] /\
  (weird_action mode [x; y; theta; v] = Some (s, a) -> a = 0 /\ (8 / 10 < Rabs theta -> s = 0) /\
    (s <> 0 -> (s = 2 / 10 /\ nth_error mode 0 = Some (w "SwitchLeft") /\ 0 <= theta) \/ (s = - (2 / 10) /\ nth_error mode 0 = Some (w "SwitchRight") /\ theta <= 0))).
Proof.
  intros speed accel lanes mode x y theta v clock s a. split; [|split; [reflexivity|split; [reflexivity|]]].
  - unfold npc_action. destruct mode as [|m [|n ms]]; try discriminate. destruct (lane_of lanes n) as [l|]; [|discriminate]. cbn [obind].
    destruct (get_lateral l x y); [|discriminate]. cbn [obind]. destruct (get_heading l x y); [|discriminate]. cbn [obind]. intros E. injection E as <- <-.
    split; [apply clip_range; lra|reflexivity].
  - unfold weird_action. destruct mode as [|m ms]; [discriminate|]. destruct (Rlt_dec (8 / 10) (Rabs theta)) as [B|B].
    + intros E. injection E as <- <-. split; [reflexivity|]. split; [reflexivity|]. intros N; congruence.
    + destruct (word_eqb m (w "SwitchLeft")) eqn:L; [destruct (Rle_dec 0 theta)|]; cbn [andb].
      * intros E. injection E as <- <-. split; [reflexivity|]. split; [intros; lra|]. intros _. left. apply word_eqb_iff in L. subst. auto.
      * apply word_eqb_iff in L. subst. cbn. intros E. injection E as <- <-. split; [reflexivity|]. split; [reflexivity|]. intros N; congruence.
      * destruct (word_eqb m (w "SwitchRight")) eqn:Q; [destruct (Rle_dec theta 0)|]; cbn [andb]; intros E; injection E as <- <-; (split; [reflexivity|]).
        -- split; [intros; lra|]. intros _. right. apply word_eqb_iff in Q. subst. auto.
        -- split; [reflexivity|]. intros N; congruence.
        -- split; [reflexivity|]. intros N; congruence.
Qed.
Print Assumptions C83_others.

(** C83.  The dynamics: the car moves at its speed in the direction of its heading plus the steering angle, its speed changes by
    the acceleration, and a fifth entry is a clock. *)
Theorem C83_dynamics : forall x y theta v u extra d, (length extra <= 1)%nat -> dynamics ([x; y; theta; v] ++ extra) u = Some d ->
  length d = length ([x; y; theta; v] ++ extra) /\
  exists dx dy dtheta, firstn 4 d = [dx; dy; dtheta; snd u] /\ skipn 4 d = map (fun _ => 1) extra /\
    dx * dx + dy * dy = v * v /\ dx * sin (theta + fst u) = dy * cos (theta + fst u) /\ (fst u = 0 -> dtheta = 0).
Proof.
  intros x y theta v u extra d L H. destruct extra as [|c [|? ?]]; [| |cbn in L; lia]; cbn in H; injection H as <-; (split; [reflexivity|]);
  do 3 eexists; (split; [reflexivity|]); (split; [reflexivity|]);
  (split; [pose proof (sin2_cos2 (theta + fst u)) as E; unfold Rsqr in E; replace (v * v) with (v * v * 1) by ring; rewrite <- E; ring|]);
  (split; [ring|]); intros ->; rewrite sin_0; field.
Qed.
Print Assumptions C83_dynamics.

Module Example_C83.
  (** Euler steps are exact for the speed. *)
  Definition euler (state : list R) (u : R * R) (t : R) : list R :=
    match dynamics state u with Some d => map (fun p => fst p + snd p * t) (combine state d) | None => map (fun p => p) (firstn 3 state) ++ match nth_error state 3 with Some v => [v + snd u * t] | None => [] end end.
  Example exact : exact_speed euler.
  Proof.
    intros state u t v H. unfold euler. destruct state as [|x [|y [|th [|v1 [|c [|z zs]]]]]]; try discriminate H; cbn in H; injection H as ->; reflexivity.
  Qed.
  Lemma on0 : is_on (Straight 0 0 500 0 3) 0 0 = true.
  Proof. unfold is_on. rewrite along_local, along_length by lra. cbn [fst]. unfold COMPENSATE. destruct (Rle_dec (0 - 3) 0); [|lra]. destruct (Rlt_dec 0 500); [reflexivity|lra]. Qed.
  (** A braking car has a command. *)
  Example brakes : car_action 2 1 false (m_lanes simple_map3) [w "Brake"; w "T0"] [0; 3; 0; 2] = Some (0, -1).
  Proof.
    unfold car_action. change (lane_of (m_lanes simple_map3) (w "T0")) with (Some (along_x 3 500)).
    cbn [obind lane_width along_x seg_width]. fold (along_x 3 500). rewrite along_lateral, along_heading, on0 by lra. cbn [obind].
    change (wish 2 1 false (w "Brake") 3 (- (3 - 3)) 2) with (Some (- (3 - 3), Rmax (- (1)) (- (2)))). cbn [obind fst snd].
    assert (Z : forall x, 0 < x -> arctan2 0 x = 0) by (intros x P; unfold arctan2; destruct (Rlt_dec 0 x); [|lra]; unfold Rdiv; rewrite Rmult_0_l; apply atan_0).
    rewrite Z by lra. replace (0 - 0) with 0 by ring. rewrite wrap_id by (pose proof PI_RGT_0; lra). unfold steer. replace (45 / 100 * - (3 - 3)) with 0 by field. rewrite Z by lra.
    rewrite clip_id by lra. rewrite Rmax_left by lra. do 2 f_equal; ring.
  Qed.
  (** A simulation of one step. *)
  Example one_step : exists st, tc_simulate (car_action 2 1 false (m_lanes simple_map3) [w "Brake"; w "T0"]) euler [0; 3; 0; 2] (1 / 2) 1 = Some [(0, [0; 3; 0; 2]); (1, st)] /\ speed_of st = Some 1.
  Proof.
    assert (C : ceil (1 / 2 / 1) = 1%Z).
    { unfold ceil. assert (U : up (- (1 / 2 / 1)) = 0%Z) by (symmetry; apply tech_up; lra). rewrite U. reflexivity. }
    unfold tc_simulate. rewrite C. change (1 <? 0)%Z with false. cbv iota. change (Z.to_nat 1) with 1%nat. cbn [rows]. rewrite brakes. cbn [obind].
    unfold euler, dynamics. cbn [combine map fst snd no_reverse obind]. eexists. split.
    - do 3 f_equal. f_equal. cbn [INR]. ring.
    - cbn. f_equal. destruct (Rlt_dec (2 + -1 * 1) 0); lra.
  Qed.
End Example_C83.
