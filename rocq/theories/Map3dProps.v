(** C87 and C89: the lanes and moves of the three-dimensional example maps. *)
From Coq Require Import Ascii String Reals Lra Lia Psatz.
From Verif Require Import Base PyText Dict Angle AngleProofs ScanProofs Lane3d Lane3dSpec Lane3dProofs Lane3dStraight Lane3dProps Lane3dCircular Lane3dArcProps Lane3dPathProps Map3d Map3dSpec Map3dProofs.
From Verif Require TableMap TableMapProofs LaneMap3d.
Open Scope R_scope.

(** ** The lanes *)
Lemma position_middle c r n sp ep right l t : dot n n = 1 -> 0 < r -> 0 < spin right (ep - sp) ->
  position (Circular c r n sp ep right (r * spin right (ep - sp))) l 0 t
  = get_outer_center (Circular c r n sp ep right (r * spin right (ep - sp))) l.
Proof.
  intros U Hr H. rewrite circular_position, outer_wheel by assumption. cbv zeta. f_equal. unfold wheel at 1. vecs; ring.
Qed.
Lemma circle1_middle z l t : position (circle1 z) l 0 t = Some (V (10 * cos (l / 10)) (10 * sin (l / 10)) z).
Proof.
  pose proof PI_RGT_0. rewrite <- circle1_at. destruct up_frame as (U & _).
  exact (position_middle (V 0 0 z) 10 (V 0 0 1) 0 (3 / 2 * PI) true l t U ltac:(lra) ltac:(cbn [spin]; lra)).
Qed.
Lemma circle2_middle z l t : position (circle2 z) l 0 t = Some (V (20 + 10 * sin (l / 10)) (-20 + 10 * cos (l / 10)) z).
Proof.
  pose proof PI_RGT_0. rewrite <- circle2_at. destruct down_frame as (U & _).
  exact (position_middle (V 20 (-20) z) 10 (V 0 0 (-1)) (- (PI / 2)) PI true l t U ltac:(lra) ltac:(cbn [spin]; lra)).
Qed.
Lemma straight_middle s e d len l t : position (Straight s e d len) l 0 t = Some (vadd s (vscale l d)).
Proof. cbn [position]. f_equal. unfold get_coor_by_rt. cbv zeta. vecs; ring. Qed.

Ltac pts := cbn [get_tang]; f_equal; apply v3_ext; cbn; lra.
(** The lanes of M6 and SimpleMap6 are figures of eight: the first segment leads to the third one, that one to the fourth, to
    the second and back to the first. *)
Theorem C89_loop : forall lanes name lane, m6_lanes = Some lanes -> dget word_eqb name lanes = Some lane ->
  exists s0 s1 s2 s3, lane = [s0; s1; s2; s3] /\ leads_to s0 s2 /\ leads_to s2 s3 /\ leads_to s3 s1 /\ leads_to s1 s0.
Proof.
  intros lanes name lane M D. unfold m6_lanes in M.
  replace (vadd (V 0 0 0) (vscale (2 * 2) (V 0 0 1))) with (V 0 0 4) in M by (vecs; ring).
  replace (vsub (V 0 0 0) (vscale (2 * 2) (V 0 0 1))) with (V 0 0 (-4)) in M by (vecs; ring).
  rewrite !eight_make in M. cbn [obind] in M. injection M as <-.
  assert (exists z, lane = [circle1 z; north z; east z; circle2 z]) as [z ->].
  { apply (dget_In word_eqb word_eqb_iff) in D. cbn in D. repeat (destruct D as [D | D]; [injection D as _ <-; eexists; reflexivity |]). destruct D. }
  do 4 eexists. split; [reflexivity |].
  assert (T0 : 0 / 10 = 0) by field. destruct three_quarters as [C3 S3].
  assert (L1 : seg_length (circle1 z) / 10 = 3 / 2 * PI) by (cbn; field).
  assert (L2 : seg_length (circle2 z) / 10 = 3 / 2 * PI) by (cbn; field).
  split; [| split; [| split]]; unfold leads_to.
  - exists (V 0 (-10) z), (V 10 0 0), (V 1 0 0), (1 / 10). rewrite circle1_middle, circle1_tang, L1, C3, S3. unfold east. rewrite straight_middle.
    split; [pts |]. split; [pts |]. split; [pts |]. split; [pts |]. split; [lra | apply v3_ext; cbn; lra].
  - exists (V 20 (-10) z), (V 1 0 0), (V 10 0 0), 10. rewrite circle2_middle, circle2_tang, T0, cos_0, sin_0. unfold east. rewrite straight_middle.
    split; [pts |]. split; [pts |]. split; [pts |]. split; [pts |]. split; [lra | apply v3_ext; cbn; lra].
  - exists (V 10 (-20) z), (V 0 10 0), (V 0 1 0), (1 / 10). rewrite circle2_middle, circle2_tang, L2, C3, S3. unfold north. rewrite straight_middle.
    split; [pts |]. split; [pts |]. split; [pts |]. split; [pts |]. split; [lra | apply v3_ext; cbn; lra].
  - exists (V 10 0 z), (V 0 1 0), (V 0 10 0), 10. rewrite circle1_middle, circle1_tang, T0, cos_0, sin_0. unfold north. rewrite straight_middle.
    split; [pts |]. split; [pts |]. split; [pts |]. split; [pts |]. split; [lra | apply v3_ext; cbn; lra].
Qed.

(** ** Levels *)
Definition lift (d : R) (s : segment) : segment :=
  match s with
  | Straight a b n len => Straight (raised d a) (raised d b) n len
  | Circular c r n sp ep rt len => Circular (raised d c) r n sp ep rt len
  end.
Lemma raised_add d p v : raised d (vadd p v) = vadd (raised d p) v. Proof. unfold raised; vecs; ring. Qed.
Lemma raised_sub d p q : vsub (raised d p) (raised d q) = vsub p q. Proof. unfold raised; vecs; ring. Qed.
Lemma coor_raised d r t n c right : get_coor_by_rt r t n (raised d c) right = raised d (get_coor_by_rt r t n c right).
Proof. unfold get_coor_by_rt. cbv zeta. rewrite raised_add. reflexivity. Qed.
Lemma theta_raised d p n c r right : get_theta_by_coor (raised d p) n (raised d c) r right = get_theta_by_coor p n c r right.
Proof. unfold get_theta_by_coor. rewrite raised_sub. reflexivity. Qed.
Lemma lift_above d s : above_by d (lift d s) s.
Proof.
  split; [destruct s; reflexivity |]. destruct s as [a b n len | c r n sp ep right len]; cbn [lift]; split.
  - intros l r t. cbn [position option_map]. rewrite <- raised_add, coor_raised. reflexivity.
  - intros p. cbn [local_coordinates]. rewrite raised_sub, <- raised_add, theta_raised. reflexivity.
  - intros l r' t. cbn [position get_outer_center]. destruct (Req_EM_T len 0); [reflexivity |]. cbn [obind]. rewrite coor_raised, raised_sub.
    destruct (unit _); [| reflexivity]. cbn [obind option_map]. rewrite coor_raised. reflexivity.
  - intros p. cbn [local_coordinates]. unfold get_rtp_by_coor. rewrite !raised_sub. destruct (unit (cross n (vsub p c))); [| reflexivity]. cbn [obind].
    destruct (unit (cross v n)); [| reflexivity]. cbn [obind]. rewrite <- raised_add, raised_sub, !theta_raised. reflexivity.
Qed.
Definition straight5 (z : R) : segment := Straight (V 0 0 z) (V 100 0 z) (V 1 0 0) 100.
Lemma level_make z : level_lane z = Some [straight5 z].
Proof.
  unfold level_lane. pose proof (straight_make (V 0 0 z) (V 1 0 0) 100 ltac:(unfold dot; cbn; ring) ltac:(lra)) as H.
  replace (vadd (V 0 0 z) (vscale 100 (V 1 0 0))) with (V 100 0 z) in H by (vecs; ring). rewrite H. reflexivity.
Qed.
Lemma m5_make : m5_lanes = Some [(w "T1", [straight5 0]); (w "T0", [straight5 8]); (w "T2", [straight5 (-8)])].
Proof.
  unfold m5_lanes. cbv zeta. rewrite !level_make. cbn [obind]. replace (2 * 4) with 8 by ring. replace (-2 * 4) with (-8) by ring. reflexivity.
Qed.
Definition eight_of (z : R) : list segment := [circle1 z; north z; east z; circle2 z].
Lemma m6_make : m6_lanes = Some [(w "T0", eight_of 4); (w "T1", eight_of 0); (w "T2", eight_of (-4))].
Proof.
  unfold m6_lanes. replace (vadd (V 0 0 0) (vscale (2 * 2) (V 0 0 1))) with (V 0 0 4) by (vecs; ring).
  replace (vsub (V 0 0 0) (vscale (2 * 2) (V 0 0 1))) with (V 0 0 (-4)) by (vecs; ring). rewrite !eight_make. reflexivity.
Qed.
Lemma straight5_above d z y : y = z + d -> lane_above_by d [straight5 y] [straight5 z].
Proof. intros ->. constructor; [exact (lift_above d (straight5 z)) | constructor]. Qed.
Lemma eight_above d z y : y = z + d -> lane_above_by d (eight_of y) (eight_of z).
Proof.
  intros ->. apply Forall2_cons; [exact (lift_above d (circle1 z)) |]. apply Forall2_cons; [exact (lift_above d (north z)) |].
  apply Forall2_cons; [exact (lift_above d (east z)) |]. apply Forall2_cons; [exact (lift_above d (circle2 z)) | constructor].
Qed.

Lemma h_In lane src dest x : h lane src dest = Some x -> In ((lane, src, dest), x) h_dict.
Proof. intros H. unfold h in H. apply (dget_In TableMap.hkey_eqb TableMapProofs.hkey_eqb_iff) in H. exact H. Qed.
Ltac entries H := apply h_In in H; unfold h_dict, TableMap.e in H; cbn [In] in H;
  repeat (destruct H as [H | H]; [first [discriminate H | injection H; clear H; intros; subst] |]); [.. | destruct H].
Ltac each_map H := cbn [maps3 In] in H; destruct H as [[= <- <-] | [[= <- <-] | []]].

(** Moving up (down) leads to the lane that runs exactly one level higher (lower) over its whole length; during the move the
    physical lane is the target. *)
Theorem C89_up : forall m d lane x, In (m, d) maps3 -> h lane (w "Normal") (w "MoveUp") = Some x ->
  exists lanes lane' l l', m = Some lanes /\ h x (w "MoveUp") (w "Normal") = Some lane' /\ trans_func x = Some lane'
  /\ dget word_eqb lane lanes = Some l /\ dget word_eqb lane' lanes = Some l' /\ lane_above_by d l' l.
Proof.
  intros m d lane x Hm H. each_map Hm; rewrite ?m5_make, ?m6_make; entries H; do 4 eexists;
    (split; [reflexivity |]); (split; [reflexivity |]); (split; [reflexivity |]); (split; [reflexivity |]); (split; [reflexivity |]);
    first [apply straight5_above; lra | apply eight_above; lra].
Qed.
Theorem C89_down : forall m d lane x, In (m, d) maps3 -> h lane (w "Normal") (w "MoveDown") = Some x ->
  exists lanes lane' l l', m = Some lanes /\ h x (w "MoveDown") (w "Normal") = Some lane' /\ trans_func x = Some lane'
  /\ dget word_eqb lane lanes = Some l /\ dget word_eqb lane' lanes = Some l' /\ lane_above_by d l l'.
Proof.
  intros m d lane x Hm H. each_map Hm; rewrite ?m5_make, ?m6_make; entries H; do 4 eexists;
    (split; [reflexivity |]); (split; [reflexivity |]); (split; [reflexivity |]); (split; [reflexivity |]); (split; [reflexivity |]);
    first [apply straight5_above; lra | apply eight_above; lra].
Qed.

(** Conversely, wherever a lane runs one level above another both moves are offered. *)
Lemma Forall2_hd {A B} (P : A -> B -> Prop) a b l l' : Forall2 P (a :: l) (b :: l') -> P a b.
Proof. intros H. inversion H. assumption. Qed.
Lemma straight5_only d y z : lane_above_by d [straight5 y] [straight5 z] -> y = z + d.
Proof.
  intros H. assert (P := Forall2_hd _ _ _ _ _ H). destruct P as (_ & P & _). specialize (P 0 0 0). unfold straight5 in P. rewrite !straight_middle in P.
  cbn in P. injection P as P. lra.
Qed.
Lemma eight_only d y z : lane_above_by d (eight_of y) (eight_of z) -> y = z + d.
Proof.
  intros H. assert (P := Forall2_hd _ _ _ _ _ H). destruct P as (_ & P & _). specialize (P 0 0 0). rewrite !circle1_middle in P.
  cbn in P. injection P as P. lra.
Qed.
Theorem C89_offered : forall lanes d a b l l', In (Some lanes, d) maps3 ->
  dget word_eqb a lanes = Some l -> dget word_eqb b lanes = Some l' -> lane_above_by d l' l ->
  h_exist a (w "Normal") (w "MoveUp") = true /\ h_exist b (w "Normal") (w "MoveDown") = true.
Proof.
  intros lanes d a b l l' Hm A B L. apply (dget_In word_eqb word_eqb_iff) in A, B. unfold maps3 in Hm. rewrite m5_make, m6_make in Hm.
  cbn [In] in Hm. destruct Hm as [Hm | [Hm | []]]; injection Hm; clear Hm; intros; subst; cbn [In] in A, B;
  repeat (destruct A as [A | A]; [injection A; clear A; intros; subst |]); try (destruct A; fail);
  repeat (destruct B as [B | B]; [injection B; clear B; intros; subst |]); try (destruct B; fail);
  first [split; reflexivity | exfalso; first [apply straight5_only in L | apply eight_only in L]; lra].
Qed.

(** Whatever is requested from an aircraft on a lane: the map answers, the physical lane is a lane of the map, and so is the
    lane itself in mode Normal; in any other mode it can return to Normal. *)
Theorem C89_histories : forall m d lane requests, In (m, d) maps3 ->
  exists lanes, m = Some lanes /\ (In lane (map fst lanes) ->
  exists mode' lane' phys, fly (w "Normal") lane requests = Some (mode', lane')
  /\ trans_func lane' = Some phys /\ In phys (map fst lanes)
  /\ (mode' = w "Normal" -> phys = lane')
  /\ (mode' <> w "Normal" -> h lane' mode' (w "Normal") = Some phys)).
Proof.
  intros m d lane requests Hm.
  assert (exists lanes, m = Some lanes /\ forall x, In x (map fst lanes) <-> In x [w "T0"; w "T1"; w "T2"]) as (lanes & -> & Hl).
  { each_map Hm; rewrite ?m5_make, ?m6_make; eexists; (split; [reflexivity |]); intros x; cbn; tauto. }
  exists lanes. split; [reflexivity |]. rewrite Hl. intros L.
  assert (G : forall rs mode ln phys, trans_func ln = Some phys -> In phys [w "T0"; w "T1"; w "T2"] ->
     (mode = w "Normal" -> phys = ln) -> (mode <> w "Normal" -> h ln mode (w "Normal") = Some phys) ->
     exists mode' lane' phys, fly mode ln rs = Some (mode', lane') /\ trans_func lane' = Some phys /\ In phys [w "T0"; w "T1"; w "T2"]
       /\ (mode' = w "Normal" -> phys = lane') /\ (mode' <> w "Normal" -> h lane' mode' (w "Normal") = Some phys)).
  { induction rs as [| r rs IH]; intros mode ln phys T P N M; [exists mode, ln, phys; auto |]. cbn [fly]. unfold h_exist.
    destruct (h ln mode r) as [x |] eqn:E; [| apply (IH _ _ phys); assumption].
    entries E; (eapply IH; [reflexivity | cbn; tauto | intros C; first [reflexivity | discriminate C] | intros C; first [reflexivity | exfalso; apply C; reflexivity]]). }
  destruct (G requests (w "Normal") lane lane) as (mode' & lane' & phys & E & T & P & N & M).
  - cbn in L. destruct L as [<- | [<- | [<- | []]]]; reflexivity.
  - exact L.
  - reflexivity.
  - intros C. exfalso. apply C. reflexivity.
  - exists mode', lane', phys. rewrite Hl. auto.
Qed.

(** The neighbours M6 and SimpleMap6 name are the lanes the moves lead to. *)
Definition m6_map : LaneMap3d.lmap word :=
  LaneMap3d.run (fun x => x) [] [LaneMap3d.AddLanes [w "T0"; w "T1"; w "T2"];
    LaneMap3d.PairLanes (w "T1") (w "T0") (w "up"); LaneMap3d.PairLanes (w "T1") (w "T2") (w "down")].
Theorem C89_neighbours : forall a b,
  (LaneMap3d.the_lane LaneMap3d.Up m6_map a = Some b <->
     exists x, h a (w "Normal") (w "MoveUp") = Some x /\ h x (w "MoveUp") (w "Normal") = Some b)
  /\ (LaneMap3d.the_lane LaneMap3d.Down m6_map a = Some b <->
     exists x, h a (w "Normal") (w "MoveDown") = Some x /\ h x (w "MoveDown") (w "Normal") = Some b).
Proof.
  assert (K : forall r a b, LaneMap3d.the_lane r m6_map a = Some b -> exists l, In (a, l) (LaneMap3d.dict_of r m6_map) /\ hd_error l = Some b).
  { intros r a b H. unfold LaneMap3d.the_lane in H. destruct (forallb _ _); [| discriminate]. destruct (dmem _ _ _); [| discriminate].
    destruct (dget word_eqb a _) as [l |] eqn:E; [| discriminate]. exists l. split; [| exact H]. apply (dget_In word_eqb word_eqb_iff). exact E. }
  intros a b. split; split.
  - intros H. apply K in H. destruct H as (l & I & D). vm_compute in I.
    repeat (destruct I as [I | I]; [injection I; clear I; intros; subst; first [discriminate D | injection D as <-; eexists; split; reflexivity] |]). destruct I.
  - intros (x & A & B). entries A; vm_compute in B; injection B as <-; reflexivity.
  - intros H. apply K in H. destruct H as (l & I & D). vm_compute in I.
    repeat (destruct I as [I | I]; [injection I; clear I; intros; subst; first [discriminate D | injection D as <-; eexists; split; reflexivity] |]). destruct I.
  - intros (x & A & B). entries A; vm_compute in B; injection B as <-; reflexivity.
Qed.

(** ** The longitudinal position on a lane of M6 *)
Lemma circle_off c n r p L sp ep right : 1 / 1000 <= r -> dot n n = 1 -> proper sp ep right -> circular_lane c r n sp ep right = Some L ->
  (forall hh, p <> vadd c (vscale hh n)) -> dist p c <> r -> local_coordinates L p <> None /\ forall l t, local_coordinates L p <> Some (l, 0, t).
Proof.
  intros Hr U Pr E Off D. assert (Nz : n <> V 0 0 0) by (intros ->; unfold dot in U; cbn in U; lra).
  assert (Dn : direction (V 0 0 0) n = n) by (apply unit_direction; apply unit_self; exact U).
  destruct (C85_closest c r n sp ep right L Hr Nz Pr E p) as (l & d & t & q & q' & Lc & (On & _) & Dd & _); [rewrite Dn; exact Off |].
  rewrite Lc. split; [discriminate |]. intros l' t' [= _ Z _]. subst d. 
  assert (p = q) as ->; [| contradiction].
  rewrite dist_norm in Z. apply vnorm_zero in Z. injection Z as X Y W. apply v3_ext; lra.
Qed.

(** Along the third segment, from (0, -10, 0) to (20, -10, 0), the longitudinal position is the length of the first two
    segments more than the way along it, but at the crossing (10, -10, 0) it falls back by 20. *)
Theorem C87_monotone_refuted : exists lane, eight (V 0 0 0) = Some lane /\ forall x, 0 < x < 20 ->
  get_longitudinal_position lane (V x (-10) 0) = Some (if Req_EM_T x 10 then 15 * PI + 10 else 15 * PI + 20 + x).
Proof.
  pose proof PI_RGT_0 as HP. exists (eight_of 0). split; [apply eight_make |]. intros x Hx. set (p := V x (-10) 0).
  assert (P1 : proper 0 (3 / 2 * PI) true) by (unfold proper; repeat split; try lra; intros (? & ? & ?); try discriminate; lra).
  assert (P2 : proper (3 / 2 * PI) PI true) by (unfold proper; repeat split; try lra; intros (? & ? & ?); try discriminate; lra).
  assert (C2 : circular_lane (V 20 (-20) 0) 10 (V 0 0 (-1)) (3 / 2 * PI) PI true = Some (circle2 0)).
  { unfold circular_lane. rewrite unit_self by apply down_frame. cbn [obind]. destruct (Rle_dec PI (3 / 2 * PI)); [| lra]. cbv zeta.
    rewrite Rmax_right by lra. destruct (Rlt_dec (2 * PI) (PI + 2 * PI)); [| lra].
    unfold circle2. replace (3 / 2 * PI - 2 * PI) with (- (PI / 2)) by field. replace (PI + 2 * PI - 2 * PI) with PI by ring.
    do 2 f_equal. apply Rabs_pos_eq. lra. }
  destruct (circle_off (V 0 0 0) (V 0 0 1) 10 p (circle1 0) 0 (3 / 2 * PI) true) as [T0 Z0];
    [lra | apply up_frame | exact P1 | apply circle1_make | intros k [= E _ _]; lra | |].
  { intros D. pose proof (dist_sq p (V 0 0 0)) as S. rewrite D in S. unfold dot in S; cbn in S. nra. }
  destruct (circle_off (V 20 (-20) 0) (V 0 0 (-1)) 10 p (circle2 0) (3 / 2 * PI) PI true) as [T3 Z3];
    [lra | apply down_frame | exact P2 | exact C2 | intros k [= _ E _]; lra | |].
  { intros D. pose proof (dist_sq p (V 20 (-20) 0)) as S. rewrite D in S. unfold dot in S; cbn in S. nra. }
  assert (N1 : V 10 (-20) 0 <> V 10 0 0) by (intros [= E]; lra). assert (N2 : V 0 (-10) 0 <> V 20 (-10) 0) by (intros [= E]; lra).
  destruct (C84_straight_coordinates _ _ N1) as (L1 & E1 & Len1 & K1). rewrite north_make in E1. injection E1 as <-.
  destruct (C84_straight_coordinates _ _ N2) as (L2 & E2 & Len2 & K2). rewrite east_make in E2. injection E2 as <-.
  cbn in Len1, Len2.
  assert (Tot : forall s, In s (eight_of 0) -> local_coordinates s p <> None).
  { intros s I. cbn in I. destruct I as [<- | [<- | [<- | [<- | []]]]]; [exact T0 | | | exact T3].
    - destruct (K1 p) as (l & r & t & -> & _). discriminate.
    - destruct (K2 p) as (l & r & t & -> & _). discriminate. }
  assert (B0 : ~ beside (eight_of 0) p 0 0).
  { intros (s & l & t & E & C & _). injection E as <-. destruct (Z0 _ _ C). }
  assert (A1 : forall k, along (V 10 (-20) 0) (V 10 0 0) k = V 10 (-20 + k) 0).
  { intros k. assert (D : dist (V 10 0 0) (V 10 (-20) 0) = 20) by (apply dist_eq; [lra | unfold dot; cbn; ring]).
    unfold along, direction. rewrite D. apply v3_ext; cbn; field. }
  assert (A2 : forall k, along (V 0 (-10) 0) (V 20 (-10) 0) k = V k (-10) 0).
  { intros k. assert (D : dist (V 20 (-10) 0) (V 0 (-10) 0) = 20) by (apply dist_eq; [lra | unfold dot; cbn; ring]).
    unfold along, direction. rewrite D. apply v3_ext; cbn; field. }
  destruct (Req_EM_T x 10) as [-> | Nx].
  - destruct (C87_middle (eight_of 0) p 1 _ _ _ 10 Tot N1 (north_make 0) eq_refl ltac:(lra)) as (t & _ & G).
    + unfold p. rewrite A1. f_equal; ring.
    + intros j Hj. assert (j = 0%nat) as -> by lia. exact B0.
    + rewrite G. f_equal. cbn. lra.
  - destruct (C87_middle (eight_of 0) p 2 _ _ _ x Tot N2 (east_make 0) eq_refl ltac:(lra)) as (t & _ & G).
    + unfold p. rewrite A2. reflexivity.
    + intros j Hj. assert (j = 0%nat \/ j = 1%nat) as [-> | ->] by lia; [exact B0 |].
      intros (s & l & t & E & C & _). injection E as <-. destruct (K1 p) as (l' & r' & t' & C' & R & _). rewrite C in C'. injection C' as <- <- _.
      rewrite A1 in R. pose proof (dist_sq p (V 10 (-20 + l) 0)) as S. rewrite <- R in S. unfold dot in S; cbn in S. 
      assert (0 < (x - 10) * (x - 10)) by (pose proof (Rlt_0_sqr (x - 10)) as Q; unfold Rsqr in Q; apply Q; lra). pose proof (Rle_0_sqr (-10 - (-20 + l))) as Q. unfold Rsqr in Q. lra.
    + rewrite G. f_equal. cbn. lra.
Qed.

Module Example_maps.
  (** Up from the middle lane, and the level of the target. *)
  Example moves : h (w "T1") (w "Normal") (w "MoveUp") = Some (w "M10") /\ h (w "M10") (w "MoveUp") (w "Normal") = Some (w "T0").
  Proof. split; reflexivity. Qed.
  Example flight : fly (w "Normal") (w "T1") [w "MoveUp"; w "MoveUp"; w "Normal"; w "MoveDown"] = Some (w "MoveDown", w "M01").
  Proof. reflexivity. Qed.
  Example lane1 : exists lanes, m6_lanes = Some lanes /\ dget word_eqb (w "T1") lanes = Some (eight_of 0).
  Proof. rewrite m6_make. eexists. split; reflexivity. Qed.
  (** Two segments in line: a place on the second one. *)
  Definition lane := [Straight (V 0 0 0) (V 10 0 0) (V 1 0 0) 10; Straight (V 10 0 0) (V 30 0 0) (V 1 0 0) 20].
  Example segments : straight_lane (V 10 0 0) (V 30 0 0) = nth_error lane 1.
  Proof.
    pose proof (straight_make (V 10 0 0) (V 1 0 0) 20 ltac:(unfold dot; cbn; ring) ltac:(lra)) as H.
    replace (vadd (V 10 0 0) (vscale 20 (V 1 0 0))) with (V 30 0 0) in H by (vecs; ring). exact H.
  Qed.
  Example place : V 15 0 0 = along (V 10 0 0) (V 30 0 0) 5.
  Proof.
    assert (D : dist (V 30 0 0) (V 10 0 0) = 20) by (apply dist_eq; [lra | unfold dot; cbn; ring]).
    unfold along, direction. rewrite D. apply v3_ext; cbn; field.
  Qed.
  Example not_first : ~ beside lane (V 15 0 0) 0 0.
  Proof.
    intros (s & l & t & E & C & O). injection E as <-. cbn [local_coordinates] in C.
    destruct (Req_EM_T _ 0); [| destruct (get_theta_by_coor _ _ _ _ _); [| discriminate]]; injection C as C _; unfold dot in C; cbn in C, O; lra.
  Qed.
  Example tall : Forall (level 4) [circle1 4; north 4].
  Proof.
    pose proof PI_RGT_0. constructor; [| constructor; [| constructor]].
    - right. exists (V 0 0 4), 10, 1, 0, (3 / 2 * PI), true. split; [lra |]. split; [lra |]. split; [| split; [apply circle1_make | reflexivity]].
      unfold proper; repeat split; try lra; intros (? & ? & ?); try discriminate; lra.
    - left. exists (V 10 (-20) 4), (V 10 0 4). split; [apply north_make | split; reflexivity].
  Qed.
End Example_maps.

Print Assumptions C89_loop.
Print Assumptions C89_up.
Print Assumptions C89_down.
Print Assumptions C89_offered.
Print Assumptions C89_histories.
Print Assumptions C89_neighbours.
Print Assumptions C87_monotone_refuted.
