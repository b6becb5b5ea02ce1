(** Crossings: lane changes (C80) and roads (C81). *)
From Coq Require Import Ascii String Reals Lra.
From Verif Require Import Base BaseFacts PyText Dict ScanProofs LaneMap3d Angle AngleSpec AngleProofs Lane LaneSpec LaneProofs Intersection IntersectionSpec IntersectionProofs.
Set Implicit Arguments.
Open Scope nat_scope.

(** ** C80: lane changes on a crossing *)

(** C80.  Asked on lane [i] of a route, in a mode that does not switch: a mode that does not switch stays on the lane, one
    that switches left (right) goes between [i] and the next lane to the left (right) if there is one, and is refused
    otherwise.  "Left" is looked for first. *)
Theorem C80_start : forall lanes a b i mode dest, i < lanes -> ~ switching mode ->
  (~ switching dest -> h lanes (lane_name a b i) mode dest = Some (Some (lane_name a b i))) /\
  (switching dest -> mentions (w "Left") dest -> 0 < i -> h lanes (lane_name a b i) mode dest = Some (Some (change_name a b i (i - 1)))) /\
  (switching dest -> ~ (mentions (w "Left") dest /\ 0 < i) -> mentions (w "Right") dest -> i + 1 < lanes ->
     h lanes (lane_name a b i) mode dest = Some (Some (change_name a b i (i + 1)))) /\
  (switching dest -> ~ (mentions (w "Left") dest /\ 0 < i) -> ~ (mentions (w "Right") dest /\ i + 1 < lanes) ->
     h lanes (lane_name a b i) mode dest = Some None).
Proof.
  intros lanes a b i mode dest Hi N. rewrite h_start by exact N.
  assert (L : occurs (w "Left") dest && (0 <? i) = true <-> mentions (w "Left") dest /\ 0 < i) by (rewrite andb_true_iff, mentions_iff, Nat.ltb_lt; reflexivity).
  assert (R : occurs (w "Right") dest && (i <? lanes - 1) = true <-> mentions (w "Right") dest /\ i + 1 < lanes).
  { rewrite andb_true_iff, mentions_iff, Nat.ltb_lt. split; intros [A B]; (split; [exact A|lia]). }
  split; [|split; [|split]].
  - intros D. destruct (prefix_of (w "Switch") dest) eqn:E; [exfalso; apply D, switching_iff, E|reflexivity].
  - intros D M P. apply switching_iff in D. rewrite D, (proj2 L (conj M P)). reflexivity.
  - intros D NL M P. apply switching_iff in D. rewrite D. destruct (occurs (w "Left") dest && (0 <? i)); [exfalso; apply NL, L; reflexivity|].
    rewrite (proj2 R (conj M P)). reflexivity.
  - intros D NL NR. apply switching_iff in D. rewrite D. destruct (occurs (w "Left") dest && (0 <? i)); [exfalso; apply NL, L; reflexivity|].
    destruct (occurs (w "Right") dest && (i <? lanes - 1)); [exfalso; apply NR, R; reflexivity|reflexivity].
Qed.
Print Assumptions C80_start.

(** C80.  Asked between lanes [i] and [j], in a mode that switches: another switch is refused, any other mode ends on [j]. *)
Theorem C80_finish : forall lanes a b i j mode dest, switching mode ->
  (switching dest -> h lanes (change_name a b i j) mode dest = Some None) /\
  (~ switching dest -> h lanes (change_name a b i j) mode dest = Some (Some (lane_name a b j))).
Proof.
  intros lanes a b i j mode dest S. rewrite h_finish by exact S. split; intros D.
  - apply switching_iff in D. rewrite D. reflexivity.
  - destruct (prefix_of (w "Switch") dest) eqn:E; [exfalso; apply D, switching_iff, E|reflexivity].
Qed.
Print Assumptions C80_finish.

(** C80.  Whatever is asked of a car that starts on a lane of the crossing, in any order: no error, and the physical lane is one
    of the map, on the route the car started on; while the car is not switching its lane is itself one of the map. *)
Theorem C80_histories : forall width size len lanes d a b i mode requests,
  intersection width size len lanes = Some d -> a <> b -> i < lanes -> ~ switching mode ->
  exists mode' lane', drive lanes mode (lane_name a b i) requests = Some (mode', lane') /\
    (exists j, j < lanes /\ get_phys_lane lane' = lane_name a b j) /\
    In (get_phys_lane lane') (map fst d) /\
    (~ switching mode' -> In lane' (map fst d)) /\
    (switching mode' -> exists j k, k < lanes /\ (j = S k \/ k = S j) /\ lane' = change_name a b j k).
Proof.
  intros width size len lanes d a b i mode requests B N Hi M.
  assert (K : forall j, j < lanes -> In (lane_name a b j) (map fst d)).
  { intros j Hj. destruct (Rlt_dec 0 width) as [P1|P1]; [|rewrite not_built in B by (intros (?&?&?&?); auto); discriminate].
    destruct (Rlt_dec 0 len) as [P2|P2]; [|rewrite not_built in B by (intros (?&?&?&?); auto); discriminate].
    destruct (Rle_dec ((1 + INR lanes) * width) size) as [P3|P3]; [|rewrite not_built in B by (intros (?&?&?&?); auto); discriminate].
    destruct (@built width size len lanes P1 ltac:(lia) P2 P3) as (d' & B' & G). rewrite B in B'. injection B' as <-.
    assert (E : dget word_eqb (lane_name a b j) d = Some (route width size len a b j)) by (apply G; exists a, b, j; auto).
    apply (dget_In word_eqb word_eqb_iff) in E. apply in_map_iff. eexists. split; [|exact E]. reflexivity. }
  destruct (@drive_on_road lanes a b requests mode (lane_name a b i)) as ([mode' lane'] & E & O); [left; split; [exact M|exists i; auto]|].
  exists mode', lane'. split; [exact E|]. destruct O as [[S (j & Hj & L)]|[S (j & k & Hj & Hk & A & L)]]; cbn [fst snd] in *; subst lane'.
  - rewrite phys_lane. split; [exists j; auto|]. split; [auto|]. split; [auto|]. intros C. contradiction.
  - rewrite phys_change. split; [exists j; auto|]. split; [auto|]. split; [intros C; contradiction|]. intros _. exists j, k. auto.
Qed.
Print Assumptions C80_histories.

Module Example_C80.
  Example left : drive 3 (w "Normal") (lane_name North West 1) [w "SwitchLeft"; w "SwitchRight"; w "Normal"; w "SwitchLeft"] = Some (w "Normal", lane_name North West 0).
  Proof. reflexivity. Qed.
  Example ten : h 12 (lane_name North West 10) (w "Normal") (w "SwitchRight") = Some (Some (w "NW_10_11")) /\ ~ switching (w "Normal") /\ switching (w "SwitchRight").
  Proof. split; [reflexivity|]. split; [intros (r & E); discriminate|exists (w "Right"); reflexivity]. Qed.
End Example_C80.

(** ** C81: the roads of a crossing *)
Open Scope R_scope.

(** C81.  A crossing can be made exactly when the numbers are positive and the lanes fit; its lanes are then one per ordered pair
    of different arms and number. *)
Theorem C81_made : forall width size len lanes,
  (0 < width /\ (0 < lanes)%nat /\ 0 < len /\ (1 + INR lanes) * width <= size <-> intersection width size len lanes <> None) /\
  forall d, intersection width size len lanes = Some d ->
    forall name, In name (map fst d) <-> exists a b i, a <> b /\ (i < lanes)%nat /\ name = lane_name a b i.
Proof.
  intros width size len lanes. split.
  - split.
    + intros (A & B & C & D). destruct (@built width size len lanes A B C D) as (d & E & _). rewrite E. discriminate.
    + intros H. destruct (Rlt_dec 0 width) as [P1|P1]; [|rewrite not_built in H by (intros (?&?&?&?); auto); congruence].
      destruct (Rlt_dec 0 len) as [P2|P2]; [|rewrite not_built in H by (intros (?&?&?&?); auto); congruence].
      destruct (Rle_dec ((1 + INR lanes) * width) size) as [P3|P3]; [|rewrite not_built in H by (intros (?&?&?&?); auto); congruence].
      destruct (Nat.eq_dec lanes 0) as [->|P4]; [rewrite not_built in H by (intros (?&?&?&?); lia); congruence|]. repeat split; auto. lia.
  - intros d B name. assert (C : 0 < width /\ (0 < lanes)%nat /\ 0 < len /\ (1 + INR lanes) * width <= size).
    { destruct (Rlt_dec 0 width) as [P1|P1]; [|rewrite not_built in B by (intros (?&?&?&?); auto); discriminate].
      destruct (Rlt_dec 0 len) as [P2|P2]; [|rewrite not_built in B by (intros (?&?&?&?); auto); discriminate].
      destruct (Rle_dec ((1 + INR lanes) * width) size) as [P3|P3]; [|rewrite not_built in B by (intros (?&?&?&?); auto); discriminate].
      destruct (Nat.eq_dec lanes 0) as [->|P4]; [rewrite not_built in B by (intros (?&?&?&?); lia); discriminate|]. repeat split; auto. lia. }
    destruct C as (P1 & P2 & P3 & P4). destruct (@built width size len lanes P1 P2 P3 P4) as (d' & B' & G). rewrite B in B'. injection B' as <-. split.
    + intros H. destruct (dget word_eqb name d) as [l|] eqn:E.
      * apply G in E. destruct E as (a & b & i & ? & ? & ? & _). exists a, b, i. auto.
      * exfalso. revert H. apply (dget_None word_eqb word_eqb_iff). exact E.
    + intros (a & b & i & N & Hi & ->). assert (E : dget word_eqb (lane_name a b i) d = Some (route width size len a b i)) by (apply G; exists a, b, i; auto).
      apply (dget_In word_eqb word_eqb_iff) in E. apply in_map_iff. eexists. split; [|exact E]. reflexivity.
Qed.
Print Assumptions C81_made.

Lemma conditions width size len lanes d : intersection width size len lanes = Some d ->
  0 < width /\ (0 < lanes)%nat /\ 0 < len /\ (1 + INR lanes) * width <= size.
Proof. intros B. apply (proj1 (C81_made width size len lanes)). rewrite B. discriminate. Qed.
Lemma lane_route width size len lanes d a b i l : intersection width size len lanes = Some d -> a <> b -> (i < lanes)%nat ->
  dget word_eqb (lane_name a b i) d = Some l -> l = route width size len a b i.
Proof.
  intros B N Hi E. destruct (conditions _ _ _ _ B) as (P1 & P2 & P3 & P4). destruct (@built width size len lanes P1 P2 P3 P4) as (d' & B' & G). rewrite B in B'. injection B' as <-.
  apply G in E. destruct E as (a' & b' & i' & _ & _ & E & ->). destruct (lane_name_inj _ _ _ _ _ _ E) as (<- & <- & <-). reflexivity.
Qed.

(** C81.  Lane [i] from [a] to [b] comes in at arm [a], [width (i + 1/2)] to the right of the middle of the road, towards the
    centre; it has three segments, each of which goes on where the one before ends, in the same direction; and it goes out at arm
    [b], as far to the right, away from the centre. *)
Theorem C81_smooth : forall width size len lanes d a b i l,
  intersection width size len lanes = Some d -> a <> b -> (i < lanes)%nat -> dget word_eqb (lane_name a b i) d = Some l ->
  let off := width * (INR i + 1 / 2) in
  exists s1 s2 s3, l = [s1; s2; s3] /\ proper s1 /\ proper s2 /\ proper s3 /\
    position s1 0 0 = entry a (size + len) off /\ heads s1 0 (- fst (outward a), - snd (outward a)) /\
    joint s1 s2 /\ joint s2 s3 /\
    position s3 (length_of s3) 0 = exit_ b (size + len) off /\ heads s3 (length_of s3) (outward b).
Proof.
  intros width size len lanes d a b i l B N Hi E off. destruct (conditions _ _ _ _ B) as (P1 & P2 & P3 & P4). rewrite (@lane_route _ _ _ _ _ _ _ _ _ B N Hi E).
  destruct (@route_smooth width size len lanes P1 P3 P4 a b i Hi N) as (s1 & s2 & s3 & A). exists s1, s2, s3.
  replace (outward b) with (fst (outward b), snd (outward b)) by (destruct b; reflexivity). exact A.
Qed.
Print Assumptions C81_smooth.

(** C81.  Lane [i] lies [width] to the left of lane [i + 1] all along: the point [width] to the left of any point of the middle
    of a segment of lane [i + 1] is in the middle of the same segment of lane [i]. *)
Theorem C81_neighbours : forall width size len lanes d a b i l l',
  intersection width size len lanes = Some d -> a <> b -> (S i < lanes)%nat ->
  dget word_eqb (lane_name a b i) d = Some l -> dget word_eqb (lane_name a b (S i)) d = Some l' ->
  forall k s s', nth_error l k = Some s -> nth_error l' k = Some s' ->
  forall lon, 0 <= lon <= length_of s' -> exists lon', 0 <= lon' <= length_of s /\ position s' lon width = position s lon' 0.
Proof.
  intros width size len lanes d a b i l l' B N Hi E E' k s s' K K'. destruct (conditions _ _ _ _ B) as (P1 & P2 & P3 & P4).
  assert (Hi' : (i < lanes)%nat) by lia. rewrite (@lane_route _ _ _ _ _ _ _ _ _ B N Hi' E) in K. rewrite (@lane_route _ _ _ _ _ _ _ _ _ B N Hi E') in K'.
  assert (Y : forall p, existsb (word_eqb p) (map fst (table width size len i)) = true -> left_of width (pick width size len i p) (pick width size len (S i) p)).
  { intros p F. apply existsb_exists in F. destruct F as (q & Hq & F). apply word_eqb_iff in F. subst q. exact (@pick_left width size len lanes P1 P3 P4 i p Hi Hq). }
  destruct k as [|[|[|k]]]; cbn [route nth_error] in K, K'; [injection K as <-; injection K' as <-..|destruct k; discriminate]; apply Y; destruct a, b; try congruence; reflexivity.
Qed.
Print Assumptions C81_neighbours.

Lemma last_written a b c : exists st, stored_starts a b c 2 = Some st /\
  dget word_eqb (w "SL1") st = Some (0 + length_of (pick a b c 1 (w "ER")) + length_of (pick a b c 1 (w "SEO"))).
Proof. eexists. split; [vm_compute; reflexivity|vm_compute; reflexivity]. Qed.

(** C81 (refuted).  The longitudinal position at which a segment is said to start is not its position on every lane: the ways out
    are shared by the lanes of three routes, and the route made last writes it. *)
Theorem C81_starts_refuted : exists width size len lanes d st s1 s2 s3 x,
  intersection width size len lanes = Some d /\ stored_starts width size len lanes = Some st /\
  dget word_eqb (lane_name North South 1) d = Some [s1; s2; s3] /\
  dget word_eqb (w "SL1") st = Some x /\ seg width size len lanes (w "SL1") = Some s3 /\
  x <> length_of s1 + length_of s2.
Proof.
  assert (H1 : 0 < 1) by lra. assert (H2 : (1 + INR 2) * 1 <= 3) by (cbn [INR]; lra).
  destruct (@built 1 3 1 2 H1 ltac:(lia) H1 H2) as (d & B & G). destruct (last_written 1 3 1) as (st & E & X).
  exists 1, 3, 1, 2%nat, d, st, (pick 1 3 1 1 (w "NR")), (pick 1 3 1 1 (w "NSR")), (pick 1 3 1 1 (w "SL")). eexists. split; [exact B|]. split; [exact E|].
  split; [apply G; exists North, South, 1%nat; split; [discriminate|]; split; [lia|]; split; reflexivity|]. split; [exact X|].
  split; [exact (@seg_pick 1 3 1 2 1 (w "SL") ltac:(lia) ltac:(cbn; auto 30))|].
  repeat match goal with |- context [length_of ?p] => let q := eval cbn -[INR] in p in change p with q; cbn [length_of] end.
  destruct (norm_axis H1) as (N1 & N2 & N3 & N4). assert (H6 : 0 < 6) by lra. destruct (norm_axis H6) as (M1 & M2 & M3 & M4).
  cbn [INR turn]. match goal with |- 0 + norm ?a ?b + _ <> norm ?c ?e + norm ?f ?g =>
    replace a with (- (1)) by lra; replace b with 0 by lra; replace c with 0 by lra; replace e with (- (1)) by lra; replace f with 0 by lra; replace g with (- (6)) by lra end.
  rewrite N3, N4, M4. pose proof PI2_3_2. lra.
Qed.
Print Assumptions C81_starts_refuted.

Module Example_C81.
  (** The default crossing, [Intersection()]. *)
  Example default : intersection 3 20 300 2 <> None.
  Proof. apply (proj1 (C81_made 3 20 300 2)). cbn [INR]. repeat split; try lra; lia. Qed.
  Example tight : intersection 3 6 300 2 = None.
  Proof. apply not_built. cbn [INR]. intros (_ & _ & _ & H). lra. Qed.
  Example turning : exists d l, intersection 3 20 300 2 = Some d /\ dget word_eqb (w "NW_1") d = Some l.
  Proof.
    assert (H2 : (1 + INR 2) * 3 <= 20) by (cbn [INR]; lra). destruct (@built 3 20 300 2 ltac:(lra) ltac:(lia) ltac:(lra) H2) as (d & B & G).
    exists d. eexists. split; [exact B|]. apply G. exists North, West, 1%nat. split; [discriminate|]. split; [lia|]. split; reflexivity.
  Qed.
End Example_C81.
