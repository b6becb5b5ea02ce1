(** Properties C13 (the geometry), C51, C52 and C53: lanes.

    [position] and [local] are the two coordinate changes of a segment, [get_lane_segment], [get_longitudinal] and
    [get_lateral] the queries of a lane, [coord_interval] the interval used for a lane coordinate when a guard is checked
    on a box.  LaneSpec.v says where segments start and end and which positions they hold. *)
From Coq Require Import Ascii Reals Lra Lia Psatz List QArith.Qreals.
From Verif Require Import Base Dict PyText Guard GuardSpec GuardProofs GuardProps Angle AngleSpec AngleProofs AngleProps Lane LaneSpec LaneProofs.
Import ListNotations.
Open Scope R_scope.

(** ** C51 *)
Theorem C51_straight_inverse : forall sx sy ex ey wd, (sx, sy) <> (ex, ey) ->
  let s := Straight sx sy ex ey wd in
  (forall lon lat, let p := position s lon lat in local s (fst p) (snd p) = (lon, lat)) /\
  (forall px py, let c := local s px py in position s (fst c) (snd c) = (px, py)).
Proof.
  intros sx sy ex ey wd H s. split; intros.
  - apply straight_local_position. exact H.
  - apply straight_position_local. exact H.
Qed.
Theorem C51_straight_ends : forall sx sy ex ey wd, (sx, sy) <> (ex, ey) ->
  let s := Straight sx sy ex ey wd in
  local s sx sy = (0, 0) /\ local s ex ey = (dist (sx, sy) (ex, ey), 0) /\ length_of s = dist (sx, sy) (ex, ey).
Proof.
  intros sx sy ex ey wd H s. assert (L : length_of s = dist (sx, sy) (ex, ey)).
  { unfold s, length_of, dist, norm. cbn [fst snd]. f_equal. ring. }
  destruct (straight_ends sx sy ex ey wd H) as [A B]. split; [exact A|]. split; [|exact L]. rewrite <- L. exact B.
Qed.
(** Coordinates measure distances. *)
Theorem C51_straight_isometry : forall sx sy ex ey wd, (sx, sy) <> (ex, ey) ->
  forall lon lat lon' lat',
  dist (position (Straight sx sy ex ey wd) lon lat) (position (Straight sx sy ex ey wd) lon' lat') = dist (lon, lat) (lon', lat').
Proof. intros. apply straight_isometry. assumption. Qed.
(** Circular lanes: the same on the positions at most half a turn from the start, off the centre. *)
Theorem C51_circular_inverse : forall cx cy r ph0 ph1 cw wd, 0 < r ->
  let s := Circular cx cy r ph0 ph1 cw wd in
  (forall lon lat, - PI * r < lon < PI * r -> Rabs lat < r -> let p := position s lon lat in local s (fst p) (snd p) = (lon, lat)) /\
  (forall px py, let c := local s px py in position s (fst c) (snd c) = (px, py)).
Proof.
  intros cx cy r ph0 ph1 cw wd Hr s. split; intros.
  - apply circular_local_position; [exact Hr| |].
    + apply Rabs_def2 in H0. destruct cw; cbn; lra.
    + assert (- PI < lon / r < PI).
      { split; apply (Rmult_lt_reg_r r); try lra; unfold Rdiv; rewrite Rmult_assoc, Rinv_l; lra. }
      destruct cw; cbn; unfold Rdiv in *; lra.
  - apply circular_position_local. exact Hr.
Qed.

Example straight_hyp : (1, 2) <> (4, 6) /\ length_of (Straight 1 2 4 6 4) = 5.
Proof.
  split; [intros E; injection E; lra|]. cbn. unfold norm. replace ((4 - 1) * (4 - 1) + (6 - 2) * (6 - 2)) with (5 * 5) by ring. apply sqrt_square. lra.
Qed.

(** The heading of a segment is the direction in which the position moves when the longitudinal coordinate grows. *)
Theorem C51_heading : forall s lon, proper s ->
  derivable_pt_lim (fun l => fst (position s l 0)) lon (cos (heading_at s lon)) /\
  derivable_pt_lim (fun l => snd (position s l 0)) lon (sin (heading_at s lon)).
Proof.
  assert (Lin : forall a b x, derivable_pt_lim (fun l => a * l + b) x a).
  { intros a b x. pose proof (derivable_pt_lim_plus _ (fct_cte b) x _ _ (derivable_pt_lim_scal id a x 1 (derivable_pt_lim_id x)) (derivable_pt_lim_const b x)) as H. replace (a * 1 + 0) with a in H by ring. exact H. }
  intros [sx sy ex ey wd|cx cy r ph0 ph1 cw wd] lon P; cbn [proper] in P.
  - assert (L := straight_len _ _ _ _ P). cbn [position heading_at]. unfold dir_lat, dir. cbn [fst snd].
    destruct (atan2_polar (ex - sx) (ey - sy)) as [A B]. set (h := arctan2 (ey - sy) (ex - sx)) in *. set (n := norm (ex - sx) (ey - sy)) in *.
    assert (A' : (ex - sx) / n = cos h) by (rewrite A; field; lra). assert (B' : (ey - sy) / n = sin h) by (rewrite B; field; lra). rewrite A', B'. split.
    + apply derivable_pt_lim_ext with (f := fun l => cos h * l + sx); [intros; ring|apply Lin].
    + apply derivable_pt_lim_ext with (f := fun l => sin h * l + sy); [intros; ring|apply Lin].
  - cbn [position heading_at fst snd]. set (phi := fun l => turn cw * l / r + ph0).
    assert (D : derivable_pt_lim phi lon (turn cw / r)).
    { apply derivable_pt_lim_ext with (f := fun l => (turn cw / r) * l + ph0); [intros; unfold phi; field; lra|apply Lin]. }
    destruct (same_cos _ _ (wrap_same (phi lon + PI / 2 * turn cw))) as [E1 E2].
    change (turn cw * lon / r + ph0) with (phi lon). rewrite E1, E2.
    assert (T : cos (phi lon + PI / 2 * turn cw) = - turn cw * sin (phi lon) /\ sin (phi lon + PI / 2 * turn cw) = turn cw * cos (phi lon)).
    { rewrite cos_plus, sin_plus. destruct cw; cbn [turn]; [replace (PI / 2 * -1) with (- (PI / 2)) by ring; rewrite cos_neg, sin_neg|replace (PI / 2 * 1) with (PI / 2) by ring]; rewrite cos_PI2, sin_PI2; split; ring. }
    destruct T as [-> ->]. split.
    + apply derivable_pt_lim_ext with (f := fun l => r * cos (phi l) + cx); [intros; unfold phi; ring|].
      replace (- turn cw * sin (phi lon)) with (r * (- sin (phi lon) * (turn cw / r)) + 0) by (field; lra).
      exact (derivable_pt_lim_plus _ (fct_cte cx) lon _ _ (derivable_pt_lim_scal _ r lon _ (derivable_pt_lim_comp phi cos lon _ _ D (derivable_pt_lim_cos _))) (derivable_pt_lim_const cx lon)).
    + apply derivable_pt_lim_ext with (f := fun l => r * sin (phi l) + cy); [intros; unfold phi; ring|].
      replace (turn cw * cos (phi lon)) with (r * (cos (phi lon) * (turn cw / r)) + 0) by (field; lra).
      exact (derivable_pt_lim_plus _ (fct_cte cy) lon _ _ (derivable_pt_lim_scal _ r lon _ (derivable_pt_lim_comp phi sin lon _ _ D (derivable_pt_lim_sin _))) (derivable_pt_lim_const cy lon)).
Qed.
Example heading_case : proper (Circular 0 0 2 0 (PI / 2) false 4).
Proof. cbn. lra. Qed.

(** ** C52 *)
(** If exactly one segment holds the position between its start (less 3) and its end, that segment answers. *)
Theorem C52_only_segment_partial : forall lane px py i s,
  nth_error lane i = Some s -> along s (px, py) ->
  (forall k t, nth_error lane k = Some t -> along t (px, py) -> k = i) ->
  get_lane_segment lane px py = Some (i, s) /\
  get_longitudinal lane px py = Some (sum (map length_of (firstn i lane)) + fst (local s px py)) /\
  get_lateral lane px py = Some (snd (local s px py)).
Proof.
  intros lane px py i s Hi Ha Hu. assert (G : get_lane_segment lane px py = Some (i, s)).
  { destruct (get_lane_segment lane px py) as [[j t]|] eqn:E.
    - destruct (get_segment_spec _ _ _ _ _ E) as (A & B & _). assert (j = i) by (eapply Hu; eauto). congruence.
    - exfalso. destruct (get_segment_none lane px py) as [N _]. exact (N E s (nth_error_In _ _ Hi) Ha). }
  split; [exact G|]. unfold get_longitudinal, get_lateral. rewrite G, add_lengths_sum. split; f_equal. ring.
Qed.
(** In general: the first segment of those that hold the position lengthwise whose signed lateral coordinate is least. *)
Theorem C52_segment_chosen : forall lane px py,
  match get_lane_segment lane px py with
  | None => forall s, In s lane -> ~ along s (px, py)
  | Some (i, s) =>
    nth_error lane i = Some s /\ along s (px, py) /\
    forall k t, nth_error lane k = Some t -> along t (px, py) ->
      snd (local s px py) <= snd (local t px py) /\ ((k < i)%nat -> snd (local s px py) < snd (local t px py))
  end.
Proof.
  intros lane px py. destruct (get_lane_segment lane px py) as [[i s]|] eqn:E; [exact (get_segment_spec _ _ _ _ _ E)|].
  apply get_segment_none. exact E.
Qed.

(** Axis-parallel segments, for the examples. *)
Lemma norm_h a : 0 <= a -> norm a 0 = a.
Proof. intros H. unfold norm. replace (a * a + 0 * 0) with (a * a) by ring. apply sqrt_square. exact H. Qed.
Lemma norm_v a : 0 <= a -> norm 0 (- a) = a.
Proof. intros H. unfold norm. replace (0 * 0 + - a * - a) with (a * a) by ring. apply sqrt_square. exact H. Qed.
(** A right turn: ten to the east, then ten to the south. *)
Definition east : segment := Straight 0 0 10 0 4.
Definition south : segment := Straight 10 0 10 (-10) 4.
Lemma east_local px py : local east px py = (px, py).
Proof. unfold east. cbn [local]. unfold dir_lat, dir. cbn [fst snd]. replace (10 - 0) with 10 by ring. replace (0 - 0) with 0 by ring. rewrite norm_h by lra. f_equal; field. Qed.
Lemma south_local px py : local south px py = (- py, px - 10).
Proof.
  unfold south. cbn [local]. unfold dir_lat, dir. cbn [fst snd]. replace (10 - 10) with 0 by ring. replace (-10 - 0) with (Ropp 10) by ring.
  rewrite norm_v by lra. f_equal; field.
Qed.
Lemma east_len : length_of east = 10.
Proof. unfold east. cbn [length_of]. replace (10 - 0) with 10 by ring. replace (0 - 0) with 0 by ring. apply norm_h. lra. Qed.
Lemma south_len : length_of south = 10.
Proof. unfold south. cbn [length_of]. replace (10 - 10) with 0 by ring. replace (-10 - 0) with (Ropp 10) by ring. apply norm_v. lra. Qed.
Ltac on_lane :=
  unfold get_lane_segment, find_segment, is_on, COMPENSATE; rewrite ?east_local, ?south_local, ?east_len, ?south_len; cbn [fst snd];
  repeat (match goal with |- context [Rle_dec ?a ?b] => destruct (Rle_dec a b); try (exfalso; lra) | |- context [Rlt_dec ?a ?b] => destruct (Rlt_dec a b); try (exfalso; lra) end);
  try reflexivity.

(** In the middle of the first segment of the right turn, the only segment the position is on, the lane answers with the
    second segment: longitudinal 10, lateral -5. *)
Theorem C52_refuted : exists lane p i s,
  nth_error lane i = Some s /\ on_road s p /\
  (forall k t, nth_error lane k = Some t -> on_road t p -> k = i) /\
  exists j t, get_lane_segment lane (fst p) (snd p) = Some (j, t) /\ j <> i /\
    get_longitudinal lane (fst p) (snd p) = Some 10 /\ get_lateral lane (fst p) (snd p) = Some (-5).
Proof.
  exists [east; south], (5, 0), 0%nat, east. cbn [fst snd]. split; [reflexivity|]. split; [|split].
  - unfold on_road. cbn [fst snd]. rewrite east_local, east_len. cbn [fst snd]. rewrite Rabs_R0. cbn. lra.
  - intros [|[|k]] t Ht; cbn in Ht; try reflexivity; [|destruct k; discriminate]. injection Ht as <-. unfold on_road. cbn [fst snd].
    rewrite south_local. cbn [fst snd]. intros [_ H]. replace (5 - 10) with (-5) in H by ring. rewrite Rabs_left in H by lra. cbn in H. lra.
  - assert (E : get_lane_segment [east; south] 5 0 = Some (1%nat, south)) by on_lane.
    exists 1%nat, south. split; [exact E|]. split; [discriminate|]. unfold get_longitudinal, get_lateral. rewrite E, south_local. cbn [fst snd add_lengths].
    rewrite east_len. split; f_equal; ring.
Qed.
(** A position before the turn where the hypotheses of C52_only_segment hold. *)
Example only_segment : get_longitudinal [east; south] 5 4 = Some 5.
Proof.
  destruct (C52_only_segment_partial [east; south] 5 4 0 east eq_refl) as (_ & H & _).
  - unfold along. cbn [fst snd]. rewrite east_local, east_len. cbn [fst snd]. lra.
  - intros [|[|k]] t Ht; cbn in Ht; try reflexivity; [|destruct k; discriminate]. injection Ht as <-. unfold along. cbn [fst snd]. rewrite south_local. cbn [fst snd]. lra.
  - rewrite H, east_local. cbn. f_equal. ring.
Qed.

(** ** C53 *)
(** After a lane is made of different segment objects, each starts at the total length of those before it ... *)
Theorem C53_starts : forall h segs i o s,
  NoDup (map fst segs) -> nth_error segs i = Some (o, s) ->
  make_lane h segs o = sum (map length_of (firstn i (map snd segs))).
Proof. intros h segs i o s ND H. unfold make_lane. rewrite (set_starts_at _ _ _ _ _ _ ND H). ring. Qed.
(** ... and stays so while other lanes are made of other segment objects. *)
Theorem C53_starts_stay : forall h segs others o,
  (forall l, In l others -> ~ In o (map fst l)) ->
  fold_left make_lane others (make_lane h segs) o = make_lane h segs o.
Proof.
  intros h segs others o. generalize (make_lane h segs). induction others as [|l r IH]; intros g H; cbn [fold_left]; [reflexivity|].
  rewrite IH by (intros l' Hl; apply H; right; exact Hl). apply set_starts_other. apply H. left. reflexivity.
Qed.
(** The end of a segment that is where the next one starts has the same longitudinal position on both. *)
Theorem C53_joints : forall h segs i o s o' s',
  NoDup (map fst segs) -> nth_error segs i = Some (o, s) -> nth_error segs (S i) = Some (o', s') ->
  proper s -> proper s' ->
  (match s with Circular _ _ _ ph0 ph1 _ _ => - PI <= ph1 - ph0 < PI | _ => True end) ->
  end_of s = start_of s' ->
  let p := end_of s in
  fst (local s (fst p) (snd p)) + make_lane h segs o = fst (local s' (fst p) (snd p)) + make_lane h segs o' /\
  fst (local s' (fst p) (snd p)) = 0.
Proof.
  intros h segs i o s o' s' ND Hi Hi' Hp Hp' Hc He p. rewrite (C53_starts h _ _ _ _ ND Hi), (C53_starts h _ _ _ _ ND Hi').
  assert (F : sum (map length_of (firstn (S i) (map snd segs))) = sum (map length_of (firstn i (map snd segs))) + length_of s).
  { clear -Hi. revert i Hi. induction segs as [|[q t] r IH]; intros [|i] Hi; try discriminate.
    - injection Hi as -> ->. cbn. ring.
    - change (length_of t + sum (map length_of (firstn (S i) (map snd r))) = length_of t + sum (map length_of (firstn i (map snd r))) + length_of s).
      rewrite (IH i Hi). ring. }
  rewrite F.
  assert (Z : fst (local s' (fst p) (snd p)) = 0).
  { unfold p. rewrite He. destruct s' as [sx sy ex ey wd|cx cy r ph0 ph1 cw wd]; cbn [start_of fst snd].
    - destruct (straight_ends _ _ _ _ wd Hp') as [-> _]. reflexivity.
    - assert (Hp2 : 0 < r) by exact Hp'. pose proof (circular_local_position cx cy r ph0 ph1 cw wd 0 0) as Q. cbn [position fst snd] in Q.
      replace (turn cw * 0 / r + ph0) with ph0 in Q by (field; lra). replace (r - 0 * turn cw) with r in Q by ring. rewrite Q; [reflexivity|exact Hp2|lra|].
      replace (turn cw * 0 / r) with 0 by (field; lra). pose proof PI_RGT_0. lra. }
  assert (L : fst (local s (fst p) (snd p)) = length_of s).
  { unfold p. destruct s as [sx sy ex ey wd|cx cy r ph0 ph1 cw wd]; cbn [end_of fst snd].
    - destruct (straight_ends _ _ _ _ wd Hp) as [_ ->]. reflexivity.
    - assert (Hp2 : 0 < r) by exact Hp. pose proof (circular_local_position cx cy r ph0 ph1 cw wd (length_of (Circular cx cy r ph0 ph1 cw wd)) 0) as Q. cbn [position fst snd] in Q.
      assert (T : turn cw * length_of (Circular cx cy r ph0 ph1 cw wd) / r = ph1 - ph0).
      { cbn [length_of]. transitivity (turn cw * turn cw * (ph1 - ph0)); [field; lra|]. rewrite turn_sq. ring. }
      rewrite T in Q. replace (ph1 - ph0 + ph0) with ph1 in Q by ring. replace (r - 0 * turn cw) with r in Q by ring. rewrite Q; [reflexivity|exact Hp2|lra|exact Hc]. }
  rewrite Z, L. split; [ring|reflexivity].
Qed.
(** A segment object used in two lanes keeps only the start in the second one. *)
Theorem C53_shared_refuted : exists h (l1 l2 : list (nat * segment)) o,
  NoDup (map fst l1) /\ NoDup (map fst l2) /\ nth_error (map fst l1) 1 = Some o /\
  make_lane (make_lane h l1) l2 o <> sum (map length_of (firstn 1 (map snd l1))).
Proof.
  exists (fun _ => 0), [(0%nat, east); (1%nat, south)], [(1%nat, south)], 1%nat.
  split; [repeat constructor; cbn; intuition discriminate|]. split; [repeat constructor; cbn; intuition discriminate|]. split; [reflexivity|].
  cbn -[length_of]. rewrite east_len. lra.
Qed.
Example joint : let segs := [(0%nat, east); (1%nat, south)] in make_lane (fun _ => 0) segs 1%nat = 10 /\ end_of east = start_of south.
Proof. split; [|reflexivity]. rewrite (C53_starts (fun _ => 0) [(0%nat, east); (1%nat, south)] 1 1 south); [cbn -[length_of]; rewrite east_len; ring| |reflexivity]. repeat constructor; cbn; intuition discriminate. Qed.

(** ** C13 *)
(** On one segment: the lateral interval holds the lateral coordinate of every position in the box; the longitudinal one
    does if the segment is straight. *)
Theorem C13_lateral_interval : forall s bx by_ p, in_box bx by_ p ->
  let i := lateral_set s (fst bx) (snd bx) (fst by_) (snd by_) in
  fst i <= snd (local s (fst p) (snd p)) <= snd i.
Proof. intros s bx by_ p [Hx Hy]. apply lateral_set_sound; assumption. Qed.
Theorem C13_longitudinal_interval_partial : forall s start bx by_ p, straight s -> in_box bx by_ p ->
  let i := longitudinal_set s start (fst bx) (snd bx) (fst by_) (snd by_) in
  fst i <= fst (local s (fst p) (snd p)) + start <= snd i.
Proof. intros s start bx by_ p Hs [Hx Hy]. apply longitudinal_set_sound; assumption. Qed.
(** On a lane: the interval holds the coordinate of the positions in the box that are on the segment of one of the two
    corners (and, for the longitudinal coordinate, on a straight segment). *)
Theorem C13_lane_interval_partial : forall lane lat bx by_ lo hi px py c i s,
  coord_interval lane lat bx by_ = Some (lo, hi) -> in_box bx by_ (px, py) ->
  coord_of lane lat px py = Some c -> get_lane_segment lane px py = Some (i, s) ->
  get_lane_segment lane (fst bx) (fst by_) = Some (i, s) \/ get_lane_segment lane (snd bx) (snd by_) = Some (i, s) ->
  lat = true \/ straight s ->
  lo <= c <= hi.
Proof. intros. eapply coord_interval_sound; eassumption. Qed.

(** Not in general: a box whose corners are on one segment holds positions of another. *)
Theorem C13_corners_refuted : exists lane bx by_ lo hi p c,
  (forall s, In s lane -> straight s /\ proper s) /\
  coord_interval lane false bx by_ = Some (lo, hi) /\ in_box bx by_ p /\
  coord_of lane false (fst p) (snd p) = Some c /\ ~ (lo <= c <= hi).
Proof.
  exists [east; south], (4, 6), (-8, 8).
  assert (A : get_lane_segment [east; south] 4 (-8) = Some (0%nat, east)) by on_lane.
  assert (B : get_lane_segment [east; south] 6 8 = Some (0%nat, east)).
  { on_lane. }
  assert (C : get_lane_segment [east; south] 5 (-2) = Some (1%nat, south)) by on_lane.
  unfold coord_interval. cbn [fst snd]. rewrite A, B. eexists _, _, (5, -2), 12. split; [|split; [reflexivity|]].
  { intros s [<-|[<-|[]]]; split; cbn; auto; intros E; injection E; lra. }
  split; [unfold in_box; cbn; lra|]. split.
  { unfold coord_of, get_longitudinal. cbn [fst snd]. rewrite C, south_local. cbn [fst snd add_lengths]. rewrite east_len. f_equal. ring. }
  assert (D : dir 0 0 10 0 = (1, 0)).
  { unfold dir. replace (10 - 0) with 10 by ring. replace (0 - 0) with 0 by ring. rewrite norm_h by lra. f_equal; field. }
  unfold longitudinal_set, east. rewrite D. cbn [fst snd add_lengths].
  rewrite !Rmult_0_r. unfold Rmax. repeat (destruct (Rle_dec _ _)); lra.
Qed.
(** Not on circular segments: the angles at the corners do not bound the angles of the box.  The witness is a full circle
    and a box on the far side. *)
Theorem C13_circular_refuted : exists s bx by_ p,
  proper s /\ in_box bx by_ p /\ along s p /\
  let i := longitudinal_set s 0 (fst bx) (snd bx) (fst by_) (snd by_) in
  ~ (fst i <= fst (local s (fst p) (snd p)) <= snd i).
Proof.
  pose proof PI_RGT_0 as P.
  set (s := Circular 0 0 (1/4) 0 PI false 4). exists s, (-11, -9), (-1, 1), (-10, 0).
  split; [cbn; lra|]. split; [unfold in_box; cbn; lra|].
  assert (L : local s (-10) 0 = (- PI * (1/4), 1/4 - norm (-10 - 0) (0 - 0))).
  { unfold s. cbn [local turn]. replace (arctan2 (0 - 0) (-10 - 0) - 0) with PI.
    - rewrite AngleProps.wrap_pi. f_equal; ring.
    - unfold arctan2. destruct (Rlt_dec 0 (-10 - 0)); [lra|]. destruct (Rlt_dec (-10 - 0) 0); [|lra]. destruct (Rlt_dec (0 - 0) 0); [lra|].
      replace ((0 - 0) / (-10 - 0)) with 0 by field. rewrite atan_0. ring. }
  split.
  { unfold along. cbn [fst snd]. rewrite L. cbn [fst snd]. unfold s. cbn [length_of turn]. pose proof PI_4. lra. }
  cbn [fst snd]. rewrite L. cbn [fst snd]. unfold s, longitudinal_set. cbn [turn fst].
  assert (A1 : 0 < atan (1 / 11) < PI / 2). { split; [rewrite <- atan_0; apply atan_increasing; lra|apply atan_bound]. }
  assert (A2 : 0 < atan (1 / 9) < PI / 2). { split; [rewrite <- atan_0; apply atan_increasing; lra|apply atan_bound]. }
  assert (C1 : arctan2 (-1 - 0) (-11 - 0) = atan (1 / 11) - PI).
  { unfold arctan2. destruct (Rlt_dec 0 (-11 - 0)); [lra|]. destruct (Rlt_dec (-11 - 0) 0); [|lra]. destruct (Rlt_dec (-1 - 0) 0); [|lra].
    replace ((-1 - 0) / (-11 - 0)) with (1 / 11) by field. reflexivity. }
  assert (C2 : arctan2 (-1 - 0) (-9 - 0) = atan (1 / 9) - PI).
  { unfold arctan2. destruct (Rlt_dec 0 (-9 - 0)); [lra|]. destruct (Rlt_dec (-9 - 0) 0); [|lra]. destruct (Rlt_dec (-1 - 0) 0); [|lra].
    replace ((-1 - 0) / (-9 - 0)) with (1 / 9) by field. reflexivity. }
  assert (C3 : arctan2 (1 - 0) (-11 - 0) = PI - atan (1 / 11)).
  { unfold arctan2. destruct (Rlt_dec 0 (-11 - 0)); [lra|]. destruct (Rlt_dec (-11 - 0) 0); [|lra]. destruct (Rlt_dec (1 - 0) 0); [lra|].
    replace ((1 - 0) / (-11 - 0)) with (- (1 / 11)) by field. rewrite atan_opp. ring. }
  assert (C4 : arctan2 (1 - 0) (-9 - 0) = PI - atan (1 / 9)).
  { unfold arctan2. destruct (Rlt_dec 0 (-9 - 0)); [lra|]. destruct (Rlt_dec (-9 - 0) 0); [|lra]. destruct (Rlt_dec (1 - 0) 0); [lra|].
    replace ((1 - 0) / (-9 - 0)) with (- (1 / 9)) by field. rewrite atan_opp. ring. }
  rewrite C1, C2, C3, C4.
  set (m := min4 _ _ _ _). set (M := max4 _ _ _ _).
  assert (Hm : - PI < m < PI). { unfold m, min4, Rmin. repeat destruct (Rle_dec _ _); lra. }
  assert (HM : - PI < M < PI). { unfold M, max4, Rmax. repeat destruct (Rle_dec _ _); lra. }
  rewrite (wrap_id (m - 0)) by lra. rewrite (wrap_id (M - 0)) by lra.
  intros [H _]. revert H. unfold Rmin. destruct (Rle_dec _ _); lra.
Qed.

(** *** Guards on a map whose lanes are single straight segments *)
Definition r_cmp (o : cmpop) (a b : R) : bool :=
  match o with
  | OLt => if Rlt_dec a b then true else false
  | OLe => if Rle_dec a b then true else false
  | OGt => if Rlt_dec b a then true else false
  | OGe => if Rle_dec b a then true else false
  | OEq => if Req_EM_T a b then true else false
  | ONe => if Req_EM_T a b then false else true
  end.
Definition r_bin (o : binop) (a b : R) : R := match o with Add => a + b | Sub => a - b | Mul => a * b end.
Lemma r_le a b : r_cmp OLe a b = true <-> a <= b.
Proof. cbn. destruct (Rle_dec a b); split; intros; auto; try discriminate; contradiction. Qed.
Lemma r_agree : numbers_agree Q2R Ropp r_cmp.
Proof.
  assert (L : forall a b, (if Rle_dec (Q2R a) (Q2R b) then true else false) = Qle_bool a b).
  { intros a b. destruct (Rle_dec _ _) as [H|H]; symmetry.
    - apply Qle_bool_iff. apply Rle_Qle. exact H.
    - apply not_true_iff_false. rewrite Qle_bool_iff. intros Q. apply H. apply Qle_Rle. exact Q. }
  assert (E : forall a b, (if Req_EM_T (Q2R a) (Q2R b) then true else false) = Qeq_bool a b).
  { intros a b. destruct (Req_EM_T _ _) as [H|H]; symmetry.
    - apply Qeq_bool_iff. apply eqR_Qeq. exact H.
    - apply not_true_iff_false. rewrite Qeq_bool_iff. intros Q. apply H. apply Qeq_eqR. exact Q. }
  assert (S : forall a b, (if Rlt_dec (Q2R a) (Q2R b) then true else false) = negb (Qle_bool b a)).
  { intros a b. rewrite <- L. destruct (Rlt_dec _ _), (Rle_dec _ _); auto; lra. }
  split; [|split].
  - intros [] a b; cbn; rewrite ?L, ?S, <- ?E; auto. destruct (Req_EM_T _ _); reflexivity.
  - intros q. rewrite Q2R_opp. ring.
  - intros x. apply r_le. lra.
Qed.

Section Map.
  Variable lanes : word -> option (list segment).
  Definition map_coord (lat : bool) (k : word) (x y : R) : option R :=
    match lanes k with Some l => coord_of l lat x y | None => None end.
  Definition map_interval (lat : bool) (k : word) (bx by_ : R * R) : option (R * R) :=
    match lanes k with Some l => coord_interval l lat bx by_ | None => None end.

  Hypothesis single : forall k l, lanes k = Some l -> exists s, l = [s] /\ straight s.

  Lemma map_sound : coord_sound r_cmp map_coord map_interval.
  Proof.
    unfold coord_sound, map_coord, map_interval. intros lat k bx by_ lo hi x y c Hi Hc A1 A2 A3 A4.
    destruct (lanes k) as [l|] eqn:El; [|discriminate]. destruct (single k l El) as (s & -> & Hs).
    rewrite !r_le in *.
    assert (U : forall px py j t, get_lane_segment [s] px py = Some (j, t) -> (j, t) = (0%nat, s)).
    { intros px py j t E. destruct (get_segment_spec _ _ _ _ _ E) as (N & _). destruct j as [|[|j]]; cbn in N; congruence. }
    destruct (get_lane_segment [s] x y) as [[j t]|] eqn:Ep; [|destruct lat; cbn in Hc; unfold get_lateral, get_longitudinal in Hc; rewrite Ep in Hc; discriminate].
    pose proof (U _ _ _ _ Ep) as Eq. injection Eq as -> ->.
    eapply C13_lane_interval_partial; [exact Hi|split; cbn; [split; [exact A1|exact A2]|split; [exact A3|exact A4]]|exact Hc|exact Ep| |right; exact Hs].
    left. unfold coord_interval in Hi. destruct (get_lane_segment [s] (fst bx) (fst by_)) as [[j t]|] eqn:E1; [|discriminate]. rewrite (U _ _ _ _ E1). reflexivity.
  Qed.

  (** A guard with lane coordinates of such a map is never discarded if a state of the box satisfies it, nor said to
      hold on all of the box if a state violates it. *)
  Theorem C13_straight_map_partial : forall call phys dd cd len solve g sat con s b,
    well_named r_cmp dd cd ->
    solver_right Q2R Ropp r_bin r_cmp solve -> (forall ks f bs, solve ks f bs <> Unknown) ->
    (do g' <- unroll len g; guard_check call dd phys map_interval solve cd g') = Some (sat, con) ->
    inside r_cmp cd s ->
    geval Q2R Ropp r_bin r_cmp call map_coord phys (agents dd (map fst cd) len s) g = Some (VB R b) ->
    (b = true -> sat = true) /\ (b = false -> con = false).
  Proof. intros. eapply (@C13_guard_over R Q2R Ropp r_bin r_cmp r_agree); eauto using map_sound. Qed.
End Map.
Example single_hyp : forall k l, (fun _ : word => Some [east]) k = Some l -> exists s, l = [s] /\ straight s.
Proof. intros k l E. injection E as <-. exists east. split; [reflexivity|exact I]. Qed.
(** A corner condition that holds with two segments: a box before the turn. *)
Example corner_hyp : exists lo hi, coord_interval [east; south] false (5, 6) (4, 8) = Some (lo, hi) /\ lo <= 5.5 <= hi.
Proof.
  assert (A : forall x y, 5 <= x <= 6 -> 4 <= y <= 8 -> get_lane_segment [east; south] x y = Some (0%nat, east)).
  { intros x y Hx Hy. unfold get_lane_segment, find_segment, is_on, COMPENSATE. rewrite ?east_local, ?south_local, ?east_len, ?south_len; cbn [fst snd].
    destruct (Rle_dec (0 - 3) x); [|exfalso; lra]. destruct (Rlt_dec x 10); [|exfalso; lra]. destruct (Rle_dec (0 - 3) (- y)); [exfalso; lra|]. reflexivity. }
  assert (E : exists lo hi, coord_interval [east; south] false (5, 6) (4, 8) = Some (lo, hi)).
  { unfold coord_interval. cbn [fst snd]. rewrite !A by lra. eexists _, _. reflexivity. }
  destruct E as (lo & hi & E). exists lo, hi. split; [exact E|].
  eapply (C13_lane_interval_partial _ _ _ _ _ _ 5.5 5 5.5 0 east E).
  - unfold in_box. cbn. lra.
  - unfold coord_of, get_longitudinal. rewrite A by lra. rewrite east_local. reflexivity.
  - apply A; lra.
  - left. apply A; cbn; lra.
  - right. exact I.
Qed.

Print Assumptions C51_straight_inverse.
Print Assumptions C51_straight_ends.
Print Assumptions C51_straight_isometry.
Print Assumptions C51_circular_inverse.
Print Assumptions C51_heading.
Print Assumptions C52_only_segment_partial.
Print Assumptions C52_segment_chosen.
Print Assumptions C52_refuted.
Print Assumptions C53_starts.
Print Assumptions C53_starts_stay.
Print Assumptions C53_joints.
Print Assumptions C53_shared_refuted.
Print Assumptions C13_lateral_interval.
Print Assumptions C13_longitudinal_interval_partial.
Print Assumptions C13_lane_interval_partial.
Print Assumptions C13_corners_refuted.
Print Assumptions C13_circular_refuted.
Print Assumptions C13_straight_map_partial.
