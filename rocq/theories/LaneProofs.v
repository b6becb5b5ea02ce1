(** Proofs about lanes. *)
From Coq Require Import Reals Lra Lia Psatz List.
From Verif Require Import Angle AngleSpec AngleProofs Lane LaneSpec.
Import ListNotations.
Open Scope R_scope.

(** ** Straight segments *)
Lemma straight_len sx sy ex ey : (sx, sy) <> (ex, ey) -> 0 < norm (ex - sx) (ey - sy).
Proof.
  intros H. apply norm_pos. destruct (Req_dec ex sx) as [E|E]; [|left; lra]. destruct (Req_dec ey sy) as [F|F]; [|right; lra].
  exfalso. apply H. congruence.
Qed.
Lemma dir_unit sx sy ex ey : (sx, sy) <> (ex, ey) ->
  fst (dir sx sy ex ey) * fst (dir sx sy ex ey) + snd (dir sx sy ex ey) * snd (dir sx sy ex ey) = 1.
Proof.
  intros H. pose proof (straight_len _ _ _ _ H) as L. pose proof (norm_sq (ex - sx) (ey - sy)) as S. unfold dir. cbn [fst snd].
  set (l := norm (ex - sx) (ey - sy)) in *.
  replace ((ex - sx) / l * ((ex - sx) / l) + (ey - sy) / l * ((ey - sy) / l)) with (((ex - sx) * (ex - sx) + (ey - sy) * (ey - sy)) / (l * l)) by (field; lra).
  rewrite <- S. field. lra.
Qed.

Lemma straight_local_position sx sy ex ey wd lon lat : (sx, sy) <> (ex, ey) ->
  local (Straight sx sy ex ey wd) (fst (position (Straight sx sy ex ey wd) lon lat)) (snd (position (Straight sx sy ex ey wd) lon lat)) = (lon, lat).
Proof.
  intros H. pose proof (dir_unit _ _ _ _ H) as U. cbn [local position fst snd]. unfold dir_lat. cbn [fst snd].
  set (a := fst (dir sx sy ex ey)) in *. set (b := snd (dir sx sy ex ey)) in *. f_equal.
  - transitivity (lon * (a * a + b * b)); [ring|rewrite U; ring].
  - transitivity (lat * (a * a + b * b)); [ring|rewrite U; ring].
Qed.
Lemma straight_position_local sx sy ex ey wd px py : (sx, sy) <> (ex, ey) ->
  position (Straight sx sy ex ey wd) (fst (local (Straight sx sy ex ey wd) px py)) (snd (local (Straight sx sy ex ey wd) px py)) = (px, py).
Proof.
  intros H. pose proof (dir_unit _ _ _ _ H) as U. cbn [local position fst snd]. unfold dir_lat. cbn [fst snd].
  set (a := fst (dir sx sy ex ey)) in *. set (b := snd (dir sx sy ex ey)) in *. f_equal.
  - transitivity (sx + (px - sx) * (a * a + b * b)); [ring|rewrite U; ring].
  - transitivity (sy + (py - sy) * (a * a + b * b)); [ring|rewrite U; ring].
Qed.
Lemma straight_ends sx sy ex ey wd : (sx, sy) <> (ex, ey) ->
  local (Straight sx sy ex ey wd) sx sy = (0, 0) /\
  local (Straight sx sy ex ey wd) ex ey = (length_of (Straight sx sy ex ey wd), 0).
Proof.
  intros H. pose proof (straight_len _ _ _ _ H) as L. pose proof (norm_sq (ex - sx) (ey - sy)) as S.
  cbn [local length_of]. unfold dir_lat, dir. cbn [fst snd]. set (l := norm (ex - sx) (ey - sy)) in *. split; f_equal; try ring.
  - transitivity (((ex - sx) * (ex - sx) + (ey - sy) * (ey - sy)) / l); [field; lra|]. rewrite <- S. field. lra.
  - field. lra.
Qed.
Lemma straight_isometry sx sy ex ey wd lon lat lon' lat' : (sx, sy) <> (ex, ey) ->
  dist (position (Straight sx sy ex ey wd) lon lat) (position (Straight sx sy ex ey wd) lon' lat') = dist (lon, lat) (lon', lat').
Proof.
  intros H. pose proof (dir_unit _ _ _ _ H) as U. unfold dist. f_equal. cbn [position fst snd]. unfold dir_lat. cbn [fst snd].
  set (a := fst (dir sx sy ex ey)) in *. set (b := snd (dir sx sy ex ey)) in *.
  transitivity (((lon - lon') * (lon - lon') + (lat - lat') * (lat - lat')) * (a * a + b * b)); [ring|rewrite U; ring].
Qed.

(** ** Circular segments *)
Lemma turn_sq cw : turn cw * turn cw = 1.
Proof. destruct cw; cbn; ring. Qed.

Lemma circular_local_position cx cy r ph0 ph1 cw wd lon lat :
  0 < r -> lat * turn cw < r -> - PI <= turn cw * lon / r < PI ->
  local (Circular cx cy r ph0 ph1 cw wd) (fst (position (Circular cx cy r ph0 ph1 cw wd) lon lat)) (snd (position (Circular cx cy r ph0 ph1 cw wd) lon lat)) = (lon, lat).
Proof.
  intros Hr Hl Hp. cbn [local position fst snd]. set (phi := turn cw * lon / r + ph0). set (q := r - lat * turn cw).
  assert (Hq : 0 < q) by (unfold q; lra).
  replace (cx + q * cos phi - cx) with (q * cos phi) by ring. replace (cy + q * sin phi - cy) with (q * sin phi) by ring.
  rewrite norm_polar by lra.
  assert (E : wrap_to_pi (arctan2 (q * sin phi) (q * cos phi) - ph0) = turn cw * lon / r).
  { symmetry. apply wrap_unique; [exact Hp|]. apply same_sym. replace (turn cw * lon / r) with (phi + - ph0) by (unfold phi; ring).
    apply same_plus. apply atan2_of_polar. exact Hq. }
  rewrite E. f_equal.
  - transitivity (turn cw * turn cw * lon); [field; lra|]. rewrite turn_sq. ring.
  - unfold q. transitivity (turn cw * turn cw * lat); [ring|]. rewrite turn_sq. ring.
Qed.
Lemma circular_position_local cx cy r ph0 ph1 cw wd px py : 0 < r ->
  position (Circular cx cy r ph0 ph1 cw wd) (fst (local (Circular cx cy r ph0 ph1 cw wd) px py)) (snd (local (Circular cx cy r ph0 ph1 cw wd) px py)) = (px, py).
Proof.
  intros Hr. cbn [local position fst snd]. set (w := wrap_to_pi (arctan2 (py - cy) (px - cx) - ph0)). set (n := norm (px - cx) (py - cy)).
  assert (E : turn cw * (turn cw * (ph0 + w - ph0) * r) / r + ph0 = w + ph0).
  { transitivity (turn cw * turn cw * w + ph0); [field; lra|]. rewrite turn_sq. ring. }
  rewrite E. assert (F : r - turn cw * (r - n) * turn cw = n).
  { transitivity (r - turn cw * turn cw * (r - n)); [ring|]. rewrite turn_sq. ring. }
  rewrite F. assert (S : same_angle (w + ph0) (arctan2 (py - cy) (px - cx))).
  { replace (arctan2 (py - cy) (px - cx)) with (arctan2 (py - cy) (px - cx) - ph0 + ph0) by ring. apply same_plus. apply wrap_same. }
  destruct (same_cos _ _ S) as [-> ->]. destruct (atan2_polar (px - cx) (py - cy)) as [A B]. fold n in A, B. f_equal; lra.
Qed.

(** ** Intervals *)
Lemma mult_between d a b x : a <= x <= b -> Rmin (a * d) (b * d) <= x * d <= Rmax (a * d) (b * d).
Proof.
  intros H. destruct (Rle_dec 0 d) as [D|D].
  - assert (a * d <= x * d <= b * d) by nra. split; [eapply Rle_trans; [apply Rmin_l|]; lra|eapply Rle_trans; [|apply Rmax_r]; lra].
  - assert (b * d <= x * d <= a * d) by nra. split; [eapply Rle_trans; [apply Rmin_r|]; lra|eapply Rle_trans; [|apply Rmax_l]; lra].
Qed.
Lemma turn_between cw a b x : a <= x <= b -> Rmin (turn cw * a) (turn cw * b) <= turn cw * x <= Rmax (turn cw * a) (turn cw * b).
Proof. intros H. rewrite !(Rmult_comm (turn cw)). apply mult_between. exact H. Qed.

Lemma norm_mono a b c d : 0 <= a <= c -> 0 <= b <= d -> norm a b <= norm c d.
Proof. intros H1 H2. unfold norm. apply sqrt_le_1; nra. Qed.
Lemma norm_abs a b : norm a b = norm (Rabs a) (Rabs b).
Proof. unfold norm. f_equal. rewrite <- !Rabs_mult. rewrite !Rabs_pos_eq by nra. reflexivity. Qed.

Lemma low_dist c a b x : a <= x <= b -> 0 <= Rmax (a - c) (Rmax 0 (c - b)) <= Rabs (x - c).
Proof.
  intros H. split.
  - eapply Rle_trans; [|apply Rmax_r]. apply Rmax_l.
  - apply Rmax_lub; [|apply Rmax_lub]; [|apply Rabs_pos|].
    + eapply Rle_trans; [|apply Rle_abs]. lra.
    + rewrite Rabs_minus_sym. eapply Rle_trans; [|apply Rle_abs]. lra.
Qed.
Lemma high_dist c a b x : a <= x <= b -> 0 <= Rabs (x - c) <= Rmax (Rabs (a - c)) (Rabs (b - c)).
Proof.
  intros H. split; [apply Rabs_pos|]. destruct (Rle_dec 0 (x - c)).
  - eapply Rle_trans; [|apply Rmax_r]. rewrite !Rabs_pos_eq; lra.
  - eapply Rle_trans; [|apply Rmax_l]. rewrite !Rabs_left; lra.
Qed.

Lemma lateral_set_sound s x0 x1 y0 y1 px py :
  x0 <= px <= x1 -> y0 <= py <= y1 ->
  fst (lateral_set s x0 x1 y0 y1) <= snd (local s px py) <= snd (lateral_set s x0 x1 y0 y1).
Proof.
  intros Hx Hy. destruct s as [sx sy ex ey wd|cx cy r ph0 ph1 cw wd]; cbn [lateral_set local fst snd].
  - pose proof (mult_between (fst (dir_lat sx sy ex ey)) (x0 - sx) (x1 - sx) (px - sx) ltac:(lra)).
    pose proof (mult_between (snd (dir_lat sx sy ex ey)) (y0 - sy) (y1 - sy) (py - sy) ltac:(lra)). lra.
  - apply turn_between. rewrite (norm_abs (px - cx) (py - cy)).
    pose proof (low_dist cx x0 x1 px Hx). pose proof (low_dist cy y0 y1 py Hy).
    pose proof (high_dist cx x0 x1 px Hx). pose proof (high_dist cy y0 y1 py Hy).
    assert (norm (Rmax (x0 - cx) (Rmax 0 (cx - x1))) (Rmax (y0 - cy) (Rmax 0 (cy - y1))) <= norm (Rabs (px - cx)) (Rabs (py - cy))) by (apply norm_mono; assumption).
    assert (norm (Rabs (px - cx)) (Rabs (py - cy)) <= norm (Rmax (Rabs (x0 - cx)) (Rabs (x1 - cx))) (Rmax (Rabs (y0 - cy)) (Rabs (y1 - cy)))) by (apply norm_mono; assumption).
    lra.
Qed.
Lemma longitudinal_set_sound s start x0 x1 y0 y1 px py : straight s ->
  x0 <= px <= x1 -> y0 <= py <= y1 ->
  fst (longitudinal_set s start x0 x1 y0 y1) <= fst (local s px py) + start <= snd (longitudinal_set s start x0 x1 y0 y1).
Proof.
  intros Hs Hx Hy. destruct s as [sx sy ex ey wd|]; [|destruct Hs]. cbn [longitudinal_set local fst snd].
  pose proof (mult_between (fst (dir sx sy ex ey)) (x0 - sx) (x1 - sx) (px - sx) ltac:(lra)).
  pose proof (mult_between (snd (dir sx sy ex ey)) (y0 - sy) (y1 - sy) (py - sy) ltac:(lra)). lra.
Qed.

(** ** Which segment *)
Lemma is_on_spec s px py : is_on s px py = true <-> along s (px, py).
Proof.
  unfold is_on, along, COMPENSATE. cbn [fst snd]. destruct (Rle_dec _ _); [destruct (Rlt_dec _ _)|]; split; intros; try discriminate; try reflexivity; try lra.
Qed.

Lemma find_spec px py : forall segs i acc j s m,
  find_segment segs i acc px py = Some (j, s, m) ->
  (acc = Some (j, s, m) \/
   (exists k, j = (i + k)%nat /\ nth_error segs k = Some s /\ is_on s px py = true /\ m = snd (local s px py) /\
      (forall k' s', nth_error segs k' = Some s' -> is_on s' px py = true -> (k' < k)%nat -> m < snd (local s' px py)) /\
      (forall j' s' m', acc = Some (j', s', m') -> m < m'))) /\
  (forall k' s', nth_error segs k' = Some s' -> is_on s' px py = true -> m <= snd (local s' px py)).
Proof.
  induction segs as [|t rest IH]; intros i acc j s m H; cbn [find_segment] in H.
  - split; [left; exact H|]. intros [|k'] s' Hk; discriminate.
  - set (acc' := if is_on t px py then match acc with None => Some (i, t, snd (local t px py)) | Some (_, _, m0) => if Rlt_dec (snd (local t px py)) m0 then Some (i, t, snd (local t px py)) else acc end else acc) in H.
    destruct (IH _ _ _ _ _ H) as [A B].
    assert (C : is_on t px py = true -> m <= snd (local t px py)).
    { intros Ht. unfold acc' in A. rewrite Ht in A. destruct A as [A|(k & _ & _ & _ & _ & _ & A)].
      - destruct acc as [[[i0 s0] m0]|].
        + destruct (Rlt_dec _ _); [injection A as _ _ A; lra|]. injection A as _ _ A. lra.
        + injection A as _ _ A. lra.
      - destruct acc as [[[i0 s0] m0]|].
        + destruct (Rlt_dec _ _) as [L|L]; pose proof (A _ _ _ eq_refl); lra.
        + pose proof (A _ _ _ eq_refl); lra. }
    split.
    + destruct A as [A|(k & -> & Hk & Hon & -> & Hlt & Hacc)].
      * unfold acc' in A. destruct (is_on t px py) eqn:Ht; [|left; exact A].
        destruct acc as [[[i0 s0] m0]|].
        -- destruct (Rlt_dec _ _) as [L|L]; [|left; exact A]. injection A as <- <- <-. right. exists 0%nat. rewrite Nat.add_0_r.
           repeat split; auto; [intros; lia|]. intros j' s' m' E. injection E as _ _ <-. exact L.
        -- injection A as <- <- <-. right. exists 0%nat. rewrite Nat.add_0_r. repeat split; auto; [intros; lia|discriminate].
      * right. exists (S k). split; [lia|]. split; [exact Hk|]. split; [exact Hon|]. split; [reflexivity|]. split.
        -- intros [|k'] s' Hk' Hon' L; [|apply (Hlt k'); auto; lia]. cbn in Hk'. injection Hk' as <-. unfold acc' in Hacc. rewrite Hon' in Hacc.
           destruct acc as [[[i0 s0] m0]|]; [destruct (Rlt_dec _ _) as [Q|Q]|]; pose proof (Hacc _ _ _ eq_refl); lra.
        -- intros j' s' m' ->. unfold acc' in Hacc. destruct (is_on t px py); [|exact (Hacc _ _ _ eq_refl)].
           destruct (Rlt_dec _ _) as [Q|Q]; pose proof (Hacc _ _ _ eq_refl); lra.
    + intros [|k'] s' Hk Hon; [cbn in Hk; injection Hk as <-; auto|]. exact (B _ _ Hk Hon).
Qed.
Lemma find_none px py : forall segs i acc, find_segment segs i acc px py = None ->
  acc = None /\ forall s, In s segs -> is_on s px py = false.
Proof.
  induction segs as [|t rest IH]; intros i acc H; cbn [find_segment] in H; [split; [exact H|intros s []]|].
  destruct (IH _ _ H) as [A B]. destruct (is_on t px py) eqn:Ht.
  - destruct acc as [[[i0 s0] m0]|]; [destruct (Rlt_dec _ _)|]; discriminate.
  - split; [exact A|]. intros s [<-|Hs]; auto.
Qed.

Lemma get_segment_spec lane px py i s : get_lane_segment lane px py = Some (i, s) ->
  nth_error lane i = Some s /\ along s (px, py) /\
  forall k t, nth_error lane k = Some t -> along t (px, py) ->
    snd (local s px py) <= snd (local t px py) /\ ((k < i)%nat -> snd (local s px py) < snd (local t px py)).
Proof.
  unfold get_lane_segment. destruct (find_segment lane 0 None px py) as [[[j t] m]|] eqn:E; [|discriminate]. cbn. intros H. injection H as -> ->.
  destruct (find_spec _ _ _ _ _ _ _ _ E) as [[A|(k & Ek & Hk & Hon & Em & Hlt & _)] B]; [discriminate|]. cbn in Ek. subst k m.
  split; [exact Hk|]. split; [apply is_on_spec; exact Hon|]. intros k t Ht Ha. apply is_on_spec in Ha. split; [exact (B _ _ Ht Ha)|]. intros L. exact (Hlt _ _ Ht Ha L).
Qed.
Lemma get_segment_none lane px py : get_lane_segment lane px py = None <-> forall s, In s lane -> ~ along s (px, py).
Proof.
  unfold get_lane_segment. split.
  - destruct (find_segment lane 0 None px py) eqn:E; [discriminate|]. intros _ s Hs Ha. apply is_on_spec in Ha.
    rewrite (proj2 (find_none _ _ _ _ _ E) s Hs) in Ha. discriminate.
  - intros H. destruct (find_segment lane 0 None px py) as [[[j t] m]|] eqn:E; [|reflexivity]. exfalso.
    destruct (find_spec _ _ _ _ _ _ _ _ E) as [[A|(k & Ek & Hk & Hon & _)] _]; [discriminate|].
    apply (H t (nth_error_In _ _ Hk)). apply is_on_spec. exact Hon.
Qed.

(** ** Lengths *)
Lemma add_lengths_sum : forall lane n acc, add_lengths lane n acc = acc + sum (map length_of (firstn n lane)).
Proof. induction lane as [|s r IH]; intros [|n] acc; cbn; try ring. rewrite IH. ring. Qed.

Lemma set_starts_other : forall segs h start o, ~ In o (map fst segs) -> set_starts h segs start o = h o.
Proof.
  induction segs as [|[p s] r IH]; intros h start o H; cbn [set_starts]; [reflexivity|]. cbn in H.
  rewrite IH by tauto. unfold write. destruct (Nat.eqb_spec o p); [subst; tauto|reflexivity].
Qed.
Lemma set_starts_at : forall segs h start i o s, NoDup (map fst segs) -> nth_error segs i = Some (o, s) ->
  set_starts h segs start o = start + sum (map length_of (firstn i (map snd segs))).
Proof.
  induction segs as [|[p t] r IH]; intros h start [|i] o s ND H; cbn in H; try discriminate; cbn [map fst] in ND; apply NoDup_cons_iff in ND; destruct ND as [N1 N2]; cbn [set_starts].
  - injection H as -> ->. rewrite set_starts_other by exact N1. unfold write. rewrite Nat.eqb_refl. cbn. ring.
  - rewrite (IH _ _ _ _ _ N2 H). cbn. ring.
Qed.

(** ** The interval of a lane coordinate *)
Lemma coord_interval_sound lane lat bx by_ lo hi px py c i s :
  coord_interval lane lat bx by_ = Some (lo, hi) -> in_box bx by_ (px, py) ->
  get_lane_segment lane px py = Some (i, s) -> coord_of lane lat px py = Some c ->
  get_lane_segment lane (fst bx) (fst by_) = Some (i, s) \/ get_lane_segment lane (snd bx) (snd by_) = Some (i, s) ->
  lat = true \/ straight s ->
  lo <= c <= hi.
Proof.
  unfold coord_interval, in_box. cbn [fst snd]. intros H [Bx By] Hs Hc Hcorner Hl.
  destruct (get_lane_segment lane (fst bx) (fst by_)) as [[i1 s1]|]; [|discriminate].
  destruct (get_lane_segment lane (snd bx) (snd by_)) as [[i2 s2]|]; [|discriminate]. injection H as <- <-.
  set (of := fun k u => if lat then lateral_set u (fst bx) (snd bx) (fst by_) (snd by_) else longitudinal_set u (add_lengths lane k 0) (fst bx) (snd bx) (fst by_) (snd by_)).
  change (Rmin (fst (of i1 s1)) (fst (of i2 s2)) <= c <= Rmax (snd (of i1 s1)) (snd (of i2 s2))).
  assert (K : fst (of i s) <= c <= snd (of i s)).
  { unfold coord_of, get_lateral, get_longitudinal in Hc. rewrite Hs in Hc. unfold of. destruct lat; injection Hc as <-.
    - apply lateral_set_sound; assumption.
    - destruct Hl as [Hl|Hl]; [discriminate|]. rewrite !add_lengths_sum.
      replace (0 + sum (map length_of (firstn i lane))) with (sum (map length_of (firstn i lane))) by ring. apply longitudinal_set_sound; assumption. }
  destruct Hcorner as [Hcorner|Hcorner]; injection Hcorner as -> ->; split.
  - eapply Rle_trans; [apply Rmin_l|]. lra.
  - eapply Rle_trans; [|apply Rmax_l]. lra.
  - eapply Rle_trans; [apply Rmin_r|]. lra.
  - eapply Rle_trans; [|apply Rmax_r]. lra.
Qed.
