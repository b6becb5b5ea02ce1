(** Property C116: the queries of 2D lane segments: on_lane, is_reachable_from, after_end, distance, distance_with_heading. *)
From Coq Require Import Reals Lra Psatz Rgeom.
From Verif Require Import Angle AngleSpec AngleProofs Lane LaneSpec LaneProofs LaneProps LaneQuery LaneQuerySpec.
Open Scope R_scope.

Lemma centre_line_at s q : proper s -> 0 <= length_of s -> (centre_line s q <-> exists lon, 0 <= lon <= length_of s /\ q = position s lon 0).
Proof.
  intros P L0.
  assert (E : forall u, position s (u * length_of s) 0 =
    match s with
    | Straight sx sy ex ey _ => (sx + u * (ex - sx), sy + u * (ey - sy))
    | Circular cx cy r ph0 ph1 _ _ => (cx + r * cos (ph0 + u * (ph1 - ph0)), cy + r * sin (ph0 + u * (ph1 - ph0)))
    end).
  { intros u. destruct s as [sx sy ex ey wd|cx cy r ph0 ph1 cw wd]; cbn [proper] in P.
    - pose proof (straight_len _ _ _ _ P) as L. cbn [position length_of]. unfold dir_lat, dir. cbn [fst snd]. f_equal; field; lra.
    - cbn [position length_of]. replace (turn cw * (u * (r * (ph1 - ph0) * turn cw)) / r + ph0) with (ph0 + u * (ph1 - ph0)).
      + f_equal; f_equal; f_equal; ring.
      + replace (turn cw * (u * (r * (ph1 - ph0) * turn cw)) / r) with (turn cw * turn cw * (u * (ph1 - ph0))) by (field; lra). rewrite turn_sq. ring. }
  assert (C : centre_line s q <-> exists u, 0 <= u <= 1 /\ q = position s (u * length_of s) 0).
  { destruct s; cbn [centre_line]; (split; intros (u & Hu & ->); exists u; (split; [exact Hu|])); (rewrite E; reflexivity) || (symmetry; rewrite E; reflexivity) || (rewrite E; reflexivity). }
  rewrite C. split.
  - intros (u & Hu & ->). exists (u * length_of s). split; [|reflexivity]. split; nra.
  - intros (lon & Hl & ->). destruct (Req_EM_T (length_of s) 0) as [Z|Z].
    + exists 0. split; [lra|]. f_equal. lra.
    + exists (lon / length_of s). split; [|f_equal; field; exact Z]. unfold Rdiv. assert (I : 0 < / length_of s) by (apply Rinv_0_lt_compat; lra).
      split; [nra|]. apply (Rmult_le_reg_r (length_of s)); [lra|]. rewrite Rmult_assoc, Rinv_l by exact Z. lra.
Qed.
Lemma position_local s p : proper s -> position s (fst (local s (fst p) (snd p))) (snd (local s (fst p) (snd p))) = p.
Proof.
  intros P. destruct p as [px py]. destruct s; cbn [proper] in P.
  - apply straight_position_local. exact P.
  - apply circular_position_local. exact P.
Qed.
Lemma local_position s lon lat : proper s -> tellable s lon lat ->
  local s (fst (position s lon lat)) (snd (position s lon lat)) = (lon, lat).
Proof.
  intros P T. destruct s; cbn [proper tellable] in P, T.
  - apply straight_local_position. exact P.
  - exact (proj1 (C51_circular_inverse _ _ _ _ _ _ _ P) lon lat (proj1 T) (proj2 T)).
Qed.
Lemma dist_triangle p m q : dist p q <= dist p m + dist m q.
Proof.
  destruct p as [a b], m as [c d], q as [e f]. exact (triangle a b e f c d).
Qed.
Lemma one_minus_cos x : 2 - 2 * cos x <= x * x.
Proof.
  assert (H : forall y, Rabs (sin y) <= Rabs y).
  { assert (P : forall y, 0 <= y -> Rabs (sin y) <= y).
    { intros y Hy. destruct (Req_dec y 0) as [->|N]; [rewrite sin_0, Rabs_R0; lra|]. destruct (Rle_dec y 1) as [Y|Y].
      - pose proof PI_RGT_0. pose proof PI2_1. rewrite Rabs_right; [left; apply sin_lt_x; lra|]. apply Rle_ge, sin_ge_0; lra.
      - pose proof (SIN_bound y). apply Rabs_le. lra. }
    intros y. destruct (Rle_dec 0 y) as [Y|Y]; [rewrite (Rabs_right y) by lra; auto|]. rewrite <- Rabs_Ropp, <- sin_neg, <- (Rabs_Ropp y), (Rabs_right (- y)) by lra. apply P. lra. }
  replace x with (2 * (x / 2)) at 1 by field. rewrite cos_2a_sin. specialize (H (x / 2)). apply Rsqr_le_abs_1 in H. unfold Rsqr in H. nra.
Qed.
Lemma dist_sqr p q : dist p q * dist p q = (fst p - fst q) * (fst p - fst q) + (snd p - snd q) * (snd p - snd q).
Proof. unfold dist. apply sqrt_sqrt. pose proof (Rle_0_sqr (fst p - fst q)). pose proof (Rle_0_sqr (snd p - snd q)). unfold Rsqr in *. lra. Qed.
Lemma dist_nonneg p q : 0 <= dist p q.
Proof. apply sqrt_pos. Qed.
Lemma sq_le a b : 0 <= b -> a * a <= b * b -> a <= b.
Proof. intros. destruct (Rle_lt_dec a b); [assumption|exfalso; nra]. Qed.
Lemma abs_sq x : Rabs x * Rabs x = x * x.
Proof. rewrite <- Rabs_mult. apply Rabs_right. apply Rle_ge. exact (Rle_0_sqr x). Qed.
(** Moving across and along a segment takes at most the differences of the coordinates. *)
Lemma position_dist s lon lat lon' : proper s -> dist (position s lon lat) (position s lon' 0) <= Rabs lat + Rabs (lon - lon').
Proof.
  intros P. eapply Rle_trans; [apply (dist_triangle _ (position s lon 0))|]. apply Rplus_le_compat.
  - apply sq_le; [apply Rabs_pos|]. rewrite dist_sqr. rewrite abs_sq. destruct s as [sx sy ex ey wd|cx cy r ph0 ph1 cw wd]; cbn [position fst snd].
    + pose proof (dir_unit _ _ _ _ P) as U. unfold dir_lat. cbn [fst snd]. set (a := fst (dir sx sy ex ey)) in *. set (b := snd (dir sx sy ex ey)) in *.
      right. transitivity (lat * lat * (a * a + b * b)); [ring|rewrite U; ring].
    + set (phi := turn cw * lon / r + ph0). pose proof (sin2_cos2 phi) as S. unfold Rsqr in S. right.
      transitivity (turn cw * turn cw * (lat * lat) * (sin phi * sin phi + cos phi * cos phi)); [ring|]. rewrite S, turn_sq. ring.
  - apply sq_le; [apply Rabs_pos|]. rewrite dist_sqr. rewrite abs_sq. destruct s as [sx sy ex ey wd|cx cy r ph0 ph1 cw wd]; cbn [position fst snd].
    + pose proof (dir_unit _ _ _ _ P) as U. unfold dir_lat. cbn [fst snd]. set (a := fst (dir sx sy ex ey)) in *. set (b := snd (dir sx sy ex ey)) in *.
      right. transitivity ((lon - lon') * (lon - lon') * (a * a + b * b)); [ring|rewrite U; ring].
    + cbn [proper] in P. set (a := turn cw * lon / r + ph0). set (b := turn cw * lon' / r + ph0).
      pose proof (one_minus_cos (a - b)) as O. rewrite cos_minus in O.
      pose proof (sin2_cos2 a) as A. pose proof (sin2_cos2 b) as B. unfold Rsqr in A, B.
      assert (D : r * r * ((a - b) * (a - b)) = (lon - lon') * (lon - lon')).
      { unfold a, b. transitivity (turn cw * turn cw * ((lon - lon') * (lon - lon'))); [field; lra|rewrite turn_sq; ring]. }
      apply Rle_trans with (r * r * (2 - 2 * (cos a * cos b + sin a * sin b))).
      * right. transitivity (r * r * ((sin a * sin a + cos a * cos a) + (sin b * sin b + cos b * cos b) - 2 * (cos a * cos b + sin a * sin b))); [ring|rewrite A, B; ring].
      * rewrite <- D. apply Rmult_le_compat_l; [nra|exact O].
Qed.
Lemma tellable_on s lon : proper s -> short s -> 0 <= lon <= length_of s -> tellable s lon 0.
Proof.
  intros P S L. destruct s; cbn [tellable]; [exact I|]. cbn [proper short] in P, S. rewrite Rabs_R0. pose proof PI_RGT_0. split; [|exact P]. split; nra.
Qed.

(** ** C116: some point of the centre line is as near as the distance says. *)
Theorem C116_distance_near : forall s p, proper s -> 0 <= length_of s -> exists q, centre_line s q /\ dist p q <= distance s p.
Proof.
  intros s p P L. set (c := local s (fst p) (snd p)). set (lon' := Rmax 0 (Rmin (fst c) (length_of s))).
  exists (position s lon' 0). split.
  - apply (centre_line_at _ _ P L). exists lon'. split; [|reflexivity]. unfold lon', Rmax, Rmin. repeat destruct Rle_dec; lra.
  - pose proof (position_dist s (fst c) (snd c) lon' P) as D. unfold c in D at 1 2. rewrite (position_local s p P) in D.
    eapply Rle_trans; [exact D|]. unfold distance. fold c. rewrite Rplus_assoc. apply Rplus_le_compat_l. unfold lon', Rmax, Rmin, Rabs. repeat destruct Rle_dec; repeat destruct Rcase_abs; lra.
Qed.
Print Assumptions C116_distance_near.

(** ** C116: to a straight segment, no point of it is much nearer than the distance says. *)
Theorem C116_distance_far : forall s p q, straight s -> proper s -> centre_line s q -> distance s p <= sqrt 2 * dist p q.
Proof.
  intros s p q St P Hq. assert (L : 0 <= length_of s). { destruct s; [|destruct St]. cbn. apply norm_nonneg. }
  apply (centre_line_at _ _ P L) in Hq. destruct Hq as (lon' & Hl & ->). set (c := local s (fst p) (snd p)).
  assert (D : dist p (position s lon' 0) = dist c (lon', 0)).
  { rewrite <- (position_local s p P) at 1. fold c. destruct s as [sx sy ex ey wd|]; [|destruct St]. rewrite (straight_isometry _ _ _ _ _ _ _ _ _ P). destruct c; reflexivity. }
  rewrite D. apply sq_le; [apply Rmult_le_pos; [apply sqrt_pos|apply dist_nonneg]|].
  replace (sqrt 2 * dist c (lon', 0) * (sqrt 2 * dist c (lon', 0))) with ((sqrt 2 * sqrt 2) * (dist c (lon', 0) * dist c (lon', 0))) by ring. rewrite sqrt_sqrt, dist_sqr by lra. cbn [fst snd].
  set (e := Rmax (fst c - length_of s) 0 + Rmax (0 - fst c) 0). assert (E : 0 <= e /\ e <= Rabs (fst c - lon')).
  { unfold e, Rmax, Rabs. repeat destruct Rle_dec; repeat destruct Rcase_abs; lra. }
  assert (F : distance s p = Rabs (snd c) + e) by (unfold distance, e; fold c; ring). rewrite F. destruct E as [E1 E2].
  assert (G : e * e <= (fst c - lon') * (fst c - lon')). { replace ((fst c - lon') * (fst c - lon')) with (Rabs (fst c - lon') * Rabs (fst c - lon')); [apply Rmult_le_compat; lra|apply abs_sq]. }
  assert (H : Rabs (snd c) * Rabs (snd c) = snd c * snd c) by apply abs_sq.
  rewrite Rminus_0_r. pose proof (Rle_0_sqr (Rabs (snd c) - e)) as Sq. unfold Rsqr in Sq. nra.
Qed.
Print Assumptions C116_distance_far.

(** ** C116: it is 0 on the centre line and only there. *)
Theorem C116_distance_zero_partial : forall s p, proper s -> 0 <= length_of s -> short s -> (distance s p = 0 <-> centre_line s p).
Proof.
  intros s p P L S. split; intros H.
  - destruct (C116_distance_near s p P L) as (q & Hq & D). rewrite H in D. pose proof (dist_nonneg p q) as N. assert (Z : dist p q = 0) by lra. pose proof (dist_sqr p q) as Q. rewrite Z in Q.
    assert (E : p = q); [|rewrite E; exact Hq]. destruct p as [a b], q as [a' b']. cbn [fst snd] in Q. destruct (Rplus_sqr_eq_0 (a - a') (b - b')) as [Q1 Q2]; [unfold Rsqr; lra|]. f_equal; lra.
  - apply (centre_line_at _ _ P L) in H. destruct H as (lon & Hl & ->). unfold distance. rewrite (local_position s lon 0 P (tellable_on s lon P S Hl)). cbn [fst snd]. rewrite Rabs_R0. unfold Rmax. repeat destruct Rle_dec; lra.
Qed.
Print Assumptions C116_distance_zero_partial.

Lemma position_turn cx cy r ph0 ph1 cw wd lon lat : 0 < r ->
  position (Circular cx cy r ph0 ph1 cw wd) (lon - 2 * PI * r) lat = position (Circular cx cy r ph0 ph1 cw wd) lon lat.
Proof.
  intros Hr. cbn [position]. assert (E : same_angle (turn cw * (lon - 2 * PI * r) / r + ph0) (turn cw * lon / r + ph0)).
  { destruct cw; cbn [turn]; [exists 1%Z|exists (-1)%Z]; field; lra. }
  destruct (same_cos _ _ E) as [-> ->]. reflexivity.
Qed.
(** ** C116 is false of every arc longer than half a turn: some point of it has a positive distance. *)
Theorem C116_long_arc_refuted : forall cx cy r ph0 ph1 cw wd, 0 < r -> let s := Circular cx cy r ph0 ph1 cw wd in
  PI * r < length_of s -> exists p, centre_line s p /\ 0 < distance s p.
Proof.
  intros cx cy r ph0 ph1 cw wd Hr s L. pose proof PI_RGT_0 as Pp. assert (PR : 0 < PI * r) by nra.
  set (d := Rmin ((length_of s - PI * r) / 2) (PI * r / 2)). assert (D : 0 < d /\ d < length_of s - PI * r /\ d <= PI * r / 2) by (unfold d, Rmin; destruct Rle_dec; lra).
  exists (position s (PI * r + d) 0). split.
  - apply centre_line_at; [exact Hr|lra|]. exists (PI * r + d). split; [lra|reflexivity].
  - assert (E : position s (PI * r + d) 0 = position s (d - PI * r) 0) by (unfold s; rewrite <- (position_turn cx cy r ph0 ph1 cw wd (PI * r + d) 0 Hr); f_equal; ring).
    rewrite E. unfold distance. rewrite (local_position s (d - PI * r) 0); [|exact Hr|cbn; rewrite Rabs_R0; lra]. cbn [fst snd]. rewrite Rabs_R0. unfold Rmax. repeat destruct Rle_dec; lra.
Qed.
Print Assumptions C116_long_arc_refuted.

(** ** C116: with a heading, it is 0 for vehicles that follow the centre line and only for them. *)
Theorem C116_heading_partial : forall s p h weight, proper s -> 0 <= length_of s -> short s -> 0 < weight ->
  distance_with_heading s p None weight = distance s p /\
  distance s p <= distance_with_heading s p (Some h) weight /\
  (distance_with_heading s p (Some h) weight = 0 <-> follows s p h).
Proof.
  intros s p h weight P L S W. split; [reflexivity|].
  assert (D : distance_with_heading s p (Some h) weight = distance s p + weight * Rabs (wrap_to_pi (h - heading_at s (fst (local s (fst p) (snd p)))))) by reflexivity.
  pose proof (Rabs_pos (wrap_to_pi (h - heading_at s (fst (local s (fst p) (snd p)))))) as A0.
  assert (N : 0 <= distance s p). { destruct (C116_distance_near s p P L) as (q & _ & Q). pose proof (dist_nonneg p q). lra. }
  split; [rewrite D; nra|]. split.
  - intros Z. rewrite D in Z. assert (Z1 : distance s p = 0) by nra. assert (Z2 : Rabs (wrap_to_pi (h - heading_at s (fst (local s (fst p) (snd p))))) = 0) by nra.
    apply (C116_distance_zero_partial s p P L S) in Z1. apply (centre_line_at _ _ P L) in Z1. destruct Z1 as (lon & Hl & ->). exists lon. split; [exact Hl|]. split; [reflexivity|].
    rewrite (local_position s lon 0 P (tellable_on s lon P S Hl)) in Z2. cbn [fst] in Z2. destruct (C51_heading s lon P) as [C1 C2].
    assert (E : same_angle h (heading_at s lon)).
    { assert (Z3 : wrap_to_pi (h - heading_at s lon) = 0) by (destruct (Req_dec (wrap_to_pi (h - heading_at s lon)) 0); [assumption|exfalso; apply (Rabs_no_R0 _ H); exact Z2]).
      pose proof (wrap_same (h - heading_at s lon)) as E. rewrite Z3 in E. apply same_sym in E. apply (same_plus _ _ (heading_at s lon)) in E. replace (h - heading_at s lon + heading_at s lon) with h in E by ring. rewrite Rplus_0_l in E. exact E. }
    destruct (same_cos _ _ E) as [-> ->]. auto.
  - intros (lon & Hl & -> & D1 & D2). rewrite D. rewrite (proj2 (C116_distance_zero_partial s _ P L S)) by (apply (centre_line_at _ _ P L); eauto).
    rewrite (local_position s lon 0 P (tellable_on s lon P S Hl)). cbn [fst]. destruct (C51_heading s lon P) as [C1 C2].
    assert (E : same_angle h (heading_at s lon)) by (apply cs_same; eapply uniqueness_limite; eassumption).
    assert (Z : wrap_to_pi (h - heading_at s lon) = 0).
    { symmetry. apply wrap_unique; [pose proof PI_RGT_0; lra|]. apply same_sym. apply (same_plus _ _ (- heading_at s lon)) in E. replace (heading_at s lon + - heading_at s lon) with 0 in E by ring. exact E. }
    rewrite Z, Rabs_R0. ring.
Qed.
Print Assumptions C116_heading_partial.

(** ** C116: on_lane: within the width and the margin, and between 5 before the start and 5 after the end. *)
Theorem C116_on_lane_partial : forall s lon lat margin, proper s -> tellable s lon lat ->
  (on_lane s (position s lon lat) None None margin = true <->
   Rabs lat <= width_of s / 2 + margin /\ -5 <= lon < length_of s + 5).
Proof.
  intros s lon lat margin P T. unfold on_lane. rewrite (local_position s lon lat P T). cbn [fst snd]. assert (E : width_at s lon = width_of s) by (destruct s; reflexivity). rewrite E. unfold VEHICLE_LENGTH.
  repeat destruct Rle_dec; try destruct Rlt_dec; split; intros H; try discriminate; try reflexivity; try lra.
Qed.
Print Assumptions C116_on_lane_partial.
(** Known coordinates are used, both or none. *)
Theorem C116_on_lane_known : forall s p margin longitudinal lateral,
  (forall lon, longitudinal = Some lon -> lon = fst (local s (fst p) (snd p))) ->
  (forall lat, lateral = Some lat -> lat = snd (local s (fst p) (snd p))) ->
  on_lane s p longitudinal lateral margin = on_lane s p None None margin.
Proof.
  intros s p margin [lon|] [lat|] H1 H2; try reflexivity. unfold on_lane. rewrite (H1 _ eq_refl), (H2 _ eq_refl), <- surjective_pairing. reflexivity.
Qed.
Print Assumptions C116_on_lane_known.

(** ** C116: is_reachable_from: never a forbidden lane; else within twice the width, and from the start to 5 after the end. *)
Theorem C116_reachable_partial : forall s forbidden lon lat, proper s -> tellable s lon lat ->
  (is_reachable_from s forbidden (position s lon lat) = true <->
   forbidden = false /\ Rabs lat <= 2 * width_of s /\ 0 <= lon < length_of s + 5).
Proof.
  intros s forbidden lon lat P T. unfold is_reachable_from. rewrite (local_position s lon lat P T). cbn [fst snd]. assert (E : width_at s lon = width_of s) by (destruct s; reflexivity). rewrite E. unfold VEHICLE_LENGTH.
  destruct forbidden; [split; [discriminate|intros [H _]; discriminate]|].
  repeat destruct Rle_dec; try destruct Rlt_dec; split; intros H; try discriminate; try reflexivity; try lra; split; lra || reflexivity.
Qed.
Print Assumptions C116_reachable_partial.
(** So the whole centre line is on the lane, and reachable unless it is forbidden. *)
Theorem C116_centre_line_on_partial : forall s q, proper s -> 0 <= length_of s -> short s -> 0 <= width_of s -> centre_line s q ->
  on_lane s q None None 0 = true /\ is_reachable_from s false q = true.
Proof.
  intros s q P L S W H. apply (centre_line_at _ _ P L) in H. destruct H as (lon & Hl & ->). pose proof (tellable_on s lon P S Hl) as T. split.
  - apply C116_on_lane_partial; [assumption..|]. rewrite Rabs_R0. lra.
  - apply C116_reachable_partial; [assumption..|]. rewrite Rabs_R0. split; [reflexivity|lra].
Qed.
Print Assumptions C116_centre_line_on_partial.

(** ** C116: after_end: less than 2.5 before the end, or after it. *)
Theorem C116_after_end_partial : forall s lon lat, proper s -> tellable s lon lat ->
  (after_end s (position s lon lat) None = true <-> length_of s < lon + 5 / 2) /\
  after_end s (position s lon lat) (Some lon) = after_end s (position s lon lat) None.
Proof.
  intros s lon lat P T. unfold after_end. rewrite (local_position s lon lat P T). cbn [fst]. unfold VEHICLE_LENGTH. split.
  - destruct Rlt_dec; split; intros; try discriminate; try reflexivity; lra.
  - destruct (Req_EM_T lon 0); reflexivity.
Qed.
Print Assumptions C116_after_end_partial.
(** A given coordinate is used instead of the position, but not if it is 0. *)
Theorem C116_after_end_zero_refuted :
  ~ (forall s p lon, proper s -> (after_end s p (Some lon) = true <-> length_of s < lon + 5 / 2)).
Proof.
  intros H. assert (N : (0, 0) <> (10, 0)) by (intros E; injection E; lra). specialize (H (Straight 0 0 10 0 4) (position (Straight 0 0 10 0 4) 9 0) 0 N).
  assert (L : length_of (Straight 0 0 10 0 4) = 10). { cbn. unfold norm. replace ((10 - 0) * (10 - 0) + (0 - 0) * (0 - 0)) with (10 * 10) by ring. apply sqrt_square. lra. }
  rewrite L in H. unfold after_end in H. rewrite (local_position (Straight 0 0 10 0 4) 9 0 N I), L in H. unfold VEHICLE_LENGTH in H. cbn [fst] in H. destruct (Req_EM_T 0 0); [|lra]. destruct (Rlt_dec (10 - 5 / 2) 9); [|lra]. destruct H as [H _]. specialize (H eq_refl). lra.
Qed.
Print Assumptions C116_after_end_zero_refuted.

Module Example_query.
  (** A quarter of a circle of radius 10 to the left: proper, with positive length, short. *)
  Definition bend := Circular 0 0 10 0 (PI / 2) false 4.
  Example bend_ok : proper bend /\ 0 <= length_of bend /\ short bend /\ tellable bend 1 1 /\ width_of bend = 4.
  Proof. pose proof PI_RGT_0. unfold bend. cbn [proper length_of short tellable turn width_of]. rewrite Rabs_R1. pose proof PI2_1. repeat split; lra. Qed.
  Example road_ok : proper (Straight 1 2 4 6 4) /\ straight (Straight 1 2 4 6 4) /\ centre_line (Straight 1 2 4 6 4) (4, 6).
  Proof. split; [intros E; injection E; lra|]. split; [exact I|]. exists 1. split; [lra|]. f_equal; ring. Qed.
  Example long_arc : PI * 10 < length_of (Circular 0 0 10 0 (3 * PI / 2) false 4).
  Proof. pose proof PI_RGT_0. cbn [length_of turn]. nra. Qed.
End Example_query.
