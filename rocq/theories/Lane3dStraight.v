(** Straight three-dimensional lanes. *)
From Coq Require Import Reals List ZArith Lra Lia Psatz.
From Verif Require Import Base Angle AngleSpec AngleProofs Lane3d Lane3dSpec Lane3dProofs.
Import ListNotations.
Open Scope R_scope.

Lemma dist_sym p q : dist p q = dist q p.
Proof. unfold dist. f_equal. ring. Qed.
Lemma dist_pos p q : 0 <= dist p q. Proof. apply sqrt_pos. Qed.
Lemma sq3_pos a b c : 0 <= a * a + b * b + c * c. Proof. nra. Qed.
Lemma sq3 a b c : a * a + b * b + c * c = 0 -> a = 0 /\ b = 0 /\ c = 0.
Proof. intros H. repeat split; nra. Qed.
Lemma dist_zero p q : dist p q = 0 -> p = q.
Proof.
  intros H. apply sqrt_eq_0 in H; [| apply sq3_pos]. apply sq3 in H. destruct H as (A & B & C).
  apply v3_ext; lra.
Qed.
Lemma dist_sq p q : dist p q * dist p q = dot (vsub p q) (vsub p q).
Proof. rewrite dist_norm. apply vnorm_sq. Qed.
Lemma dist_eq p q x : 0 <= x -> dot (vsub p q) (vsub p q) = x * x -> dist p q = x.
Proof. intros. rewrite dist_norm. apply vnorm_eq; assumption. Qed.

Lemma straight_spec s e : s <> e -> exists d,
  straight_lane s e = Some (Straight s e d (dist e s)) /\ dot d d = 1 /\ vsub e s = vscale (dist e s) d
  /\ 0 < dist e s /\ direction s e = d /\ forall t, along s e t = vadd s (vscale t d).
Proof.
  intros N. destruct (unit_ok (vsub e s)) as [d D].
  { intros H. apply N. injection H as H1 H2 H3. apply v3_ext; lra. }
  destruct (unit_some _ _ D) as (U & S & P). unfold straight_lane. rewrite D. cbn [obind].
  rewrite <- dist_norm in *.
  exists d. split; [reflexivity |]. split; [exact U |]. split; [symmetry; exact S |]. split; [exact P |].
  assert (direction s e = d) as E.
  { assert (vx e - vx s = dist e s * vx d) as X by (apply (f_equal vx) in S; cbn in S; lra).
    assert (vy e - vy s = dist e s * vy d) as Y by (apply (f_equal vy) in S; cbn in S; lra).
    assert (vz e - vz s = dist e s * vz d) as Z by (apply (f_equal vz) in S; cbn in S; lra).
    unfold direction. rewrite X, Y, Z. vecs; field; lra. }
  split; [exact E |]. intros t. unfold along. rewrite E. vecs; ring.
Qed.

(** The part of [p - s] across [d]. *)
Definition across (d v : v3) : v3 := vsub v (vscale (dot v d) d).
Lemma across_dot d v : dot d d = 1 -> dot d (across d v) = 0.
Proof. intros U. unfold across. rewrite dot_sub_r, dot_scale_r, U, (dot_sym v d). ring. Qed.
Lemma across_norm d v : dot d d = 1 -> vnorm (cross d v) = vnorm (across d v).
Proof.
  intros U. apply vnorm_eq; [apply vnorm_pos |]. rewrite vnorm_sq. unfold across.
  rewrite dot_sub_l, !dot_sub_r, !dot_scale_l, !dot_scale_r, U.
  destruct d as [d0 d1 d2], v as [v0 v1 v2]. unfold dot, cross in *; cbn in *.
  transitivity ((d0 * d0 + d1 * d1 + d2 * d2) * (v0 * v0 + v1 * v1 + v2 * v2) - (v0 * d0 + v1 * d1 + v2 * d2) * (v0 * d0 + v1 * d1 + v2 * d2)); [ring | rewrite U; ring].
Qed.

(** A vector across a direction has an angle in its frame. *)
Lemma polar_frame n v : dot n n = 1 -> dot n v = 0 ->
  exists p, v = vscale (vnorm v) (vadd (vscale (cos p) (fa n)) (vscale (sin p) (fb n))).
Proof.
  intros U H. destruct (frame n U) as (A & B & AB & _).
  pose proof (in_frame n v U H) as E. set (x := dot v (fa n)) in *. set (y := dot v (fb n)) in *. clearbody x y.
  destruct (atan2_polar x y) as [X Y]. exists (arctan2 y x).
  assert (vnorm v = norm x y) as N.
  { apply vnorm_eq; [apply norm_nonneg |]. rewrite norm_sq, E.
    rewrite dot_add_l, !dot_add_r, !dot_scale_l, !dot_scale_r, A, B, (dot_sym (fb n)), AB. ring. }
  rewrite N.
  transitivity (vadd (vscale (norm x y * cos (arctan2 y x)) (fa n)) (vscale (norm x y * sin (arctan2 y x)) (fb n)));
    [rewrite <- X, <- Y; exact E | vecs; ring].
Qed.

Lemma frame_dist n r t r' t' : dot n n = 1 ->
  let w r t := vscale r (vadd (vscale (cos t) (fa n)) (vscale (sin t) (fb n))) in
  dot (vsub (w r t) (w r' t')) (vsub (w r t) (w r' t')) = r * r + r' * r' - 2 * r * r' * cos (t - t').
Proof.
  intros U. cbv zeta. destruct (frame n U) as (A & B & AB & _).
  repeat rewrite ?dot_sub_l, ?dot_sub_r, ?dot_scale_l, ?dot_scale_r, ?dot_add_l, ?dot_add_r.
  rewrite A, B, (dot_sym (fb n)), AB, cos_minus.
  pose proof (sin2_cos2 t) as S. pose proof (sin2_cos2 t') as S'. unfold Rsqr in *.
  transitivity (r * r * (sin t * sin t + cos t * cos t) + r' * r' * (sin t' * sin t' + cos t' * cos t')
                - 2 * r * r' * (cos t * cos t' + sin t * sin t')); [ring | rewrite S, S'; ring].
Qed.

(** Points with the same center and radius and nearby angles. *)
Lemma frame_close n r t t' c : dot n n = 1 -> 0 <= r ->
  let w t := vadd c (vscale r (vadd (vscale (cos t) (fa n)) (vscale (sin t) (fb n)))) in
  dist (w t) (w t') = r * norm (cos t - cos t') (sin t - sin t').
Proof.
  intros U Hr. cbv zeta. apply dist_eq; [apply Rmult_le_pos; [exact Hr | apply norm_nonneg] |].
  replace (vsub _ _) with (vsub (vscale r (vadd (vscale (cos t) (fa n)) (vscale (sin t) (fb n))))
    (vscale r (vadd (vscale (cos t') (fa n)) (vscale (sin t') (fb n))))) by (vecs; ring).
  rewrite (frame_dist n r t r t' U).
  transitivity (r * r * (norm (cos t - cos t') (sin t - sin t') * norm (cos t - cos t') (sin t - sin t'))); [| ring].
  rewrite norm_sq, cos_minus.
  pose proof (sin2_cos2 t) as S. pose proof (sin2_cos2 t') as S'. unfold Rsqr in *.
  transitivity (r * r * ((sin t * sin t + cos t * cos t) + (sin t' * sin t' + cos t' * cos t') - 2 * (cos t * cos t' + sin t * sin t')));
    [rewrite S, S'; ring | ring].
Qed.
Lemma norm_dir_le2 t p : norm (cos t - cos p) (sin t - sin p) <= 2.
Proof.
  pose proof (norm_dist_tri (cos t - cos p) (sin t - sin p) (cos t) (sin t)) as H. rewrite norm_unit in H.
  replace (cos t - cos p - cos t) with (- cos p) in H by ring. replace (sin t - sin p - sin t) with (- sin p) in H by ring.
  assert (norm (- cos p) (- sin p) = 1) as N by (rewrite <- (norm_unit p); unfold norm; f_equal; ring). lra.
Qed.

Definition tol (r K : R) : R := Rmax (1 / 1000) (r * (1 / 100000 * (2 + K))).

(** The three coordinates of a point. *)
Lemma straight_local s e d len p : dot d d = 1 ->
  let l := dot (vsub p s) d in let c := vadd s (vscale l d) in let r := dist p c in
  exists t, local_coordinates (Straight s e d len) p = Some (l, r, t) /\ 0 <= t < 2 * PI
    /\ dist (get_coor_by_rt r t d c true) p <= tol r (blur d).
Proof.
  intros U l c r. pose proof (across_norm d (vsub p s) U) as N. pose proof (across_dot d (vsub p s) U) as O.
  assert (R1 : vnorm (cross d (vsub p s)) = r).
  { rewrite N. unfold r. rewrite dist_norm. f_equal. unfold across, c, l. vecs; ring. }
  destruct (polar_frame d (across d (vsub p s)) U O) as [ph E]. rewrite <- N, R1 in E.
  assert (P : p = vadd c (vscale r (vadd (vscale (cos ph) (fa d)) (vscale (sin ph) (fb d))))).
  { rewrite <- E. unfold across, c, l. vecs; ring. }
  assert (Hr : 0 <= r) by apply dist_pos.
  unfold local_coordinates. cbv zeta. fold l. rewrite R1. fold c. clearbody l. unfold tol.
  assert (B : forall t, dist (get_coor_by_rt r t d c true) p = r * norm (cos t - cos ph) (sin t - sin ph)).
  { intros t. rewrite (coor_frame r t d c true U). cbn [spin]. rewrite Rmult_1_l. rewrite P at 1.
    apply (frame_close d r t ph c U Hr). }
  destruct (Req_EM_T (pyround r 3) 0) as [Z | Z].
  - exists 0. split; [reflexivity |]. split; [pose proof PI_RGT_0; lra |]. rewrite B.
    apply pyround3 in Z. rewrite Rabs_pos_eq in Z by exact Hr.
    eapply Rle_trans; [| apply Rmax_l]. pose proof (norm_dir_le2 0 ph). pose proof (norm_nonneg (cos 0 - cos ph) (sin 0 - sin ph)). nra.
  - destruct (theta_spec d c r true ph U Hr Z) as (t & T & Rg & Cl). cbn [spin] in T. rewrite Rmult_1_l, <- P in T.
    rewrite T. cbn [obind]. exists t. split; [reflexivity |]. split; [exact Rg |]. rewrite B.
    eapply Rle_trans; [| apply Rmax_r]. apply Rmult_le_compat_l; [exact Hr | exact Cl].
Qed.

Lemma axis_dist s d p x : dot d d = 1 -> let l := dot (vsub p s) d in
  dist p (vadd s (vscale x d)) * dist p (vadd s (vscale x d))
  = dist p (vadd s (vscale l d)) * dist p (vadd s (vscale l d)) + (x - l) * (x - l).
Proof.
  intros U. cbv zeta. rewrite !dist_sq.
  assert (E : forall y, dot (vsub p (vadd s (vscale y d))) (vsub p (vadd s (vscale y d)))
    = dot (vsub p s) (vsub p s) - 2 * y * dot (vsub p s) d + y * y).
  { intros y. replace (vsub p (vadd s (vscale y d))) with (vsub (vsub p s) (vscale y d)) by (vecs; ring).
    generalize dependent (vsub p s). intros v. cbv zeta. rewrite dot_sub_l, !dot_sub_r, !dot_scale_l, !dot_scale_r, U, (dot_sym d v). ring. }
  rewrite !E. ring.
Qed.
