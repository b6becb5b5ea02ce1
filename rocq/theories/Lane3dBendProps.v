(** C86: circular three-dimensional lanes between two points. *)
From Coq Require Import Reals List ZArith Lra Lia Psatz.
From Verif Require Import Base Angle AngleSpec AngleProofs Lane3d Lane3dSpec Lane3dProofs Lane3dStraight Lane3dCircular Lane3dArcProps.
Import ListNotations.
Open Scope R_scope.

(** The angle through which the lane turns, anticlockwise about the normal, for a requested angle [phi]. *)
Definition turns (right : bool) (phi : R) : R :=
  if right then (if Rlt_dec PI phi then 3 * PI - phi else 2 * PI - phi)
  else (if Rlt_dec PI phi then phi - PI else phi).

Lemma rotate_frame c n x y u w t : dot n n = 1 -> cross n u = w -> cross n w = vscale (-1) u ->
  turned c n t (vadd c (vadd (vscale x u) (vscale y w)))
  = vadd c (vadd (vscale (x * cos t - y * sin t) u) (vscale (x * sin t + y * cos t) w)).
Proof.
  intros U W1 W2.
  transitivity (vadd c (vadd (vscale (cos t) (vadd (vscale x u) (vscale y w)))
    (vscale (sin t) (vadd (vscale x (cross n u)) (vscale y (cross n w)))))); [unfold turned; vecs; ring |].
  rewrite W1, W2. vecs; ring.
Qed.

Lemma bend_core s e n : dot n n = 1 -> s <> e -> dot n (vsub e s) = 0 ->
  exists u l, dot u u = 1 /\ dot n u = 0 /\ 0 < l /\ dist e s = 2 * l /\ vsub e s = vscale (2 * l) u
  /\ unit (cross n (vsub e s)) = Some (cross n u) /\ unit (cross n (vsub s e)) = Some (vscale (-1) (cross n u)).
Proof.
  intros U N O. destruct (straight_spec s e N) as (u & _ & Uu & D & P & _).
  exists u, (dist e s / 2). replace (2 * (dist e s / 2)) with (dist e s) by field. 
  assert (Ou : dot n u = 0).
  { rewrite D, dot_scale_r in O. apply Rmult_integral in O. destruct O; lra. }
  destruct (triad n u U Uu Ou) as (M & _).
  split; [exact Uu |]. split; [exact Ou |]. split; [lra |]. split; [reflexivity |]. split; [exact D |].
  assert (vsub s e = vscale (- dist e s) u) as D'.
  { transitivity (vscale (-1) (vsub e s)); [vecs; ring |]. rewrite D. vecs; ring. }
  rewrite D, D'. split.
  - replace (cross n (vscale (dist e s) u)) with (vscale (dist e s) (cross n u)) by (vecs; ring). apply unit_of; assumption.
  - replace (cross n (vscale (- dist e s) u)) with (vscale (dist e s) (vscale (-1) (cross n u))) by (vecs; ring).
    apply unit_of; [| assumption]. rewrite dot_scale_l, dot_scale_r, M. ring.
Qed.

(** Between two points in a plane with normal [n] (of length 1), for any angle but half a turn, the circle runs through
    both points, and the first one is turned into the second one by [turns right phi]. *)
Theorem C86_circle : forall s e n phi right, dot n n = 1 -> s <> e -> dot n (vsub e s) = 0 ->
  0 < phi < 2 * PI -> phi <> PI ->
  exists c r, get_center_radius s e n phi right = Some (c, r) /\ 0 < r
  /\ on_circle c n r s /\ on_circle c n r e /\ turned c n (turns right phi) s = e
  /\ 0 < turns right phi < 2 * PI.
Proof.
  intros s e n phi right U N O Hp Np. destruct (bend_core s e n U N O) as (u & l & Uu & Ou & Hl & Dl & D & W1 & W2).
  destruct (triad n u U Uu Ou) as (M & Mn & Mu & X & _). set (w := cross n u) in *.
  assert (Xw : cross n w = vscale (-1) u) by (rewrite <- X; vecs; ring).
  pose proof PI_RGT_0 as HP.
  set (th := if Rlt_dec PI phi then (phi - PI) / 2 else phi / 2).
  assert (Ht : 0 < th < PI / 2) by (unfold th; destruct (Rlt_dec PI phi); lra).
  assert (St : 0 < sin th) by (apply sin_gt_0; lra). assert (Ct : 0 < cos th) by (apply cos_gt_0; lra).
  set (k := if right then -1 else 1).
  set (r := l / sin th). assert (Hr : 0 < r) by (apply Rdiv_lt_0_compat; lra).
  assert (Lr : l = r * sin th) by (unfold r; field; lra).
  set (c := vadd (vscale (/ 2) (vadd e s)) (vscale (l / tan th * k) w)).
  assert (G : get_center_radius s e n phi right = Some (c, r)).
  { unfold get_center_radius. destruct (Rlt_dec phi (2 * PI)) as [_ |]; [| lra]. destruct (Rlt_dec 0 phi) as [_ |]; [| lra].
    assert (unit (if right then cross n (vsub s e) else cross n (vsub e s)) = Some (vscale k w)) as ->.
    { destruct right; [exact W2 |]. rewrite W1. f_equal. unfold k. vecs; ring. }
    cbn [obind]. cbv zeta. replace (vnorm (vsub e s) / 2) with l by (rewrite <- dist_norm, Dl; field).
    unfold c, r, th. destruct (Rlt_dec PI phi); [| destruct (Rlt_dec phi PI); [| lra]]; do 2 f_equal; vecs; unfold Rdiv; ring. }
  assert (Lt : l / tan th = r * cos th).
  { unfold tan. rewrite Lr. field. split; lra. }
  assert (Es : s = vadd c (vadd (vscale (- (r * sin th)) u) (vscale (- (r * cos th * k)) w))).
  { unfold c. rewrite Lt. assert (vscale (/ 2) (vsub e s) = vscale (r * sin th) u) as H.
    { rewrite D, <- Lr. vecs; field. }
    injection H as H1 H2 H3. apply v3_ext; cbn; lra. }
  assert (Ee : e = vadd c (vadd (vscale (r * sin th) u) (vscale (- (r * cos th * k)) w))).
  { unfold c. rewrite Lt. assert (vscale (/ 2) (vsub e s) = vscale (r * sin th) u) as H.
    { rewrite D, <- Lr. vecs; field. }
    injection H as H1 H2 H3. apply v3_ext; cbn; lra. }
  assert (K : k * k = 1) by (unfold k; destruct right; ring).
  assert (On : forall x y, x * x + y * y = r * r -> on_circle c n r (vadd c (vadd (vscale x u) (vscale y w)))).
  { intros x y H. split.
    - apply dist_eq; [lra |]. replace (vsub _ c) with (vadd (vscale x u) (vscale y w)) by (vecs; ring).
      rewrite dot_add_l, !dot_add_r, !dot_scale_l, !dot_scale_r, Uu, M, (dot_sym u w), Mu. lra.
    - transitivity (dot n (vadd (vscale x u) (vscale y w))); [unfold dot; cbn; ring |].
      rewrite dot_add_r, !dot_scale_r, Ou, (dot_sym n w), Mn. ring. }
  pose proof (sin2_cos2 th) as Sc. unfold Rsqr in Sc.
  exists c, r. split; [exact G |]. split; [exact Hr |].
  split. { rewrite Es. apply On. transitivity (r * r * (sin th * sin th + k * k * (cos th * cos th))); [ring | rewrite K; rewrite Rmult_1_l, Sc; ring]. }
  split. { rewrite Ee. apply On. transitivity (r * r * (sin th * sin th + k * k * (cos th * cos th))); [ring | rewrite K; rewrite Rmult_1_l, Sc; ring]. }
  assert (T : turns right phi = if right then 2 * PI - 2 * th else 2 * th).
  { unfold turns, th. destruct right, (Rlt_dec PI phi); lra. }
  split; [| rewrite T; destruct right; lra].
  rewrite Es at 1. rewrite (rotate_frame c n _ _ u w) by (try assumption; reflexivity). rewrite Ee at 1. rewrite T. do 2 f_equal.
  - f_equal. unfold k. destruct right.
    + replace (2 * PI - 2 * th) with (- (2 * th) + 2 * PI) by ring. destruct (cos_2PI_plus (- (2 * th))) as [-> ->].
      rewrite cos_neg, sin_neg, sin_2a, cos_2a_sin. transitivity (r * sin th * (2 * (sin th * sin th + cos th * cos th) - 1)); [ring | rewrite Sc; ring].
    + rewrite sin_2a, cos_2a_sin. transitivity (r * sin th * (2 * (sin th * sin th + cos th * cos th) - 1)); [ring | rewrite Sc; ring].
  - f_equal. unfold k. destruct right.
    + replace (2 * PI - 2 * th) with (- (2 * th) + 2 * PI) by ring. destruct (cos_2PI_plus (- (2 * th))) as [-> ->].
      rewrite cos_neg, sin_neg, sin_2a, cos_2a_sin. ring_simplify. ring.
    + rewrite sin_2a, cos_2a_sin. ring_simplify. ring.
Qed.

Lemma turned_cos c n r t p : dot n n = 1 -> on_circle c n r p -> dot (vsub (turned c n t p) c) (vsub p c) = r * r * cos t.
Proof.
  intros U (D & N). assert (Vv : dot (vsub p c) (vsub p c) = r * r) by (rewrite <- dist_sq, D; reflexivity).
  rewrite <- Vv. unfold dot, turned, vsub in *; cbn in *. ring.
Qed.
Lemma turned_sin c n r t p : dot n n = 1 -> on_circle c n r p -> dot (vsub (turned c n t p) c) (cross n (vsub p c)) = r * r * sin t.
Proof.
  intros U (D & N). assert (Vv : dot (vsub p c) (vsub p c) = r * r) by (rewrite <- dist_sq, D; reflexivity).
  rewrite <- Vv. set (v := vsub p c) in *. assert (Nv : dot n v = 0) by exact N.
  transitivity (dot (vadd (vscale (cos t) v) (vscale (sin t) (cross n v))) (cross n v)).
  { unfold v, dot, turned, vsub, cross; cbn. ring. }
  rewrite dot_add_l, !dot_scale_l. assert (dot v (cross n v) = 0) as -> by (unfold dot, cross; cbn; ring).
  assert (dot (cross n v) (cross n v) = dot v v) as ->; [| ring].
  transitivity (dot n n * dot v v - dot n v * dot n v); [unfold dot, cross; cbn; ring |]. rewrite U, Nv. ring.
Qed.

(** The same angle, when both are between 0 and a full turn. *)
Lemma same_turn c n r s a b : dot n n = 1 -> 0 < r -> on_circle c n r s -> 0 < a < 2 * PI -> 0 < b < 2 * PI ->
  turned c n a s = turned c n b s -> a = b.
Proof.
  intros U Hr On Ha Hb E. pose proof (turned_cos c n r a s U On) as C1. pose proof (turned_cos c n r b s U On) as C2.
  pose proof (turned_sin c n r a s U On) as S1. pose proof (turned_sin c n r b s U On) as S2. rewrite E in C1, S1.
  assert (cos a = cos b). { apply (Rmult_eq_reg_l (r * r)); [lra | nra]. }
  assert (sin a = sin b). { apply (Rmult_eq_reg_l (r * r)); [lra | nra]. }
  assert (cos (a - b) = 1). { rewrite cos_minus, H, H0. pose proof (sin2_cos2 b) as S. unfold Rsqr in S. lra. }
  destruct (Req_dec a b) as [| N]; [assumption |]. exfalso.
  assert (Z : sin ((a - b) / 2) = 0).
  { replace (a - b) with (2 * ((a - b) / 2)) in H1 by field. rewrite cos_2a_sin in H1. nra. }
  pose proof PI_RGT_0. destruct (Rtotal_order a b) as [L | [L | L]]; [| contradiction |].
  - assert (0 < sin ((b - a) / 2)) by (apply sin_gt_0; lra).
    replace ((b - a) / 2) with (- ((a - b) / 2)) in H3 by field. rewrite sin_neg, Z in H3. lra.
  - assert (0 < sin ((a - b) / 2)) by (apply sin_gt_0; lra). lra.
Qed.

(** The lane turns by the requested angle when it turns left by less than half a turn, and when it turns right by three
    quarters.  Missing: all other angles, for which it does not. *)
Theorem C86_angle_partial : forall s e n phi right, dot n n = 1 -> s <> e -> dot n (vsub e s) = 0 ->
  0 < phi < 2 * PI -> (right = false /\ phi < PI) \/ (right = true /\ phi = 3 / 2 * PI) ->
  exists c r, get_center_radius s e n phi right = Some (c, r) /\ 0 < r /\ on_circle c n r s /\ turned c n phi s = e.
Proof.
  intros s e n phi right U N O Hp H. pose proof PI_RGT_0 as HP.
  assert (Np : phi <> PI) by (destruct H as [[_ H] | [_ H]]; lra).
  destruct (C86_circle s e n phi right U N O Hp Np) as (c & r & E & Hr & Os & _ & T & _).
  exists c, r. repeat split; try assumption; try apply Os.
  replace phi with (turns right phi); [exact T |]. unfold turns.
  destruct H as [[-> H] | [-> H]]; destruct (Rlt_dec PI phi); lra.
Qed.
Theorem C86_angle_refuted : forall s e n phi right c r, dot n n = 1 -> s <> e -> dot n (vsub e s) = 0 ->
  0 < phi < 2 * PI -> ~ ((right = false /\ phi < PI) \/ (right = true /\ phi = 3 / 2 * PI)) ->
  get_center_radius s e n phi right = Some (c, r) -> ~ (on_circle c n r s /\ turned c n phi s = e).
Proof.
  intros s e n phi right c r U N O Hp H G (Os & T). pose proof PI_RGT_0 as HP.
  destruct (Req_dec phi PI) as [-> | Np].
  - assert (D : r * 4 = dist e s).
    { unfold get_center_radius in G. destruct (Rlt_dec PI (2 * PI)); [| lra]. destruct (Rlt_dec 0 PI); [| lra].
      destruct (unit _); [| discriminate]. cbn [obind] in G. cbv zeta in G. destruct (Rlt_dec PI PI); [lra |].
      injection G as _ <-. rewrite dist_norm. field. }
    pose proof (bend_core s e n U N O) as (u & l & _ & _ & Hl & Dl & _).
    assert (Dd : dot (vsub e s) (vsub e s) = 4 * (r * r)).
    { rewrite <- T. destruct Os as (D1 & _). rewrite <- D1, dist_sq.
      unfold dot, turned, vsub; cbn. rewrite cos_PI, sin_PI. ring. }
    rewrite <- dist_sq in Dd. nra.
  - destruct (C86_circle s e n phi right U N O Hp Np) as (c' & r' & E & Hr & Os' & _ & T' & Rt).
    rewrite G in E. injection E as <- <-.
    assert (A : phi = turns right phi) by (apply (same_turn c n r s); try assumption; congruence).
    apply H. unfold turns in A. destruct right, (Rlt_dec PI phi); [right; split; [reflexivity | lra] | exfalso; lra | exfalso; lra |].
    left. split; [reflexivity | lra].
Qed.

(** The lane made from two points begins and ends there, up to the rounding of the phases, when the normal has length 1.
    Missing: other normals, for which it does not. *)
Theorem C86_ends_partial : forall s e n phi right c r, dot n n = 1 -> s <> e -> dot n (vsub e s) = 0 ->
  0 < phi < 2 * PI -> phi <> PI -> get_center_radius s e n phi right = Some (c, r) -> 1 / 1000 <= r ->
  exists L p q, circular_lane_v2 s e n phi right = Some L
  /\ 0 < seg_length L <= r * (2 * PI)
  /\ get_outer_center L 0 = Some p /\ get_outer_center L (seg_length L) = Some q
  /\ dist p s <= r * (1 / 100000 * (2 + blur n)) /\ dist q e <= r * (1 / 100000 * (2 + blur n)).
Proof.
  intros s e n phi right c r U N O Hp Np G Hr.
  destruct (C86_circle s e n phi right U N O Hp Np) as (c' & r' & E & Hr0 & Os & Oe & _).
  rewrite G in E. injection E as <- <-.
  assert (R3 : pyround r 3 <> 0).
  { intros Z. apply pyround3 in Z. rewrite Rabs_pos_eq in Z by lra. lra. }
  assert (W : forall x, on_circle c n r x -> exists a t, x = wheel c r n a /\ get_theta_by_coor x n c r right = Some t
    /\ 0 <= t < 2 * PI /\ dist (wheel c r n (spin right t)) x <= r * (1 / 100000 * (2 + blur n))).
  { intros x (D & P). destruct (polar_frame n (vsub x c) U P) as [a A]. rewrite <- dist_norm, D in A.
    assert (X : x = wheel c r n a) by (unfold wheel; rewrite <- A; vecs; ring).
    destruct (theta_spec n c r right (spin right a) U (Rlt_le _ _ Hr0) R3) as (t & T & Rt & Ct).
    rewrite spin_cos, spin_sin, <- Rmult_assoc, spin_sq, Rmult_1_l in T.
    change (get_theta_by_coor (wheel c r n a) n c r right = Some t) in T.
    exists a, t. rewrite <- X in T. split; [exact X |]. split; [exact T |]. split; [exact Rt |].
    rewrite X, wheel_close by (try assumption; lra). apply Rmult_le_compat_l; [lra |]. eapply Rle_trans; [| exact Ct].
    apply Req_le. unfold norm. rewrite !spin_cos, !spin_sin. f_equal. destruct right; cbn; ring. }
  destruct (W s Os) as (a & sp & _ & Ts & Rs & Bs). destruct (W e Oe) as (b & ep & _ & Te & Re & Be).
  assert (Pr : proper sp ep right) by (repeat split; try lra; intros (_ & ? & ?); lra).
  assert (Nz : n <> V 0 0 0) by (intros ->; unfold dot in U; cbn in U; lra).
  destruct (circular_make c r n sp ep right Hr0 Nz Pr) as (n' & sp' & ep' & E & Un & U' & Sw & C1 & S1 & C2 & S2 & _).
  assert (n' = n) as ->.
  { assert (unit (vscale 1 n) = Some n) as X by (apply unit_of; lra). replace (vscale 1 n) with n in X by (vecs; ring). congruence. }
  exists (Circular c r n sp' ep' right (r * spin right (ep' - sp'))). 
  assert (Wc : forall x y, cos x = cos y -> sin x = sin y -> wheel c r n (spin right x) = wheel c r n (spin right y)).
  { intros x y X Y. unfold wheel. rewrite !spin_cos, !spin_sin, X, Y. reflexivity. }
  exists (wheel c r n (spin right sp)), (wheel c r n (spin right ep)). unfold circular_lane_v2. rewrite G. cbn [obind].
  rewrite Ts. cbn [obind]. rewrite Te. cbn [obind]. rewrite E. split; [reflexivity |]. cbn [seg_length].
  split. { split; [apply Rmult_lt_0_compat; lra | apply Rmult_le_compat_l; lra]. }
  rewrite !outer_wheel by (try assumption; lra). split; [| split; [| split; assumption]].
  - f_equal. replace (spin right sp' + 0 / r) with (spin right sp') by (field; lra). apply Wc; assumption.
  - f_equal. replace (spin right sp' + r * spin right (ep' - sp') / r) with (spin right ep') by (destruct right; cbn; field; lra).
    apply Wc; assumption.
Qed.

Lemma pyround5_of m : pyround (IZR m / 100000) 5 = IZR m / 100000.
Proof.
  unfold pyround. replace (IZR m / 100000 * 10 ^ 5) with (IZR m) by (cbn; field). rewrite round_even_IZR. cbn. field.
Qed.

(** With a normal of length 2, a lane from (0, -3, -4) to (0, -4, 3) around the origin begins more than 1 away from its
    first point. *)
Theorem C86_ends_refuted : exists s e n L p, s <> e /\ n <> V 0 0 0 /\ dot n (vsub e s) = 0
  /\ get_center_radius s e n (3 / 2 * PI) true = Some (V 0 0 0, 5)
  /\ circular_lane_v2 s e n (3 / 2 * PI) true = Some L /\ get_outer_center L 0 = Some p /\ 1 < dist p s.
Proof.
  pose proof PI_RGT_0 as HP. set (s := V 0 (-3) (-4)). set (e := V 0 (-4) 3). set (n := V 2 0 0). set (x := V 1 0 0).
  assert (Sx : dot x x = 1) by (unfold dot, x; cbn; ring).
  assert (G : get_center_radius s e n (3 / 2 * PI) true = Some (V 0 0 0, 5)).
  { unfold get_center_radius. destruct (Rlt_dec _ _); [| lra]. destruct (Rlt_dec _ _); [| lra].
    set (k := sqrt 50). assert (K : k * k = 50) by (apply sqrt_sqrt; lra). assert (Hk : 0 < k) by (apply sqrt_lt_R0; lra).
    replace (cross n (vsub s e)) with (vscale (2 * k) (V 0 (7 / k) (1 / k))) by (unfold n, s, e; vecs; field; lra).
    rewrite unit_of; [| unfold dot; cbn; replace (0 * 0 + 7 / k * (7 / k) + 1 / k * (1 / k)) with (50 / (k * k)) by (field; lra); rewrite K; field | lra].
    cbn [obind]. cbv zeta. destruct (Rlt_dec PI (3 / 2 * PI)); [| lra].
    replace ((3 / 2 * PI - PI) / 2) with (PI / 4) by field. rewrite tan_PI4.
    replace (vnorm (vsub e s)) with k by (symmetry; apply vnorm_eq; [lra | rewrite K; unfold dot, e, s; cbn; ring]).
    f_equal. apply f_equal2; [unfold e, s; vecs; field; lra |]. rewrite sin_PI4.
    assert (k = 5 * sqrt 2) as ->.
    { unfold k. replace 50 with (5 * 5 * 2) by ring. rewrite sqrt_mult, sqrt_square by lra. reflexivity. }
    assert (S2 : sqrt 2 * sqrt 2 = 2) by (apply sqrt_sqrt; lra). assert (0 < sqrt 2) by (apply sqrt_lt_R0; lra).
    replace (5 * sqrt 2 / 2 / (1 / sqrt 2)) with (5 * (sqrt 2 * sqrt 2) / 2) by (field; lra). rewrite S2. field. }
  assert (R3 : pyround 5 3 <> 0) by (intros Z; apply pyround3 in Z; rewrite Rabs_pos_eq in Z by lra; lra).
  assert (L1 : sqrt (2 * 2 + 0 * 0) = 2) by (replace (2 * 2 + 0 * 0) with (2 * 2) by ring; apply sqrt_square; lra).
  assert (P6 : pyround (6 / 10) 5 = 6 / 10) by (replace (6 / 10) with (IZR 60000 / 100000) by (cbn; lra); apply pyround5_of).
  assert (P8 : pyround (8 / 10) 5 = 8 / 10) by (replace (8 / 10) with (IZR 80000 / 100000) by (cbn; lra); apply pyround5_of).
  assert (P4 : pyround (4 / 10) 5 = 4 / 10) by (replace (4 / 10) with (IZR 40000 / 100000) by (cbn; lra); apply pyround5_of).
  assert (P3 : pyround (-3 / 10) 5 = -3 / 10) by (replace (-3 / 10) with (IZR (-30000) / 100000) by (cbn; lra); apply pyround5_of).
  assert (Ts : get_theta_by_coor s n (V 0 0 0) 5 true = Some (atan (2 / 3))).
  { unfold get_theta_by_coor. destruct (Req_EM_T _ 0); [contradiction |]. cbv zeta. unfold s, n; cbn [vx vy vz vscale vsub]. rewrite L1.
    destruct (Req_EM_T 2 0); [lra |]. destruct (Req_EM_T 0 0); [| lra].
    replace (/ 5 * (-4 - 0) / (Ropp 2 / 1)) with (4 / 10) by field. rewrite P4.
    replace ((/ 5 * (-3 - 0) - 0 * 0 / 2 / 1 * (4 / 10)) / (Ropp 2 / 2)) with (6 / 10) by field. rewrite P6.
    unfold theta_of. rewrite P6. destruct (Req_EM_T (6 / 10) 0); [lra |]. cbv zeta. replace (4 / 10 / (6 / 10)) with (2 / 3) by field.
    destruct (Rlt_dec (6 / 10) 0); [lra |]. destruct (Rlt_dec (atan (2 / 3)) 0) as [B |]; [| reflexivity].
    exfalso. rewrite <- atan_0 in B. pose proof (atan_increasing 0 (2 / 3) ltac:(lra)). lra. }
  set (b := atan (-3 / 8)).
  assert (Bb : - (PI / 2) < b < 0).
  { unfold b. pose proof (atan_bound (-3 / 8)). split; [lra |]. rewrite <- atan_0. apply atan_increasing. lra. }
  assert (Te : get_theta_by_coor e n (V 0 0 0) 5 true = Some (2 * PI + b)).
  { unfold get_theta_by_coor. destruct (Req_EM_T _ 0); [contradiction |]. cbv zeta. unfold e, n; cbn [vx vy vz vscale vsub]. rewrite L1.
    destruct (Req_EM_T 2 0); [lra |]. destruct (Req_EM_T 0 0); [| lra].
    replace (/ 5 * (3 - 0) / (Ropp 2 / 1)) with (-3 / 10) by field. rewrite P3.
    replace ((/ 5 * (-4 - 0) - 0 * 0 / 2 / 1 * (-3 / 10)) / (Ropp 2 / 2)) with (8 / 10) by field. rewrite P8.
    unfold theta_of. rewrite P8. destruct (Req_EM_T (8 / 10) 0); [lra |]. cbv zeta. replace (-3 / 10 / (8 / 10)) with (-3 / 8) by field.
    fold b. destruct (Rlt_dec (8 / 10) 0); [lra |]. destruct (Rlt_dec b 0); [| lra]. destruct (Rlt_dec 0 (8 / 10)); [reflexivity | lra]. }
  assert (Ba : 0 < atan (2 / 3) < PI / 2).
  { split; [| apply atan_bound]. rewrite <- atan_0. apply atan_increasing. lra. }
  set (a := atan (2 / 3)) in *.
  assert (Un : unit n = Some x) by (replace n with (vscale 2 x) by (unfold n, x; vecs; ring); apply unit_of; [exact Sx | lra]).
  exists s, e, n, (Circular (V 0 0 0) 5 x a (2 * PI + b) true (5 * (2 * PI + b - a))). eexists.
  split; [intros [= H]; lra |]. split; [intros [= H]; lra |]. split; [unfold dot, n, s, e; cbn; ring |]. split; [exact G |].
  split.
  { unfold circular_lane_v2. rewrite G. cbn [obind]. rewrite Ts. cbn [obind]. rewrite Te. cbn [obind]. unfold circular_lane. rewrite Un. cbn [obind].
    destruct (Rle_dec (2 * PI + b) a); [lra |]. cbv zeta. rewrite Rmax_right by lra. destruct (Rlt_dec (2 * PI) (2 * PI + b)); [lra |].
    rewrite !Rminus_0_r. do 2 f_equal. apply Rabs_pos_eq. nra. }
  split. { apply (outer_wheel (V 0 0 0) 5 x a (2 * PI + b) true 0); [exact Sx | lra | cbn [spin]; lra]. }
  cbn [spin]. replace (a + 0 / 5) with a by field. unfold wheel.
  assert (F : fa x = V 0 (-1) 0).
  { unfold fa, x; cbn. replace (1 * 1 + 0 * 0) with 1 by ring. rewrite sqrt_1. destruct (Req_EM_T 1 0); [lra |]. apply v3_ext; cbn; field. }
  assert (Fb : fb x = V 0 0 (-1)) by (unfold fb; rewrite F; unfold x; vecs; ring).
  rewrite F, Fb.
  assert (Ca : 3 * sin a = 2 * cos a).
  { pose proof (tan_atan (2 / 3)) as T. fold a in T. unfold tan in T. assert (0 < cos a) by (apply cos_gt_0; lra).
    replace (sin a) with (sin a / cos a * cos a) by (field; lra). rewrite T. field. }
  assert (C0 : 0 < cos a) by (apply cos_gt_0; lra). pose proof (sin2_cos2 a) as Sc. unfold Rsqr in Sc.
  assert (Cc : cos a * cos a = 9 / 13) by nra.
  assert (Cl : 82 / 100 < cos a) by nra. assert (Sl : sin a < 556 / 1000) by nra.
  apply Rsqr_incrst_0; [unfold Rsqr; rewrite dist_sq | lra | apply dist_pos].
  unfold dot, s; cbn. nra.
Qed.

Module Example_bend.
  (** A quarter turn to the left from (10, 0, 0) to (0, 10, 0) about the vertical. *)
  Definition s := V 10 0 0. Definition e := V 0 10 0. Definition up := V 0 0 1.
  Example up_unit : dot up up = 1. Proof. unfold dot; cbn; ring. Qed.
  Example apart : s <> e. Proof. intros [= H]; lra. Qed.
  Example level : dot up (vsub e s) = 0. Proof. unfold dot; cbn; ring. Qed.
  Example angle : 0 < PI / 2 < 2 * PI /\ PI / 2 <> PI /\ ((false = false /\ PI / 2 < PI) \/ (false = true /\ PI / 2 = 3 / 2 * PI)).
  Proof. pose proof PI_RGT_0. split; [lra |]. split; [lra |]. left. split; [reflexivity | lra]. Qed.
  Example found : get_center_radius s e up (PI / 2) false = Some (V 0 0 0, 10).
  Proof.
    pose proof PI_RGT_0. unfold get_center_radius. destruct (Rlt_dec _ _); [| lra]. destruct (Rlt_dec _ _); [| lra].
    set (k := sqrt 2). assert (K : k * k = 2) by (apply sqrt_sqrt; lra). assert (Hk : 0 < k) by (apply sqrt_lt_R0; lra).
    replace (cross up (vsub e s)) with (vscale (10 * k) (V (- 1 / k) (- 1 / k) 0)) by (unfold up, s, e; vecs; field; lra).
    rewrite unit_of; [| unfold dot; cbn; replace (- 1 / k * (- 1 / k) + - 1 / k * (- 1 / k) + 0 * 0) with (2 / (k * k)) by (field; lra); rewrite K; field | lra].
    cbn [obind]. cbv zeta. destruct (Rlt_dec PI (PI / 2)); [lra |]. destruct (Rlt_dec (PI / 2) PI); [| lra].
    replace (PI / 2 / 2) with (PI / 4) by field. rewrite tan_PI4, sin_PI4. fold k.
    replace (vnorm (vsub e s)) with (10 * k) by (symmetry; apply vnorm_eq; [lra | replace (10 * k * (10 * k)) with (100 * (k * k)) by ring; rewrite K; unfold dot, e, s; cbn; ring]).
    f_equal. apply f_equal2; [unfold e, s; vecs; field; lra |].
    replace (10 * k / 2 / (1 / k)) with (5 * (k * k)) by (field; lra). rewrite K. ring.
  Qed.
End Example_bend.

Print Assumptions C86_circle.
Print Assumptions C86_angle_partial.
Print Assumptions C86_angle_refuted.
Print Assumptions C86_ends_partial.
Print Assumptions C86_ends_refuted.
