(** C84: straight three-dimensional lanes have cylindrical coordinates. *)
From Coq Require Import Reals List ZArith Lra Lia Psatz.
From Verif Require Import Base Angle AngleSpec AngleProofs Lane3d Lane3dSpec Lane3dProofs Lane3dStraight.
Import ListNotations.
Open Scope R_scope.

(** The longitudinal coordinate of any point is that of the closest point of the line through the lane, the lateral
    one is the distance from that point. *)
Theorem C84_straight_coordinates : forall s e, s <> e ->
  exists L, straight_lane s e = Some L /\ seg_length L = dist s e /\
  forall p, exists l r t, local_coordinates L p = Some (l, r, t)
    /\ r = dist p (along s e l) /\ (forall x, x <> l -> r < dist p (along s e x)) /\ 0 <= t < 2 * PI.
Proof.
  intros s e N. destruct (straight_spec s e N) as (d & -> & U & _ & _ & _ & A).
  eexists. split; [reflexivity |]. split; [apply dist_sym |].
  intros p. destruct (straight_local s e d (dist e s) p U) as (t & E & T & _).
  exists (dot (vsub p s) d). eexists. exists t. split; [exact E |]. rewrite A. split; [reflexivity |].
  split; [| exact T]. intros x Hx. rewrite A. pose proof (axis_dist s d p x U) as D. cbv zeta in D.
  set (l := dot (vsub p s) d) in *.
  apply Rsqr_incrst_0; [unfold Rsqr; rewrite D; assert (0 < (x - l) * (x - l)) by nra; lra | apply dist_pos | apply dist_pos].
Qed.

(** [position] takes cylindrical coordinates: distances between two points are those of such coordinates, the angle
    grows anticlockwise about the direction of the lane, and the angle 0 is level with the axis. *)
Theorem C84_straight_cylinder : forall s e L, s <> e -> straight_lane s e = Some L ->
  forall l r t, exists p, position L l r t = Some p
  /\ (r = 0 -> p = along s e l)
  /\ (t = 0 -> vz p = vz (along s e l))
  /\ (forall x, position L l r (t + x) = Some (turned (along s e l) (direction s e) x p))
  /\ (forall l' r' t' p', position L l' r' t' = Some p' ->
        dist p p' * dist p p' = (l - l') * (l - l') + (r * r + r' * r' - 2 * r * r' * cos (t - t'))).
Proof.
  intros s e L N HL l r t. destruct (straight_spec s e N) as (d & E & U & _ & _ & D & A).
  rewrite E in HL. injection HL as <-. cbn [position]. eexists. split; [reflexivity |].
  destruct (frame d U) as (FA & FB & FAB & NA & NB & XB & XN).
  rewrite (coor_frame _ _ _ _ true U). cbn [spin]. rewrite Rmult_1_l, A, D.
  split; [intros ->; vecs; ring |].
  split. { intros ->. cbn. rewrite cos_0, sin_0. unfold fa. destruct (Req_EM_T _ 0); cbn; ring. }
  split.
  - intros x. rewrite (coor_frame _ _ _ _ true U). cbn [spin]. f_equal. rewrite cos_plus, sin_plus.
    set (c := vadd s (vscale l d)). set (v := vscale r (vadd (vscale (cos t) (fa d)) (vscale (1 * sin t) (fb d)))).
    assert (X : cross d v = vscale r (vadd (vscale (cos t) (fb d)) (vscale (- sin t) (fa d)))).
    { assert (cross d (fa d) = fb d) as XA by reflexivity.
      transitivity (vscale r (vadd (vscale (cos t) (cross d (fa d))) (vscale (sin t) (cross d (fb d))))); [unfold v; vecs; ring |].
      rewrite XA, XB. vecs; ring. }
    assert (T : turned c d x (vadd c v) = vadd c (vadd (vscale (cos x) v) (vscale (sin x) (cross d v)))) by (unfold turned; vecs; ring).
    fold c. replace (vadd (vscale (cos t) (fa d)) (vscale (sin t) (fb d))) with (vadd (vscale (cos t) (fa d)) (vscale (1 * sin t) (fb d))) by (vecs; ring).
    fold v. rewrite T, X. unfold v. vecs; ring.
  - intros l' r' t' p' [= <-]. rewrite (coor_frame _ _ _ _ true U). cbn [spin]. rewrite dist_sq.
    pose proof (frame_dist d r t r' t' U) as F. cbv zeta in F.
    set (v := vscale r (vadd (vscale (cos t) (fa d)) (vscale (sin t) (fb d)))) in *. set (v' := vscale r' (vadd (vscale (cos t') (fa d)) (vscale (sin t') (fb d)))) in *.
    assert (Nv : dot d v = 0) by (unfold v; rewrite dot_scale_r, dot_add_r, !dot_scale_r, NA, NB; ring).
    assert (Nv' : dot d v' = 0) by (unfold v'; rewrite dot_scale_r, dot_add_r, !dot_scale_r, NA, NB; ring).
    replace (vscale r' (vadd (vscale (cos t') (fa d)) (vscale (1 * sin t') (fb d)))) with v' by (unfold v'; vecs; ring).
    try replace (vscale r (vadd (vscale (cos t) (fa d)) (vscale (1 * sin t) (fb d)))) with v by (unfold v; vecs; ring).
    replace (vsub (vadd (vadd s (vscale l d)) v) (vadd (vadd s (vscale l' d)) v'))
      with (vadd (vscale (l - l') d) (vsub v v')) by (vecs; ring).
    rewrite dot_add_l, !dot_add_r, !dot_scale_l, !dot_scale_r, U, F.
    rewrite dot_sub_r, Nv, Nv', (dot_sym (vsub v v') d), dot_sub_r, Nv, Nv'. ring.
Qed.

(** The longitudinal and lateral coordinates of a position are those it was made from. *)
Theorem C84_straight_back : forall s e L, s <> e -> straight_lane s e = Some L ->
  forall l r t p, 0 <= r -> position L l r t = Some p -> exists t', local_coordinates L p = Some (l, r, t').
Proof.
  intros s e L N HL l r t p Hr Hp. destruct (straight_spec s e N) as (d & E & U & _ & _ & D & A).
  rewrite E in HL. injection HL as <-. cbn [position] in Hp. injection Hp as <-.
  rewrite (coor_frame _ _ _ _ true U). cbn [spin]. rewrite Rmult_1_l.
  destruct (frame d U) as (FA & FB & FAB & NA & NB & _).
  set (v := vscale r _). assert (Nv : dot d v = 0) by (unfold v; rewrite dot_scale_r, dot_add_r, !dot_scale_r, NA, NB; ring).
  set (p := vadd (vadd s (vscale l d)) v).
  destruct (straight_local s e d (dist e s) p U) as (t' & -> & _). exists t'.
  assert (L1 : dot (vsub p s) d = l).
  { replace (vsub p s) with (vadd (vscale l d) v) by (unfold p; vecs; ring).
    rewrite dot_add_l, dot_scale_l, U, (dot_sym v), Nv. ring. }
  rewrite L1. f_equal. f_equal. f_equal. apply dist_eq; [exact Hr |].
  replace (vsub p (vadd s (vscale l d))) with v by (unfold p; vecs; ring).
  unfold v. repeat rewrite ?dot_scale_l, ?dot_scale_r, ?dot_add_l, ?dot_add_r. rewrite FA, FB, (dot_sym (fb d)), FAB.
  pose proof (sin2_cos2 t) as S. unfold Rsqr in S.
  transitivity (r * r * (sin t * sin t + cos t * cos t)); [ring | rewrite S; ring].
Qed.

(** Converting a point to coordinates and back gives a point at most a millimetre away, or, far from the axis, at most
    [(2 + blur) / 100000] of the lateral distance.  Missing: a bound without [blur], see the next theorem. *)
Theorem C84_straight_inverse_partial : forall s e L, s <> e -> straight_lane s e = Some L ->
  forall p l r t, local_coordinates L p = Some (l, r, t) ->
  exists q, position L l r t = Some q /\ dist q p <= Rmax (1 / 1000) (r * (1 / 100000 * (2 + blur (direction s e)))).
Proof.
  intros s e L N HL p l r t Hl. destruct (straight_spec s e N) as (d & E & U & _ & _ & D & A).
  rewrite E in HL. injection HL as <-. destruct (straight_local s e d (dist e s) p U) as (t' & E' & _ & B).
  rewrite E' in Hl. injection Hl as <- <- <-. cbn [position]. eexists. split; [reflexivity |]. rewrite D. exact B.
Qed.

(** Lanes along a coordinate plane are not blurred. *)
Theorem C84_straight_level : forall s e L, s <> e -> straight_lane s e = Some L ->
  (vx e = vx s \/ vy e = vy s \/ vz e = vz s) ->
  forall p l r t, local_coordinates L p = Some (l, r, t) ->
  exists q, position L l r t = Some q /\ dist q p <= Rmax (1 / 1000) (r / 50000).
Proof.
  intros s e L N HL C p l r t Hl. destruct (C84_straight_inverse_partial s e L N HL p l r t Hl) as (q & Hq & B).
  exists q. split; [exact Hq |]. replace (r / 50000) with (r * (1 / 100000 * (2 + blur (direction s e)))); [exact B |].
  assert (blur (direction s e) = 0) as ->; [| field].
  unfold blur, direction; cbn [vx vy vz]. destruct (Req_EM_T _ 0) as [| Y]; [reflexivity |].
  destruct C as [-> | [C | ->]].
  - replace (_ * _ / _) with 0 by (unfold Rdiv; ring). apply Rabs_R0.
  - exfalso. apply Y. rewrite C. unfold Rdiv. ring.
  - replace (_ * _ / _) with 0 by (unfold Rdiv; ring). apply Rabs_R0.
Qed.

(** ** A lane where coordinates are useless *)
Lemma steep_case c s cp sp : c * c + s * s = 1 -> cp * cp + sp * sp = 1 -> 0 < s -> 0 < c -> 0 <= cp ->
  - (4 / 1000000) <= sp <= 0 -> cp + 3 * c / (5 * s) * sp < - (1 / 10) ->
  let n := V (4 / 5 * c) (4 / 5 * s) (3 / 5) in
  let p := V (cp * s + sp * (3 / 5 * c)) (- cp * c + sp * (3 / 5 * s)) (- (4 / 5 * sp)) in
  local_coordinates (Straight (V 0 0 0) n n 1) p = Some (0, 1, PI)
  /\ position (Straight (V 0 0 0) n n 1) 0 1 PI = Some (V (- s) c 0)
  /\ 1 < dist (V (- s) c 0) p.
Proof.
  intros C P Hs Hc Hcp Hsp Hx n p.
  assert (U : dot n n = 1) by (unfold n, dot; cbn; lra).
  assert (L1 : sqrt (vx n * vx n + vy n * vy n) = 4 / 5).
  { unfold n; cbn. replace (_ + _) with (4 / 5 * (4 / 5)) by lra. apply sqrt_square. lra. }
  assert (Pn : dot p n = 0).
  { unfold p, n, dot; cbn. transitivity (12 / 25 * sp * (c * c + s * s) - 12 / 25 * sp); [field | rewrite C; ring]. }
  assert (Lg : dot (vsub p (V 0 0 0)) n = 0) by (transitivity (dot p n); [unfold p, n, dot; cbn; ring | exact Pn]).
  assert (Rg : vnorm (cross n (vsub p (V 0 0 0))) = 1).
  { apply vnorm_eq; [lra |].
    transitivity (dot n n * dot p p - dot p n * dot p n).
    - unfold p, n, dot, cross, vsub; cbn. ring.
    - rewrite U, Pn.
      unfold p, dot; cbn. transitivity (cp * cp * (c * c + s * s) + sp * sp * (16 / 25 + 9 / 25 * (c * c + s * s))); [field | rewrite C; lra]. }
  assert (R3 : pyround 1 3 <> 0).
  { intros E. apply pyround3 in E. rewrite Rabs_R1 in E. lra. }
  split; [| split].
  - cbn [local_coordinates]. cbv zeta. rewrite Lg, Rg. destruct (Req_EM_T (pyround 1 3) 0) as [E | _]; [contradiction |].
    unfold get_theta_by_coor. destruct (Req_EM_T (pyround 1 3) 0) as [E | _]; [contradiction |].
    cbv zeta. rewrite L1. destruct (Req_EM_T (4 / 5) 0) as [E | _]; [lra |].
    cbn [vx vy vz vscale vsub vadd]. unfold n, p; cbn [vx vy vz].
    destruct (Req_EM_T (4 / 5 * s) 0) as [E | _]; [lra |].
    assert (S0 : pyround (/ 1 * (- (4 / 5 * sp) - (0 + 0 * (3 / 5))) / (- (4 / 5) / 1)) 5 = 0).
    { replace (/ 1 * (- (4 / 5 * sp) - (0 + 0 * (3 / 5))) / (- (4 / 5) / 1)) with sp by field.
      unfold pyround. replace (round_even (sp * 10 ^ 5)) with 0%Z; [unfold Rdiv; ring |].
      pose proof (round_even_err (sp * 10 ^ 5)) as E. replace (sp * 10 ^ 5) with (sp * 100000) in * by (cbn [pow]; ring).
      assert (Rabs (IZR (round_even (sp * 100000))) < 1).
      { replace (IZR (round_even (sp * 100000))) with ((IZR (round_even (sp * 100000)) - sp * 100000) + sp * 100000) by ring.
        eapply Rle_lt_trans; [apply Rabs_triang |]. rewrite (Rabs_left1 (sp * 100000)) by lra. lra. }
      rewrite <- abs_IZR in H. apply lt_IZR in H. lia. }
    rewrite S0.
    set (y := (_ - _) / _). assert (Y : y = cp + 3 * c / (5 * s) * sp) by (unfold y; field; lra).
    pose proof (pyround5 y) as E.
    assert (pyround y 5 < 0) as Neg.
    { pose proof (Rle_abs (pyround y 5 - y)). lra. }
    unfold theta_of. rewrite pyround_idem. destruct (Req_EM_T (pyround y 5) 0); [lra |].
    destruct (Rlt_dec (pyround y 5) 0); [| lra]. replace (0 / pyround y 5) with 0 by (field; lra). rewrite atan_0, Rplus_0_r. reflexivity.
  - cbn [position]. rewrite (coor_frame _ _ _ _ true U). f_equal. rewrite cos_PI, sin_PI.
    unfold fa. rewrite L1. destruct (Req_EM_T (4 / 5) 0) as [E | _]; [lra |]. unfold n. vecs; field.
  - assert (D : dot (vsub (V (- s) c 0) p) (vsub (V (- s) c 0) p) = 2 + 2 * cp).
    { unfold p, dot; cbn.
      transitivity ((c * c + s * s) * (1 + cp) * (1 + cp) + sp * sp * (16 / 25 + 9 / 25 * (c * c + s * s))); [field | rewrite C].
      lra. }
    rewrite dist_norm. unfold vnorm. rewrite D. rewrite <- sqrt_1 at 1. apply sqrt_lt_1; lra.
Qed.

(** There is a lane of length 1 and a point one metre beside its start whose coordinates stand for a point on the
    opposite side. *)
Theorem C84_straight_inverse_refuted : exists e L p q t, straight_lane (V 0 0 0) e = Some L
  /\ local_coordinates L p = Some (0, 1, t) /\ position L 0 1 t = Some q /\ 1 < dist q p.
Proof.
  set (m := 1000000). set (k := 500000).
  set (c := (m * m - 1) / (m * m + 1)). set (s := 2 * m / (m * m + 1)).
  set (cp := (k * k - 1) / (k * k + 1)). set (sp := - (2 * k / (k * k + 1))).
  assert (C : c * c + s * s = 1) by (unfold c, s, m; field).
  assert (P : cp * cp + sp * sp = 1) by (unfold cp, sp, k; field).
  destruct (steep_case c s cp sp C P) as (A & B & D).
  - unfold s, m. lra.
  - unfold c, m. lra.
  - unfold cp, k. lra.
  - unfold sp, k. lra.
  - replace (3 * c / (5 * s) * sp) with (3 * (m * m - 1) / (10 * m) * sp) by (unfold c, s, m; field). unfold cp, sp, m, k. lra.
  - set (n := V (4 / 5 * c) (4 / 5 * s) (3 / 5)) in *. exists n. eexists. eexists. eexists. exists PI.
    split; [| split; [exact A | split; [exact B | exact D]]].
    assert (U : dot n n = 1) by (unfold n, dot; cbn; lra).
    assert (E : vsub n (V 0 0 0) = vscale 1 n) by (vecs; ring).
    unfold straight_lane. rewrite E, (unit_of 1 n U) by lra. cbn [obind]. do 2 f_equal.
    rewrite vnorm_scale, Rabs_R1, (vnorm_eq n 1) by lra. ring.
Qed.

(** The methods inherited from two-dimensional lanes always raise: whether a point is on the lane, and how far it is
    from it, is never answered. *)
Theorem C84_on_lane_refuted : forall L width margin p,
  on_lane L width p None margin = None /\ is_reachable_from L width false p = None /\ distance L p = None.
Proof.
  intros L width margin p. unfold on_lane, is_reachable_from, distance, returned.
  destruct (local_coordinates L p) as [[[l r] t] |]; cbn; repeat split.
Qed.

Module Example_lane.
  (** A lane to the east of length 100 (the first lane of SimpleMap1) and a point beside it. *)
  Example east : V 0 0 0 <> V 100 0 0. Proof. intros [= H]. lra. Qed.
  Example east_lane : straight_lane (V 0 0 0) (V 100 0 0) = Some (Straight (V 0 0 0) (V 100 0 0) (V 1 0 0) 100).
  Proof.
    assert (E : vsub (V 100 0 0) (V 0 0 0) = vscale 100 (V 1 0 0)) by (vecs; ring).
    assert (U : dot (V 1 0 0) (V 1 0 0) = 1) by (unfold dot; cbn; ring).
    unfold straight_lane. rewrite E, (unit_of 100 _ U) by lra. cbn [obind]. do 2 f_equal.
    rewrite vnorm_scale, (vnorm_eq (V 1 0 0) 1), Rabs_pos_eq by lra. ring.
  Qed.
  Example beside : exists t, local_coordinates (Straight (V 0 0 0) (V 100 0 0) (V 1 0 0) 100) (V 20 0 3) = Some (20, 3, t).
  Proof.
    apply (C84_straight_back (V 0 0 0) (V 100 0 0) _ east east_lane 20 3 (3 / 2 * PI)); [lra |].
    cbn [position]. f_equal.
    assert (U : dot (V 1 0 0) (V 1 0 0) = 1) by (unfold dot; cbn; ring).
    rewrite (coor_frame _ _ _ _ true U), fb_code by exact U. unfold fa. cbv zeta. cbn [vx vy vz].
    replace (1 * 1 + 0 * 0) with 1 by ring. rewrite sqrt_1. destruct (Req_EM_T 1 0) as [| _]; [lra |].
    replace (3 / 2 * PI) with (PI / 2 + PI) by lra. rewrite neg_cos, neg_sin, cos_PI2, sin_PI2. cbn [spin]. vecs; field.
  Qed.
End Example_lane.

Print Assumptions C84_straight_coordinates.
Print Assumptions C84_straight_cylinder.
Print Assumptions C84_straight_back.
Print Assumptions C84_straight_inverse_partial.
Print Assumptions C84_straight_level.
Print Assumptions C84_straight_inverse_refuted.
Print Assumptions C84_on_lane_refuted.
