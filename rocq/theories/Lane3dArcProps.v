(** C85: circular three-dimensional lanes. *)
From Coq Require Import Reals List ZArith Lra Lia Psatz.
From Verif Require Import Base Angle AngleSpec AngleProofs Lane3d Lane3dSpec Lane3dProofs Lane3dStraight Lane3dCircular.
Import ListNotations.
Open Scope R_scope.

Lemma unit_direction nv n : unit nv = Some n -> direction (V 0 0 0) nv = n.
Proof.
  intros H. destruct (unit_some _ _ H) as (_ & S & P).
  assert (dist nv (V 0 0 0) = vnorm nv) as D by (rewrite dist_norm; f_equal; vecs; ring).
  unfold direction. rewrite D. cbn [vx vy vz].
  assert (vx nv = vnorm nv * vx n) as X by (apply (f_equal vx) in S; cbn in S; lra).
  assert (vy nv = vnorm nv * vy n) as Y by (apply (f_equal vy) in S; cbn in S; lra).
  assert (vz nv = vnorm nv * vz n) as Z by (apply (f_equal vz) in S; cbn in S; lra).
  set (k := vnorm nv) in *. rewrite X, Y, Z. vecs; field; lra.
Qed.

(** The centers of a circular lane run anticlockwise about the normal, at distance [radius] from the center, from the
    point at the first phase to the point at the second phase; the length of the lane is the radius times the angle
    swept.  Phases are angles about the normal, anticlockwise when [right] and clockwise when not. *)
Theorem C85_arc : forall c r nv sp ep right, 0 < r -> nv <> V 0 0 0 -> proper sp ep right ->
  let n := direction (V 0 0 0) nv in let sign := if right then 1 else -1 in
  exists L sweep, circular_lane c r nv sp ep right = Some L
  /\ 0 < sweep <= 2 * PI /\ seg_length L = r * sweep
  /\ get_outer_center L 0 = Some (turned c n (sign * sp) (phase0 c n r))
  /\ get_outer_center L (seg_length L) = Some (turned c n (sign * ep) (phase0 c n r))
  /\ turned c n sweep (turned c n (sign * sp) (phase0 c n r)) = turned c n (sign * ep) (phase0 c n r)
  /\ forall l, exists q, get_outer_center L l = Some q /\ on_circle c n r q
       /\ (forall x, get_outer_center L (l + x) = Some (turned c n (x / r) q))
       /\ get_tang L l = Some (vsub (turned c n (PI / 2) q) c)
       /\ (forall t, position L l 0 t = Some q).
Proof.
  intros c r nv sp ep right Hr Hn Pr n sign.
  destruct (circular_make c r nv sp ep right Hr Hn Pr) as (n' & sp' & ep' & -> & Un & U & Sw & C1 & S1 & C2 & S2 & _).
  pose proof (unit_direction _ _ Un) as En. unfold n in *. clear n. rewrite En in *.
  assert (Sg : sign = spin right 1) by (destruct right; reflexivity). rewrite Sg. clear Sg sign.
  eexists. exists (spin right (ep' - sp')). split; [reflexivity |]. split; [exact Sw |]. split; [reflexivity |].
  destruct Sw as [Sw0 Sw1].
  assert (W : forall a x, turned c n' x (wheel c r n' a) = wheel c r n' (a + x)) by (intros; apply wheel_turn, U).
  assert (CS : forall a b, cos a = cos b -> sin a = sin b -> wheel c r n' a = wheel c r n' b).
  { intros a b A B. unfold wheel. rewrite A, B. reflexivity. }
  assert (E1 : wheel c r n' (spin right sp') = turned c n' (spin right 1 * sp) (phase0 c n' r)).
  { rewrite <- wheel_0, W. apply CS; rewrite Rplus_0_l, <- (spin_mul right sp), ?spin_cos, ?spin_sin; congruence. }
  assert (E2 : wheel c r n' (spin right ep') = turned c n' (spin right 1 * ep) (phase0 c n' r)).
  { rewrite <- wheel_0, W. apply CS; rewrite Rplus_0_l, <- (spin_mul right ep), ?spin_cos, ?spin_sin; congruence. }
  split; [| split; [| split]].
  - rewrite outer_wheel by assumption. rewrite <- E1. do 2 f_equal. field. lra.
  - rewrite outer_wheel by assumption. rewrite <- E2. do 2 f_equal. cbn [seg_length].
    rewrite (spin_mul right (ep' - sp')), (spin_mul right sp'), (spin_mul right ep'). field. lra.
  - rewrite <- E1, <- E2, W. f_equal. rewrite (spin_mul right (ep' - sp')), (spin_mul right sp'), (spin_mul right ep'). ring.
  - intros l. exists (wheel c r n' (spin right sp' + l / r)).
    assert (O : forall l, get_outer_center (Circular c r n' sp' ep' right (r * spin right (ep' - sp'))) l
                = Some (wheel c r n' (spin right sp' + l / r))) by (intros; apply outer_wheel; assumption).
    rewrite O. split; [reflexivity |].
    split; [apply wheel_on; [exact U | lra] |].
    split; [intros x; rewrite O, W; do 2 f_equal; field; lra |].
    split.
    + unfold get_tang. rewrite O. cbn [obind]. f_equal. unfold turned. rewrite cos_PI2, sin_PI2.
      set (q := wheel _ _ _ _). vecs; ring.
    + intros t. unfold position. rewrite O. cbn [obind]. set (a := spin right sp' + l / r).
      set (e := vadd (vscale (cos a) (fa n')) (vscale (sin a) (fb n'))).
      destruct (frame n' U) as (FA & FB & FAB & NA & NB & _).
      assert (Ee : dot e e = 1).
      { unfold e. repeat rewrite ?dot_scale_l, ?dot_scale_r, ?dot_add_l, ?dot_add_r. rewrite FA, FB, (dot_sym (fb n')), FAB.
        pose proof (sin2_cos2 a) as S. unfold Rsqr in S. lra. }
      assert (Oe : dot n' e = 0) by (unfold e; rewrite dot_add_r, !dot_scale_r, NA, NB; ring).
      destruct (triad n' e U Ee Oe) as (M & _).
      replace (cross n' (vsub (wheel c r n' a) c)) with (vscale r (cross n' e)) by (unfold wheel; fold e; vecs; ring).
      rewrite (unit_of r _ M Hr). cbn [obind]. f_equal. rewrite coor_wheel by exact M. unfold wheel at 1. vecs; ring.
Qed.

(** The lateral coordinate of a point that is not on the axis of the circle is its distance from the closest point of
    the circle.  The longitudinal coordinate gives that closest point up to a fraction of the radius; it is at
    most the length and less than a full circle behind it when [right], and between 0 and a full circle when not. *)
Theorem C85_closest : forall c r nv sp ep right L, 1 / 1000 <= r -> nv <> V 0 0 0 -> proper sp ep right ->
  circular_lane c r nv sp ep right = Some L ->
  let n := direction (V 0 0 0) nv in
  forall p, (forall h, p <> vadd c (vscale h n)) ->
  exists l d t q q', local_coordinates L p = Some (l, d, t)
  /\ on_circle c n r q /\ d = dist p q /\ (forall x, on_circle c n r x -> d <= dist p x)
  /\ get_outer_center L l = Some q' /\ dist q' q <= r * (1 / 100000 * (2 + blur n))
  /\ 0 <= t < 2 * PI
  /\ (if right then seg_length L - r * (2 * PI) <= l <= seg_length L else 0 <= l <= r * (2 * PI)).
Proof.
  intros c r nv sp ep right L Hr Hn Pr HL n p Hp. assert (Hr0 : 0 < r) by lra.
  destruct (circular_make c r nv sp ep right Hr0 Hn Pr) as (n' & sp' & ep' & E & Un & U & Sw & _ & _ & _ & _ & Rg).
  rewrite E in HL. injection HL as <-. clear E.
  pose proof (unit_direction _ _ Un) as En. unfold n in *. clear n. rewrite En in *.
  destruct (off_axis c n' p U) as (e & rho & h & Ee & Oe & Hrho & P).
  { intros Z. apply (Hp (dot (vsub p c) n')). 
    assert (vsub p c = vscale (dot (vsub p c) n') n') as V1.
    { transitivity (vadd (vscale (dot (vsub p c) n') n') (cross (cross n' (vsub p c)) n')).
      - transitivity (vscale (dot n' n') (vsub p c)); [rewrite U; vecs; ring | unfold dot; vecs; ring].
      - rewrite Z. vecs; ring. }
    set (k := dot (vsub p c) n') in *. clearbody k. injection V1 as A B C. apply v3_ext; cbn; lra. }
  assert (R3 : pyround r 3 <> 0).
  { intros Z. apply pyround3 in Z. rewrite Rabs_pos_eq in Z; lra. }
  destruct (circular_core c r n' e rho h right U Ee Oe Hrho R3 Hr0) as (th & ph & a & tau & Q & _ & G & Rp & Cp & Rt & _).
  rewrite <- P in *. set (q := vadd c (vscale r e)) in *.
  destruct (shift_spec sp' ep' right ph Rp Sw Rg) as (Cc & Ss & Rph). cbv zeta in *.
  set (ph2 := if Rlt_dec sp' _ then _ else _) in *.
  exists (spin right 1 * r * (ph2 - sp')), (dist p q), th, q, (wheel c r n' (spin right ph2)).
  split.
  { unfold local_coordinates. rewrite G. cbn [obind]. cbv zeta. fold ph2. do 3 f_equal.
    rewrite (spin_mul right (ep' - sp')). assert (ep' - sp' <> 0) by (intros Z; rewrite Z in Sw; destruct right; cbn in Sw; lra).
    field. assumption. }
  split; [rewrite Q; apply wheel_on; [exact U | lra] |]. split; [reflexivity |].
  split. { intros x Hx. rewrite P. unfold q. apply closest; try assumption; lra. }
  split. { rewrite outer_wheel by (try assumption; lra). do 2 f_equal.
    transitivity (spin right 1 * sp' + spin right 1 * (ph2 - sp')); [rewrite (spin_mul right sp'); field; lra |].
    rewrite (spin_mul right ph2). ring. }
  split.
  { rewrite Q, wheel_close by (try assumption; lra). apply Rmult_le_compat_l; [lra |].
    rewrite spin_cos, spin_sin, Cc, Ss, <- spin_sin, <- (spin_cos right). exact Cp. }
  split; [exact Rt |]. cbn [seg_length]. destruct right; cbn [spin] in *.
  - split.
    + assert (r * (ep' - 2 * PI) <= r * ph2) by (apply Rmult_le_compat_l; lra). lra.
    + assert (r * ph2 <= r * ep') by (apply Rmult_le_compat_l; lra). lra.
  - split.
    + assert (r * ph2 <= r * sp') by (apply Rmult_le_compat_l; lra). lra.
    + assert (r * (sp' - 2 * PI) <= r * ph2) by (apply Rmult_le_compat_l; lra). lra.
Qed.

(** A position beside the lane, closer to it than the center, has the lateral coordinate it was made from, and a
    longitudinal coordinate of nearly the same place. *)
Theorem C85_back : forall c r nv sp ep right L, 1 / 1000 <= r -> nv <> V 0 0 0 -> proper sp ep right ->
  circular_lane c r nv sp ep right = Some L ->
  forall l lat t p q, 0 <= lat < r -> position L l lat t = Some p -> get_outer_center L l = Some q ->
  exists l' t' q', local_coordinates L p = Some (l', lat, t') /\ get_outer_center L l' = Some q'
    /\ dist q' q <= r * (1 / 100000 * (2 + blur (direction (V 0 0 0) nv))).
Proof.
  intros c r nv sp ep right L Hr Hn Pr HL l lat t p q Hlat Hp Hq. assert (Hr0 : 0 < r) by lra.
  destruct (circular_make c r nv sp ep right Hr0 Hn Pr) as (n & sp' & ep' & E & Un & U & Sw & _ & _ & _ & _ & Rg).
  rewrite E in HL. injection HL as <-. clear E.
  pose proof (unit_direction _ _ Un) as En. rewrite En in *.
  rewrite outer_wheel in Hq by (try assumption; lra). injection Hq as <-.
  rewrite circular_position in Hp by (try assumption; lra). cbv zeta in Hp. injection Hp as Hp.
  set (a := spin right sp' + l / r) in *. destruct (spoke n a U) as [Ee Oe]. cbv zeta in *.
  set (e := vadd (vscale (cos a) (fa n)) (vscale (sin a) (fb n))) in *.
  change (wheel c r n a) with (vadd c (vscale r e)) in *.
  destruct (position_split c r n e lat t U Ee Oe Hlat) as (rho & h & Hrho & P). rewrite Hp in P.
  assert (R3 : pyround r 3 <> 0).
  { intros Z. apply pyround3 in Z. rewrite Rabs_pos_eq in Z; lra. }
  destruct (circular_core c r n e rho h right U Ee Oe Hrho R3 Hr0) as (th & ph & a' & tau & Q & _ & G & Rp & Cp & Rt & _).
  rewrite <- P in *. set (q := vadd c (vscale r e)) in *.
  destruct (triad n e U Ee Oe) as (M & _).
  assert (D : dist p q = lat) by (rewrite <- Hp; apply wheel_dist; [exact M | lra]).
  destruct (shift_spec sp' ep' right ph Rp Sw Rg) as (Cc & Ss & Rph). cbv zeta in *.
  set (ph2 := if Rlt_dec sp' _ then _ else _) in *.
  exists (spin right 1 * r * (ph2 - sp')), th, (wheel c r n (spin right ph2)).
  split.
  { unfold local_coordinates. rewrite G, D. cbn [obind]. cbv zeta. fold ph2. do 3 f_equal.
    rewrite (spin_mul right (ep' - sp')). assert (ep' - sp' <> 0) by (intros Z; rewrite Z in Sw; destruct right; cbn in Sw; lra).
    field. assumption. }
  split. { rewrite outer_wheel by (try assumption; lra). do 2 f_equal.
    transitivity (spin right 1 * sp' + spin right 1 * (ph2 - sp')); [rewrite (spin_mul right sp'); field; lra |].
    rewrite (spin_mul right ph2). ring. }
  rewrite Q, wheel_close by (try assumption; lra). apply Rmult_le_compat_l; [lra |].
  rewrite spin_cos, spin_sin, Cc, Ss, <- spin_sin, <- (spin_cos right). exact Cp.
Qed.

(** Converting to coordinates and back, for level lanes with [right].  Missing: lanes in other planes, where the
    lateral coordinate and the place along the lane survive (see C85_closest) but the angle need not (see
    C85_upright_refuted), and lanes without [right], for which it fails. *)
Theorem C85_inverse_partial : forall c r z sp ep L, 1 / 1000 <= r -> z <> 0 -> proper sp ep true ->
  circular_lane c r (V 0 0 z) sp ep true = Some L ->
  forall p l lat t, (vx p <> vx c \/ vy p <> vy c) -> local_coordinates L p = Some (l, lat, t) ->
  exists q, position L l lat t = Some q
    /\ dist q p <= r / 50000 + lat / 50000 + Rmax (1 / 1000) (lat / 50000).
Proof.
  intros c r z sp ep L Hr Hz Pr HL p l lat t Hp Hl. assert (Hr0 : 0 < r) by lra.
  assert (Hn : V 0 0 z <> V 0 0 0) by (intros [= H]; contradiction).
  destruct (circular_make c r _ sp ep true Hr0 Hn Pr) as (n & sp' & ep' & E & Un & U & Sw & _ & _ & _ & _ & Rg).
  rewrite E in HL. injection HL as <-. clear E.
  assert (N : vx n = 0 /\ vy n = 0 /\ vz n * vz n = 1).
  { destruct (unit_some _ _ Un) as (_ & S & P). apply (f_equal vx) in S as X. apply (f_equal vy) in S as Y. cbn in X, Y.
    set (k := vnorm _) in *. assert (vx n = 0) by (apply Rmult_integral in X; destruct X; lra).
    assert (vy n = 0) by (apply Rmult_integral in Y; destruct Y; lra). unfold dot in U. rewrite H, H0 in U. repeat split; lra. }
  destruct N as (Nx & Ny & Nz).
  assert (Bn : blur n = 0) by (unfold blur; rewrite Ny; destruct (Req_EM_T 0 0); [reflexivity | lra]).
  destruct (off_axis c n p U) as (e & rho & h & Ee & Oe & Hrho & P).
  { intros Z. apply (f_equal vx) in Z as X. apply (f_equal vy) in Z as Y. cbn in X, Y. rewrite Nx, Ny in *.
    assert (vz n <> 0) by (intros W; rewrite W in Nz; lra).
    assert (vz n * (vx p - vx c) = 0) as X' by lra. assert (vz n * (vy p - vy c) = 0) as Y' by lra.
    apply Rmult_integral in X', Y'. destruct X', Y', Hp; lra. }
  assert (R3 : pyround r 3 <> 0).
  { intros Z. apply pyround3 in Z. rewrite Rabs_pos_eq in Z; lra. }
  destruct (circular_core c r n e rho h true U Ee Oe Hrho R3 Hr0) as (th & ph & a & tau & Q & T & G & Rp & Cp & Rt & Ct).
  rewrite <- P in *. set (q := vadd c (vscale r e)) in *. cbn [spin] in *.
  destruct (shift_spec sp' ep' true ph Rp Sw Rg) as (Cc & Ss & Rph). cbv zeta in *. cbn [spin] in *.
  unfold local_coordinates in Hl. rewrite G in Hl. cbn [obind] in Hl. cbv zeta in Hl.
  set (ph2 := if Rlt_dec sp' _ then _ else _) in *. injection Hl as <- <- <-.
  change (r * (ep' - sp')) with (r * spin true (ep' - sp')).
  rewrite circular_position by (try assumption; cbn [spin]; lra). cbv zeta. cbn [spin]. eexists. split; [reflexivity |].
  replace (sp' + (ph2 - sp') * (r * (ep' - sp')) / (ep' - sp') / r) with ph2 by (field; lra).
  set (d := dist p q) in *. assert (Hd : 0 <= d) by apply dist_pos.
  destruct (spoke n ph2 U) as [Ee' Oe']. cbv zeta in *. set (e' := vadd (vscale (cos ph2) (fa n)) (vscale (sin ph2) (fb n))) in *.
  destruct (triad n e U Ee Oe) as (M & _). destruct (triad n e' U Ee' Oe') as (M' & _).
  assert (Mz : vz (cross n e) = 0) by (cbn; rewrite Nx, Ny; ring).
  assert (Mz' : vz (cross n e') = 0) by (cbn; rewrite Nx, Ny; ring).
  destruct (level_frame _ M Mz) as (FA & FB & BM). destruct (level_frame _ M' Mz') as (FA' & FB' & _).
  rewrite BM in Ct. rewrite Bn in Cp.
  assert (Cq : dist (wheel c r n ph2) q <= r * (1 / 100000 * 2)).
  { rewrite Q, wheel_close by (try assumption; lra). apply Rmult_le_compat_l; [lra |]. rewrite Cc, Ss.
    replace (1 / 100000 * 2) with (1 / 100000 * (2 + 0)) by ring. exact Cp. }
  assert (De : dist e' e <= 1 / 100000 * 2).
  { assert (wheel c r n ph2 = vadd c (vscale r e')) as W by reflexivity. rewrite W in Cq. unfold q in Cq.
    rewrite dist_norm in Cq. replace (vsub _ _) with (vscale r (vsub e' e)) in Cq by (vecs; ring).
    rewrite vnorm_scale, Rabs_pos_eq, <- dist_norm in Cq by lra. apply Rmult_le_reg_l with r; lra. }
  set (q1 := wheel c r n ph2) in *.
  pose proof (dist_tri (wheel q1 d (cross n e') th) (wheel q d (cross n e) th) p) as T1.
  assert (T2 : dist (wheel q1 d (cross n e') th) (wheel q d (cross n e) th) <= dist q1 q + d * dist e' e).
  { rewrite !dist_norm. unfold wheel. rewrite FA, FB, FA', FB'.
    replace (vsub _ _) with (vadd (vsub q1 q) (vscale (d * cos th) (V (vy (cross n e') - vy (cross n e)) (vx (cross n e) - vx (cross n e')) 0)))
      by (vecs; ring).
    eapply Rle_trans; [apply vnorm_tri |]. apply Rplus_le_compat_l. rewrite vnorm_scale, Rabs_mult, (Rabs_pos_eq d) by lra.
    rewrite Rmult_assoc. apply Rmult_le_compat_l; [exact Hd |].
    assert (Rabs (cos th) <= 1) as C1 by (apply Rabs_le; pose proof (COS_bound th); lra).
    set (x := V _ _ _). assert (X : vnorm x <= vnorm (vsub e' e)).
    { apply sqrt_le_1; [apply dot_pos | apply dot_pos |]. unfold x. clearbody e'. unfold dot; cbn. rewrite Nx, Ny.
      apply Rle_trans with (vz n * vz n * ((vx e' - vx e) * (vx e' - vx e) + (vy e' - vy e) * (vy e' - vy e))); [right; ring |].
      rewrite Nz. pose proof (Rle_0_sqr (vz e' - vz e)) as S. unfold Rsqr in S. lra. }
    pose proof (vnorm_pos x). pose proof (Rabs_pos (cos th)). nra. }
  unfold tol in Ct. rewrite Rplus_0_r in Ct.
  replace (d * (1 / 100000 * 2)) with (d / 50000) in Ct by field.
  assert (d * dist e' e <= d * (1 / 100000 * 2)) by (apply Rmult_le_compat_l; assumption). lra.
Qed.

(** A lane without [right]: the coordinates of a point above it stand for a point below it. *)
Theorem C85_inverse_refuted : exists c r nv sp ep L p q l t, 1 / 1000 <= r /\ nv <> V 0 0 0 /\ proper sp ep false
  /\ circular_lane c r nv sp ep false = Some L /\ local_coordinates L p = Some (l, 1, t) /\ 0 <= l <= seg_length L
  /\ position L l 1 t = Some q /\ dist q p = 2.
Proof.
  set (z := V 0 0 1). assert (Uz : dot z z = 1) by (unfold dot, z; cbn; ring).
  pose proof PI_RGT_0 as HP.
  assert (Pr : proper (PI / 2) 0 false) by (unfold proper; repeat split; try lra; intros (? & ? & ?); try discriminate; lra).
  assert (Fa : fa z = V 1 0 0).
  { unfold fa, z; cbn. replace (0 * 0 + 0 * 0) with 0 by ring. rewrite sqrt_0. destruct (Req_EM_T 0 0); [reflexivity | lra]. }
  assert (Fb : fb z = V 0 1 0) by (unfold fb; rewrite Fa; unfold z; vecs; ring).
  exists (V 0 0 0), 10, z, (PI / 2), 0. eexists. exists (V 10 0 1), (V 10 0 (-1)). exists (10 * (PI / 2)), (PI / 2).
  split; [lra |]. split; [intros [= H]; lra |]. split; [exact Pr |].
  split.
  { unfold circular_lane. assert (unit z = Some z) as ->.
    { transitivity (unit (vscale 1 z)); [f_equal; vecs; ring | apply unit_of; lra]. }
    cbn [obind]. cbv zeta. destruct (Rle_dec (PI / 2) 0); [exfalso; lra |]. rewrite Rmax_left by lra.
    destruct (Rlt_dec (2 * PI) (PI / 2)); [exfalso; lra |]. reflexivity. }
  replace (Rabs (10 * (0 - 0 - (PI / 2 - 0)))) with (10 * (PI / 2)).
  2:{ rewrite Rabs_left by lra. lra. }
  replace (PI / 2 - 0) with (PI / 2) by ring. replace (0 - 0) with 0 by ring.
  assert (Pd : dist (V 10 0 1) (V 10 0 0) = 1) by (apply dist_eq; [lra | unfold dot; cbn; lra]).
  assert (R1 : pyround 1 3 <> 0) by (intros Z; apply pyround3 in Z; rewrite Rabs_R1 in Z; lra).
  assert (R10 : pyround 10 3 <> 0) by (intros Z; apply pyround3 in Z; rewrite Rabs_pos_eq in Z by lra; lra).
  assert (PZ : forall k, pyround (IZR k) 5 = IZR k).
  { intros k. unfold pyround. rewrite pow_IZR, <- mult_IZR, round_even_IZR, mult_IZR. field.
    rewrite <- pow_IZR. apply pow_nonzero. lra. }
  split.
  { unfold local_coordinates, get_rtp_by_coor.
    replace (cross z (vsub (V 10 0 1) (V 0 0 0))) with (vscale 10 (V 0 1 0)) by (unfold z; vecs; ring).
    rewrite unit_of by (unfold dot; cbn; lra). cbn [obind].
    replace (cross (V 0 1 0) z) with (vscale 1 (V 1 0 0)) by (unfold z; vecs; ring).
    rewrite unit_of by (unfold dot; cbn; lra). cbn [obind].
    replace (vadd (V 0 0 0) (vscale 10 (V 1 0 0))) with (V 10 0 0) by (vecs; ring).
    rewrite <- dist_norm, Pd.
    assert (G1 : get_theta_by_coor (V 10 0 1) (V 0 1 0) (V 10 0 0) 1 false = Some (PI / 2)).
    { unfold get_theta_by_coor. destruct (Req_EM_T (pyround 1 3) 0) as [| _]; [contradiction |]. cbv zeta. cbn [vx vy vz vscale vsub].
      replace (0 * 0 + 1 * 1) with 1 by ring. rewrite sqrt_1. destruct (Req_EM_T 1 0); [lra |].
      replace (/ 1 * (1 - 0) / (-1 * (Ropp 1 / 1))) with 1 by field.
      rewrite (PZ 1%Z). 
      replace ((/ 1 * (10 - 10) - -1 * (0 * 0 / 1 / 1) * 1) / (1 / 1)) with 0 by field. rewrite (PZ 0%Z).
      unfold theta_of. rewrite (PZ 0%Z). destruct (Req_EM_T 0 0); [| lra]. destruct (Rlt_dec 0 1); [reflexivity | lra]. }
    rewrite G1. cbn [obind].
    assert (G2 : get_theta_by_coor (V 10 0 0) z (V 0 0 0) 10 false = Some 0).
    { unfold get_theta_by_coor. destruct (Req_EM_T (pyround 10 3) 0) as [| _]; [contradiction |]. cbv zeta. unfold z. cbn [vx vy vz vscale vsub].
      replace (0 * 0 + 0 * 0) with 0 by ring. rewrite sqrt_0. destruct (Req_EM_T 0 0); [| lra]. destruct (Req_EM_T 1 0); [lra |].
      destruct (Rlt_dec 1 0); [lra |]. replace (/ 10 * (0 - 0)) with 0 by field. replace (/ 10 * (10 - 0)) with 1 by field.
      rewrite (PZ 0%Z), (PZ 1%Z). unfold theta_of. rewrite (PZ 1%Z). destruct (Req_EM_T 1 0); [lra |].
      replace (- 0 / 1) with 0 by field. rewrite atan_0. destruct (Rlt_dec 1 0); [lra |]. destruct (Rlt_dec 0 0); [lra | reflexivity]. }
    rewrite G2. cbn [obind]. cbv zeta. destruct (Rlt_dec 0 (PI / 2)); [| lra]. destruct (Rlt_dec 0 0); [lra |].
    destruct (Rlt_dec (PI / 2) 0); [lra |]. do 3 f_equal. field. lra. }
  cbn [seg_length]. split; [lra |]. split.
  { replace (10 * (PI / 2)) with (10 * spin false (0 - PI / 2)) at 1 by (cbn [spin]; lra).
    rewrite circular_position by (try exact Uz; cbn [spin]; lra). cbv zeta. f_equal. cbn [spin].
    replace (- (PI / 2) + 10 * (PI / 2) / 10) with 0 by field. unfold wheel at 2. rewrite cos_0, sin_0, Fa, Fb.
    assert (M : cross z (vadd (vscale 1 (V 1 0 0)) (vscale 0 (V 0 1 0))) = V 0 1 0) by (unfold z; vecs; ring). rewrite M.
    unfold wheel. destruct (level_frame (V 0 1 0)) as (-> & -> & _); [unfold dot; cbn; ring | reflexivity |].
    rewrite cos_PI2, sin_PI2. vecs; ring. }
  apply dist_eq; [lra | unfold dot; cbn; lra].
Qed.

Lemma pyround5_near x k : Rabs (x - IZR k) < 5 / 1000000 -> pyround x 5 = IZR k.
Proof.
  intros H. pose proof (pyround5 x) as E. unfold pyround in *. set (m := round_even (x * 10 ^ 5)) in *. replace (10 ^ 5) with 100000 in * by (cbn; ring).
  assert (m = k * 100000)%Z as ->.
  { assert (A : Rabs (IZR m / 100000 - IZR k) < 1 / 100000).
    { replace (IZR m / 100000 - IZR k) with ((IZR m / 100000 - x) + (x - IZR k)) by ring. eapply Rle_lt_trans; [apply Rabs_triang |]. lra. }
    apply Rabs_def2 in A. assert (B : IZR (-1) < IZR (m - k * 100000) < IZR 1) by (rewrite minus_IZR, mult_IZR; lra).
    destruct B as [B1 B2]. apply lt_IZR in B1, B2. lia. }
  rewrite mult_IZR. field.
Qed.

(** A lane on an upright circle: where it runs straight up, the coordinates of a point on one side of it stand for a
    point on the other side, since the direction in which angles are measured flips there. *)
Theorem C85_upright_refuted : exists c r nv sp ep L p q l t, 1 / 1000 <= r /\ nv <> V 0 0 0 /\ proper sp ep true
  /\ circular_lane c r nv sp ep true = Some L /\ local_coordinates L p = Some (l, 1, t) /\ 0 <= l <= seg_length L
  /\ position L l 1 t = Some q /\ 2 <= dist q p.
Proof.
  set (S := 2000000 / 1000000000001). set (C := 999999999999 / 1000000000001).
  assert (HS : 0 < S < 3 / 1000000) by (unfold S; lra). assert (HC : 1 - 1 / 1000000 < C < 1) by (unfold C; lra).
  assert (SC : S * S + C * C = 1) by (unfold S, C; field). clearbody S C.
  set (x := V 1 0 0). assert (Ux : dot x x = 1) by (unfold dot, x; cbn; ring). pose proof PI_RGT_0 as HP.
  assert (Pr : proper (PI / 2) (3 / 2 * PI) true) by (unfold proper; repeat split; try lra; intros (? & ? & ?); try discriminate; lra).
  assert (Fa : fa x = V 0 (-1) 0).
  { unfold fa, x; cbn. replace (1 * 1 + 0 * 0) with 1 by ring. rewrite sqrt_1. destruct (Req_EM_T 1 0); [lra |]. vecs; field. }
  assert (Fb : fb x = V 0 0 (-1)) by (unfold fb; rewrite Fa; unfold x; vecs; ring).
  exists (V 0 0 0), 10, x, (PI / 2), (3 / 2 * PI). eexists. exists (V 1 (10 * C) (10 * S)), (V (-1) 10 0). exists (10 * (PI / 2)), PI.
  split; [lra |]. split; [intros [= H]; lra |]. split; [exact Pr |].
  split.
  { unfold circular_lane. assert (unit x = Some x) as ->.
    { transitivity (unit (vscale 1 x)); [f_equal; vecs; ring | apply unit_of; lra]. }
    cbn [obind]. cbv zeta. destruct (Rle_dec (3 / 2 * PI) (PI / 2)); [exfalso; lra |]. rewrite Rmax_right by lra.
    destruct (Rlt_dec (2 * PI) (3 / 2 * PI)); [exfalso; lra |]. reflexivity. }
  replace (Rabs (10 * (3 / 2 * PI - 0 - (PI / 2 - 0)))) with (10 * PI) by (rewrite Rabs_pos_eq by lra; lra).
  replace (PI / 2 - 0) with (PI / 2) by ring. replace (3 / 2 * PI - 0) with (3 / 2 * PI) by ring.
  assert (Pd : dist (V 1 (10 * C) (10 * S)) (V 0 (10 * C) (10 * S)) = 1) by (apply dist_eq; [lra | unfold dot; cbn; ring]).
  assert (R1 : pyround 1 3 <> 0) by (intros Z; apply pyround3 in Z; rewrite Rabs_R1 in Z; lra).
  assert (R10 : pyround 10 3 <> 0) by (intros Z; apply pyround3 in Z; rewrite Rabs_pos_eq in Z by lra; lra).
  assert (PZ : forall k, pyround (IZR k) 5 = IZR k) by (intros k; apply pyround5_near; replace (IZR k - IZR k) with 0 by ring; rewrite Rabs_R0; lra).
  assert (TP : theta_of 0 (-1) = PI).
  { unfold theta_of. rewrite (PZ (-1)%Z). destruct (Req_EM_T (-1) 0); [lra |]. replace (0 / -1) with 0 by field. rewrite atan_0. destruct (Rlt_dec (-1) 0); [ring | lra]. }
  split.
  { unfold local_coordinates, get_rtp_by_coor.
    replace (cross x (vsub (V 1 (10 * C) (10 * S)) (V 0 0 0))) with (vscale 10 (V 0 (- S) C)) by (unfold x; vecs; ring).
    rewrite unit_of by (unfold dot; cbn; nra). cbn [obind].
    replace (cross (V 0 (- S) C) x) with (vscale 1 (V 0 C S)) by (unfold x; vecs; ring).
    rewrite unit_of by (unfold dot; cbn; nra). cbn [obind].
    replace (vadd (V 0 0 0) (vscale 10 (V 0 C S))) with (V 0 (10 * C) (10 * S)) by (vecs; ring).
    rewrite <- dist_norm, Pd.
    assert (G1 : get_theta_by_coor (V 1 (10 * C) (10 * S)) (V 0 (- S) C) (V 0 (10 * C) (10 * S)) 1 true = Some PI).
    { unfold get_theta_by_coor. destruct (Req_EM_T (pyround 1 3) 0) as [| _]; [contradiction |]. cbv zeta. cbn [vx vy vz vscale vsub].
      replace (0 * 0 + - S * - S) with (S * S) by ring. rewrite sqrt_square by lra. destruct (Req_EM_T S 0); [lra |]. destruct (Req_EM_T (- S) 0); [lra |].
      replace (/ 1 * (10 * S - 10 * S) / (- S / 1)) with 0 by (field; lra). rewrite (PZ 0%Z).
      replace ((/ 1 * (1 - 0) - 0 * C / S / 1 * 0) / (- S / S)) with (-1) by (field; lra). rewrite (PZ (-1)%Z). f_equal. exact TP. }
    rewrite G1. cbn [obind].
    assert (G2 : get_theta_by_coor (V 0 (10 * C) (10 * S)) x (V 0 0 0) 10 true = Some PI).
    { unfold get_theta_by_coor. destruct (Req_EM_T (pyround 10 3) 0) as [| _]; [contradiction |]. cbv zeta. unfold x. cbn [vx vy vz vscale vsub].
      replace (1 * 1 + 0 * 0) with 1 by ring. rewrite sqrt_1. destruct (Req_EM_T 1 0); [lra |]. destruct (Req_EM_T 0 0); [| lra].
      replace (/ 10 * (10 * S - 0) / (Ropp 1 / 1)) with (- S) by field.
      rewrite (pyround5_near (- S) 0) by (rewrite Rminus_0_r, Rabs_Ropp, Rabs_pos_eq by lra; lra).
      replace ((/ 10 * (10 * C - 0) - 0 * 0 / 1 / 1 * 0) / (Ropp 1 / 1)) with (- C) by field.
      rewrite (pyround5_near (- C) (-1)) by (replace (- C - -1) with (1 - C) by ring; rewrite Rabs_pos_eq by lra; lra). f_equal. exact TP. }
    rewrite G2. cbn [obind]. cbv zeta. destruct (Rlt_dec PI (PI / 2)); [lra |]. destruct (Rlt_dec (PI / 2) PI); [| lra].
    destruct (Rlt_dec (3 / 2 * PI) PI); [lra |]. do 3 f_equal. field. lra. }
  cbn [seg_length]. split; [lra |]. split.
  { replace (10 * PI) with (10 * spin true (3 / 2 * PI - PI / 2)) at 1 by (cbn [spin]; lra).
    rewrite circular_position by (try exact Ux; cbn [spin]; lra). cbv zeta. f_equal. cbn [spin].
    replace (PI / 2 + 10 * (PI / 2) / 10) with PI by field. unfold wheel at 2. rewrite cos_PI, sin_PI, Fa, Fb.
    assert (M : cross x (vadd (vscale (-1) (V 0 (-1) 0)) (vscale 0 (V 0 0 (-1)))) = V 0 0 1) by (unfold x; vecs; ring). rewrite M.
    assert (Fz : fa (V 0 0 1) = V 1 0 0).
    { unfold fa; cbn. replace (0 * 0 + 0 * 0) with 0 by ring. rewrite sqrt_0. destruct (Req_EM_T 0 0); [reflexivity | lra]. }
    assert (Fz' : fb (V 0 0 1) = V 0 1 0) by (unfold fb; rewrite Fz; vecs; ring).
    unfold wheel. rewrite Fz, Fz', cos_PI, sin_PI. vecs; ring. }
  rewrite dist_norm. unfold vnorm. rewrite <- (sqrt_square 2) by lra. apply sqrt_le_1_alt. unfold dot; cbn. nra.
Qed.

Module Example_arc.
  (** Three quarters of a circle of radius 10, as in SimpleMap6: it begins at (10, 0, 0), goes through (0, 10, 0) and ends
      at (0, -10, 0). *)
  Definition up := V 0 0 1.
  Example up_nz : up <> V 0 0 0. Proof. intros [= H]; lra. Qed.
  Example arc_ok : proper 0 (3 / 2 * PI) true.
  Proof. pose proof PI_RGT_0. unfold proper; repeat split; try lra; intros (? & ? & ?); try discriminate; lra. Qed.
  Example arc : exists L, circular_lane (V 0 0 0) 10 up 0 (3 / 2 * PI) true = Some L
    /\ get_outer_center L 0 = Some (V 10 0 0) /\ get_outer_center L (10 * (PI / 2)) = Some (V 0 10 0).
  Proof.
    destruct (C85_arc (V 0 0 0) 10 up 0 (3 / 2 * PI) true ltac:(lra) up_nz arc_ok) as (L & sw & E & _ & _ & A & _ & _ & Q).
    exists L. split; [exact E |]. destruct (Q 0) as (q & Hq & _ & Tq & _). rewrite A in Hq. injection Hq as Hq.
    assert (q = V 10 0 0) as ->.
    { subst q. replace (direction (V 0 0 0) up) with up.
      - rewrite Rmult_0_r. unfold turned, phase0, up; cbn [vx vy vz]. replace (0 * 0 + 0 * 0) with 0 by ring. rewrite sqrt_0.
        destruct (Req_EM_T 0 0); [| lra]. cbn [vx vy vz]. rewrite cos_0, sin_0. apply v3_ext; cbn; ring.
      - symmetry. apply unit_direction. unfold up. rewrite <- (unit_of 1 (V 0 0 1)); [f_equal; vecs; ring | unfold dot; cbn; ring | lra]. }
    rewrite A, Hq. split; [reflexivity |].
    replace (10 * (PI / 2)) with (0 + 10 * (PI / 2)) by ring. rewrite Tq. f_equal.
    replace (direction (V 0 0 0) up) with up.
    - replace (10 * (PI / 2) / 10) with (PI / 2) by field. unfold turned, up; cbn. rewrite cos_PI2, sin_PI2. apply v3_ext; cbn; ring.
    - symmetry. apply unit_direction. unfold up. rewrite <- (unit_of 1 (V 0 0 1)); [f_equal; vecs; ring | unfold dot; cbn; ring | lra].
  Qed.
  (** A point outside of it that is not on its axis. *)
  Example beside : forall h, V 12 0 3 <> vadd (V 0 0 0) (vscale h (direction (V 0 0 0) up)).
  Proof. intros h [= H _ _]. unfold Rdiv in H. lra. Qed.
End Example_arc.

Print Assumptions C85_arc.
Print Assumptions C85_closest.
Print Assumptions C85_back.
Print Assumptions C85_inverse_partial.
Print Assumptions C85_inverse_refuted.
Print Assumptions C85_upright_refuted.
