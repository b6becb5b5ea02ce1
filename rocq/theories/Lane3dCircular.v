(** Circular three-dimensional lanes. *)
From Coq Require Import Reals List ZArith Lra Lia Psatz.
From Verif Require Import Base Angle AngleSpec AngleProofs Lane3d Lane3dSpec Lane3dProofs Lane3dStraight.
Import ListNotations.
Open Scope R_scope.

(** The point at an angle of the circle. *)
Definition wheel (c : v3) (r : R) (n : v3) (a : R) : v3 :=
  vadd c (vscale r (vadd (vscale (cos a) (fa n)) (vscale (sin a) (fb n)))).

Lemma wheel_turn c r n a x : dot n n = 1 -> turned c n x (wheel c r n a) = wheel c r n (a + x).
Proof.
  intros U. destruct (frame n U) as (FA & FB & FAB & NA & NB & XB & XN). unfold wheel.
  set (v := vscale r (vadd (vscale (cos a) (fa n)) (vscale (sin a) (fb n)))).
  assert (X : cross n v = vscale r (vadd (vscale (cos a) (fb n)) (vscale (- sin a) (fa n)))).
  { assert (cross n (fa n) = fb n) as XA by reflexivity.
    transitivity (vscale r (vadd (vscale (cos a) (cross n (fa n))) (vscale (sin a) (cross n (fb n))))); [unfold v; vecs; ring |].
    rewrite XA, XB. vecs; ring. }
  assert (T : turned c n x (vadd c v) = vadd c (vadd (vscale (cos x) v) (vscale (sin x) (cross n v)))) by (unfold turned; vecs; ring).
  rewrite T, X, cos_plus, sin_plus. unfold v. vecs; ring.
Qed.
Lemma wheel_dist c r n a : dot n n = 1 -> 0 <= r -> dist (wheel c r n a) c = r.
Proof.
  intros U Hr. destruct (frame n U) as (FA & FB & FAB & _). apply dist_eq; [exact Hr |].
  unfold wheel. replace (vsub _ c) with (vscale r (vadd (vscale (cos a) (fa n)) (vscale (sin a) (fb n)))) by (vecs; ring).
  repeat rewrite ?dot_scale_l, ?dot_scale_r, ?dot_add_l, ?dot_add_r. rewrite FA, FB, (dot_sym (fb n)), FAB.
  pose proof (sin2_cos2 a) as S. unfold Rsqr in S.
  transitivity (r * r * (sin a * sin a + cos a * cos a)); [ring | rewrite S; ring].
Qed.
Lemma wheel_plane c r n a : dot n n = 1 -> dot n (vsub (wheel c r n a) c) = 0.
Proof.
  intros U. destruct (frame n U) as (FA & FB & FAB & NA & NB & _). unfold wheel.
  replace (vsub _ c) with (vscale r (vadd (vscale (cos a) (fa n)) (vscale (sin a) (fb n)))) by (vecs; ring).
  rewrite dot_scale_r, dot_add_r, !dot_scale_r, NA, NB. ring.
Qed.
Lemma wheel_on c r n a : dot n n = 1 -> 0 <= r -> on_circle c n r (wheel c r n a).
Proof.
  intros U Hr. split; [apply wheel_dist; assumption |]. apply (wheel_plane c r n a U).
Qed.
Lemma wheel_0 c r n : wheel c r n 0 = phase0 c n r.
Proof.
  unfold wheel, phase0, fa. rewrite cos_0, sin_0. cbv zeta. destruct (Req_EM_T _ 0); vecs; unfold Rdiv; ring.
Qed.
Lemma wheel_close c r n a b : dot n n = 1 -> 0 <= r ->
  dist (wheel c r n a) (wheel c r n b) = r * norm (cos a - cos b) (sin a - sin b).
Proof. intros U Hr. apply (frame_close n r a b c U Hr). Qed.

Lemma spin_mul right x : spin right x = spin right 1 * x. Proof. destruct right; cbn; ring. Qed.
Lemma spin_sq right : spin right 1 * spin right 1 = 1. Proof. destruct right; cbn; ring. Qed.
Lemma spin_cos right x : cos (spin right x) = cos x. Proof. destruct right; cbn; [reflexivity | apply cos_neg]. Qed.
Lemma spin_sin right x : sin (spin right x) = spin right 1 * sin x. Proof. destruct right; cbn; [ring | rewrite sin_neg; ring]. Qed.
Lemma spin_twice right x : spin right (spin right x) = x. Proof. destruct right; cbn; ring. Qed.

Lemma coor_wheel r t n c right : dot n n = 1 -> get_coor_by_rt r t n c right = wheel c r n (spin right t).
Proof. intros U. rewrite coor_frame by exact U. unfold wheel. rewrite spin_cos, spin_sin. reflexivity. Qed.

Lemma cos_2PI_minus x : cos (x - 2 * PI) = cos x /\ sin (x - 2 * PI) = sin x.
Proof.
  replace (cos x) with (cos (x - 2 * PI + 2 * INR 1 * PI)) by (f_equal; cbn [INR]; ring).
  replace (sin x) with (sin (x - 2 * PI + 2 * INR 1 * PI)) by (f_equal; cbn [INR]; ring).
  rewrite cos_period, sin_period. auto.
Qed.
Lemma cos_2PI_plus x : cos (x + 2 * PI) = cos x /\ sin (x + 2 * PI) = sin x.
Proof. destruct (cos_2PI_minus (x + 2 * PI)) as [A B]. replace (x + 2 * PI - 2 * PI) with x in * by ring. auto. Qed.

(** What the constructor makes of the phases. *)
Lemma circular_make c r nv sp ep right : 0 < r -> nv <> V 0 0 0 -> proper sp ep right ->
  exists n sp' ep', circular_lane c r nv sp ep right = Some (Circular c r n sp' ep' right (r * spin right (ep' - sp')))
  /\ unit nv = Some n /\ dot n n = 1 /\ 0 < spin right (ep' - sp') <= 2 * PI
  /\ cos sp' = cos sp /\ sin sp' = sin sp /\ cos ep' = cos ep /\ sin ep' = sin ep
  /\ 0 < (if right then ep' else sp') <= 2 * PI.
Proof.
  intros Hr Hn (Hs & He & D1 & D2). destruct (unit_ok nv Hn) as [n Un]. destruct (unit_some _ _ Un) as (U & _).
  unfold circular_lane. rewrite Un. cbn [obind]. cbv zeta. exists n. pose proof PI_RGT_0 as HP.
  destruct right; cbn [spin].
  - destruct (Rle_dec ep sp) as [L | L].
    + rewrite Rmax_right by lra. destruct (Rlt_dec (2 * PI) (ep + 2 * PI)) as [O | O].
      * exists (sp - 2 * PI), (ep + 2 * PI - 2 * PI). replace (ep + 2 * PI - 2 * PI) with ep by ring.
        rewrite Rabs_pos_eq by (apply Rmult_le_pos; lra).
        destruct (cos_2PI_minus sp) as [-> ->]. repeat split; lra.
      * assert (ep = 0) as -> by lra. assert (sp <> 2 * PI) by (intros E; apply D1; auto).
        exists (sp - 0), (0 + 2 * PI - 0). replace (sp - 0) with sp by ring. replace (0 + 2 * PI - 0) with (2 * PI) by ring.
        rewrite Rabs_pos_eq by (apply Rmult_le_pos; lra). rewrite cos_2PI, sin_2PI, cos_0, sin_0. repeat split; lra.
    + rewrite Rmax_right by lra. destruct (Rlt_dec (2 * PI) ep) as [O | O]; [lra |].
      exists (sp - 0), (ep - 0). replace (sp - 0) with sp by ring. replace (ep - 0) with ep by ring.
      rewrite Rabs_pos_eq by (apply Rmult_le_pos; lra). repeat split; lra.
  - destruct (Rle_dec sp ep) as [L | L].
    + rewrite Rmax_left by lra. destruct (Rlt_dec (2 * PI) (sp + 2 * PI)) as [O | O].
      * exists (sp + 2 * PI - 2 * PI), (ep - 2 * PI). replace (sp + 2 * PI - 2 * PI) with sp by ring.
        replace (r * - (ep - 2 * PI - sp)) with (- (r * (ep - 2 * PI - sp))) by ring.
        rewrite Rabs_left1 by (assert (0 <= r * (sp - (ep - 2 * PI))) by (apply Rmult_le_pos; lra); lra).
        destruct (cos_2PI_minus ep) as [-> ->]. repeat split; lra.
      * assert (sp = 0) as -> by lra. assert (ep <> 2 * PI) by (intros E; apply D2; auto).
        exists (0 + 2 * PI - 0), (ep - 0). replace (ep - 0) with ep by ring. replace (0 + 2 * PI - 0) with (2 * PI) by ring.
        replace (r * - (ep - 2 * PI)) with (- (r * (ep - 2 * PI))) by ring.
        rewrite Rabs_left1 by (assert (0 <= r * (2 * PI - ep)) by (apply Rmult_le_pos; lra); lra).
        rewrite cos_2PI, sin_2PI, cos_0, sin_0. repeat split; lra.
    + rewrite Rmax_left by lra. destruct (Rlt_dec (2 * PI) sp) as [O | O]; [lra |].
      exists (sp - 0), (ep - 0). replace (sp - 0) with sp by ring. replace (ep - 0) with ep by ring.
      replace (r * - (ep - sp)) with (- (r * (ep - sp))) by ring.
      rewrite Rabs_left1 by (assert (0 <= r * (sp - ep)) by (apply Rmult_le_pos; lra); lra). repeat split; lra.
Qed.

(** The center of the lane at a longitudinal coordinate. *)
Lemma outer_wheel c r n sp ep right l : dot n n = 1 -> 0 < r -> 0 < spin right (ep - sp) ->
  get_outer_center (Circular c r n sp ep right (r * spin right (ep - sp))) l = Some (wheel c r n (spin right sp + l / r)).
Proof.
  intros U Hr H. unfold get_outer_center. destruct (Req_EM_T _ 0) as [E | _]; [nra |].
  rewrite coor_wheel by exact U. do 2 f_equal. destruct right; cbn [spin] in *; field; lra.
Qed.

(** ** The coordinates of a point *)
Lemma cross_anti u v : cross u v = vscale (-1) (cross v u). Proof. vecs; ring. Qed.

(** A right-handed frame made of [n], a direction [e] across it, and their product. *)
Lemma triad n e : dot n n = 1 -> dot e e = 1 -> dot n e = 0 ->
  let m := cross n e in
  dot m m = 1 /\ dot m n = 0 /\ dot m e = 0 /\ cross m n = e
  /\ forall w, w = vadd (vadd (vscale (dot w n) n) (vscale (dot w e) e)) (vscale (dot w m) m).
Proof.
  intros U E O m.
  assert (M : dot m m = 1).
  { transitivity (dot n n * dot e e - dot n e * dot n e); [unfold m, dot, cross; cbn; ring | rewrite U, E, O; ring]. }
  assert (Mn : dot m n = 0) by (unfold m, dot, cross; cbn; ring).
  assert (Me : dot m e = 0) by (unfold m, dot, cross; cbn; ring).
  assert (X : cross m n = e).
  { transitivity (vsub (vscale (dot n n) e) (vscale (dot n e) n)); [unfold m, dot; vecs; ring | rewrite U, O; vecs; ring]. }
  assert (Xe : cross m e = vscale (-1) n).
  { transitivity (vsub (vscale (dot n e) e) (vscale (dot e e) n)); [unfold m, dot; vecs; ring | rewrite E, O; vecs; ring]. }
  repeat split; try assumption. intros w.
  set (x := vsub w (vadd (vadd (vscale (dot w n) n) (vscale (dot w e) e)) (vscale (dot w m) m))).
  assert (Z1 : dot x n = 0) by (unfold x; rewrite dot_sub_l, !dot_add_l, !dot_scale_l, U, (dot_sym e n), O, Mn; ring).
  assert (Z2 : dot x e = 0) by (unfold x; rewrite dot_sub_l, !dot_add_l, !dot_scale_l, E, O, Me; ring).
  assert (Z3 : dot x m = 0) by (unfold x; rewrite dot_sub_l, !dot_add_l, !dot_scale_l, M, (dot_sym n m), (dot_sym e m), Mn, Me; ring).
  assert (D : w = vadd x (vadd (vadd (vscale (dot w n) n) (vscale (dot w e) e)) (vscale (dot w m) m))) by (unfold x; vecs; ring).
  clearbody x.
  (* x is across n and m = n x e, so it is along e = m x n *)
  assert (X0 : cross x (cross m n) = vsub (vscale (dot x n) m) (vscale (dot x m) n)) by (unfold dot; vecs; ring).
  rewrite X, Z1, Z3 in X0.
  assert (X1 : cross x e = V 0 0 0) by (rewrite X0; vecs; ring).
  assert (X2 : vsub (vscale (dot e e) x) (vscale (dot x e) e) = cross e (cross x e)) by (unfold dot; vecs; ring).
  rewrite X1, E, Z2 in X2. assert (x = V 0 0 0) as Hx.
  { injection X2 as A B C. apply v3_ext; cbn; lra. }
  rewrite Hx in D. rewrite D at 1. vecs; ring.
Qed.

(** [local_coordinates] of [c + rho e + h n]. *)
Lemma circular_core c r n e rho h right : dot n n = 1 -> dot e e = 1 -> dot n e = 0 -> 0 < rho -> pyround r 3 <> 0 -> 0 < r ->
  let p := vadd c (vadd (vscale rho e) (vscale h n)) in
  let q := vadd c (vscale r e) in
  let m := cross n e in
  exists th ph a tau, q = wheel c r n a
    /\ p = wheel q (dist p q) m tau
    /\ get_rtp_by_coor p n c r right = Some (dist p q, th, ph)
    /\ 0 <= ph < 2 * PI
    /\ norm (cos (spin right ph) - cos a) (sin (spin right ph) - sin a) <= 1 / 100000 * (2 + blur n)
    /\ 0 <= th < 2 * PI
    /\ dist (wheel q (dist p q) m (spin right th)) p <= tol (dist p q) (blur m).
Proof.
  intros U E O Hrho R3 Hr p q m. destruct (triad n e U E O) as (M & Mn & Me & X & B). fold m in M, Mn, Me, X, B.
  destruct (polar_frame n e U O) as [a A]. rewrite (vnorm_eq e 1) in A by lra.
  assert (Q : q = wheel c r n a).
  { unfold q, wheel. do 2 f_equal. rewrite A. vecs; ring. }
  assert (O2 : dot m (vsub p q) = 0).
  { unfold p, q. replace (vsub _ _) with (vadd (vscale (rho - r) e) (vscale h n)) by (vecs; ring).
    rewrite dot_add_r, !dot_scale_r, Mn, Me. ring. }
  destruct (polar_frame m (vsub p q) M O2) as [tau T]. rewrite <- dist_norm in T.
  assert (P : p = wheel q (dist p q) m tau) by (unfold wheel; rewrite <- T; vecs; ring).
  unfold get_rtp_by_coor.
  replace (cross n (vsub p c)) with (vscale rho m) by (unfold m, p; vecs; ring).
  rewrite (unit_of rho m M Hrho). cbn [obind]. rewrite X.
  assert (Ue : unit e = Some e).
  { transitivity (unit (vscale 1 e)); [f_equal; vecs; ring | apply unit_of; lra]. }
  rewrite Ue. cbn [obind].
  fold q. rewrite <- dist_norm. set (d := dist p q) in *. assert (Hd : 0 <= d) by apply dist_pos.
  destruct (theta_spec n c r right (spin right a) U (Rlt_le _ _ Hr) R3) as (ph & PH & Rp & Cp).
  rewrite spin_cos, spin_sin, <- Rmult_assoc, spin_sq, Rmult_1_l in PH.
  change (get_theta_by_coor (wheel c r n a) n c r right = Some ph) in PH. rewrite <- Q in PH. rewrite PH.
  assert (Cp' : norm (cos (spin right ph) - cos a) (sin (spin right ph) - sin a) <= 1 / 100000 * (2 + blur n)).
  { eapply Rle_trans; [| exact Cp]. apply Req_le. unfold norm. rewrite !spin_cos, !spin_sin.
    f_equal. transitivity ((cos ph - cos a) * (cos ph - cos a) + spin right 1 * spin right 1 * ((sin ph - spin right 1 * sin a) * (sin ph - spin right 1 * sin a)));
      [| rewrite spin_sq; ring].
    destruct right; cbn; ring. }
  assert (Bd : forall t, dist (wheel q d m t) p = d * norm (cos t - cos tau) (sin t - sin tau)).
  { intros t. rewrite P at 1. apply wheel_close; assumption. }
  assert (TH : exists th, get_theta_by_coor p m q d right = Some th /\ 0 <= th < 2 * PI /\ dist (wheel q d m (spin right th)) p <= tol d (blur m)).
  { destruct (Req_EM_T (pyround d 3) 0) as [Z | Z].
    - exists 0. unfold get_theta_by_coor. rewrite Z. destruct (Req_EM_T 0 0) as [_ |]; [| lra].
      split; [reflexivity |]. split; [pose proof PI_RGT_0; lra |]. rewrite Bd.
      apply pyround3 in Z. rewrite Rabs_pos_eq in Z by exact Hd. unfold tol. eapply Rle_trans; [| apply Rmax_l].
      pose proof (norm_dir_le2 (spin right 0) tau). pose proof (norm_nonneg (cos (spin right 0) - cos tau) (sin (spin right 0) - sin tau)). nra.
    - destruct (theta_spec m q d right (spin right tau) M Hd Z) as (th & TH & Rt & Ct).
      rewrite spin_cos, spin_sin, <- Rmult_assoc, spin_sq, Rmult_1_l in TH.
      change (get_theta_by_coor (wheel q d m tau) m q d right = Some th) in TH. rewrite <- P in TH.
      exists th. split; [exact TH |]. split; [exact Rt |]. rewrite Bd. unfold tol. eapply Rle_trans; [| apply Rmax_r].
      apply Rmult_le_compat_l; [exact Hd |]. eapply Rle_trans; [| exact Ct]. apply Req_le. unfold norm. rewrite !spin_cos, !spin_sin.
      f_equal. destruct right; cbn; ring. }
  destruct TH as (th & TH & Rt & Ct). rewrite TH. cbn [obind].
  exists th, ph, a, tau. repeat split; try assumption; lra.
Qed.

(** The shift of the phase into the range of the lane. *)
Lemma shift_spec sp ep right ph : 0 <= ph < 2 * PI -> 0 < spin right (ep - sp) <= 2 * PI ->
  0 < (if right then ep else sp) <= 2 * PI ->
  let ph1 := if Rlt_dec ph sp then (if Rlt_dec ph ep then ph + 2 * PI else ph) else ph in
  let ph2 := if Rlt_dec sp ph1 then (if Rlt_dec ep ph1 then ph1 - 2 * PI else ph1) else ph1 in
  cos ph2 = cos ph /\ sin ph2 = sin ph
  /\ (if right then ep - 2 * PI <= ph2 <= ep else sp - 2 * PI <= ph2 <= sp).
Proof.
  intros Hp Hs He. cbv zeta. destruct (cos_2PI_plus ph) as [C1 S1]. destruct (cos_2PI_minus ph) as [C2 S2].
  destruct (Rlt_dec ph sp) as [A | A].
  - destruct (Rlt_dec ph ep) as [B | B].
    + destruct (Rlt_dec sp (ph + 2 * PI)) as [C | C]; [destruct (Rlt_dec ep (ph + 2 * PI)) as [D | D] |].
      * replace (ph + 2 * PI - 2 * PI) with ph by ring. destruct right; cbn [spin] in *; repeat split; lra.
      * destruct right; cbn [spin] in *; repeat split; lra.
      * destruct right; cbn [spin] in *; repeat split; lra.
    + destruct (Rlt_dec sp ph) as [C | C]; [lra |]. destruct right; cbn [spin] in *; repeat split; lra.
  - destruct (Rlt_dec sp ph) as [C | C]; [destruct (Rlt_dec ep ph) as [D | D] |];
      destruct right; cbn [spin] in *; repeat split; lra.
Qed.

(** A point off the axis of the circle is [c + rho e + h n]. *)
Lemma off_axis c n p : dot n n = 1 -> cross n (vsub p c) <> V 0 0 0 ->
  exists e rho h, dot e e = 1 /\ dot n e = 0 /\ 0 < rho /\ p = vadd c (vadd (vscale rho e) (vscale h n)).
Proof.
  intros U N. set (v := vsub p c) in *. set (x := across n v). destruct (unit_ok x) as [e He].
  { intros Z. apply N, vnorm_zero. rewrite (across_norm n v U). fold x. rewrite Z. apply vnorm_eq; [lra |]. unfold dot; cbn. ring. }
  destruct (unit_some _ _ He) as (E & S & P).
  exists e, (vnorm x), (dot v n). split; [exact E |]. split.
  - pose proof (across_dot n v U) as D. fold x in D. rewrite <- S, dot_scale_r in D.
    apply Rmult_integral in D. destruct D; lra.
  - split; [exact P |]. rewrite S. unfold x, across, v. vecs; ring.
Qed.

(** The closest point of the circle. *)
Lemma closest c r n e rho h q' : dot n n = 1 -> dot e e = 1 -> dot n e = 0 -> 0 < rho -> 0 <= r -> on_circle c n r q' ->
  dist (vadd c (vadd (vscale rho e) (vscale h n))) (vadd c (vscale r e)) <= dist (vadd c (vadd (vscale rho e) (vscale h n))) q'.
Proof.
  intros U E O Hrho Hr (D & N). set (v := vsub q' c). assert (Nv : dot n v = 0) by exact N.
  assert (Vv : dot v v = r * r) by (unfold v; rewrite <- dist_sq, D; reflexivity).
  apply Rsqr_incr_0_var; [unfold Rsqr; rewrite !dist_sq | apply dist_pos].
  replace (vsub (vadd c (vadd (vscale rho e) (vscale h n))) (vadd c (vscale r e))) with (vadd (vscale (rho - r) e) (vscale h n)) by (vecs; ring).
  replace (vsub (vadd c (vadd (vscale rho e) (vscale h n))) q') with (vsub (vadd (vscale rho e) (vscale h n)) v) by (unfold v; vecs; ring).
  repeat rewrite ?dot_sub_l, ?dot_sub_r, ?dot_add_l, ?dot_add_r, ?dot_scale_l, ?dot_scale_r.
  rewrite U, E, (dot_sym e n), O, (dot_sym v n), Nv, Vv, (dot_sym v e).
  assert (dot e v <= r).
  { assert (0 <= dot (vsub v (vscale r e)) (vsub v (vscale r e))) as S by apply dot_pos.
    repeat rewrite ?dot_sub_l, ?dot_sub_r, ?dot_scale_l, ?dot_scale_r in S. rewrite Vv, E, (dot_sym v e) in S.
    destruct (Req_dec r 0) as [-> | Z].
    - assert (v = V 0 0 0) as ->; [| unfold dot; cbn; lra]. apply vnorm_zero, vnorm_eq; lra.
    - apply Rmult_le_reg_l with r; lra. }
  assert (rho * dot e v <= rho * r) by (apply Rmult_le_compat_l; lra). lra.
Qed.

(** ** Triangles *)
Lemma cauchy u v : dot u v <= vnorm u * vnorm v.
Proof.
  assert (S : 0 <= dot u u * dot v v - dot u v * dot u v).
  { replace (_ - _) with (dot (cross u v) (cross u v)) by (unfold dot, cross; cbn; ring). apply dot_pos. }
  pose proof (vnorm_sq u) as A. pose proof (vnorm_sq v) as B. pose proof (vnorm_pos u). pose proof (vnorm_pos v).
  rewrite <- A, <- B in S. destruct (Rle_dec (dot u v) (vnorm u * vnorm v)) as [| N]; [assumption |]. exfalso.
  assert (0 <= vnorm u * vnorm v) by (apply Rmult_le_pos; assumption). nra.
Qed.
Lemma vnorm_tri u v : vnorm (vadd u v) <= vnorm u + vnorm v.
Proof.
  pose proof (vnorm_pos u). pose proof (vnorm_pos v). apply Rsqr_incr_0_var; [unfold Rsqr | lra].
  rewrite vnorm_sq, dot_add_l, !dot_add_r, (dot_sym v u). pose proof (cauchy u v). pose proof (vnorm_sq u). pose proof (vnorm_sq v). lra.
Qed.
Lemma dist_tri p q x : dist p x <= dist p q + dist q x.
Proof.
  rewrite !dist_norm. replace (vsub p x) with (vadd (vsub p q) (vsub q x)) by (vecs; ring). apply vnorm_tri.
Qed.

(** ** Positions beside a circular lane *)
Lemma spoke n a : dot n n = 1 -> let e := vadd (vscale (cos a) (fa n)) (vscale (sin a) (fb n)) in dot e e = 1 /\ dot n e = 0.
Proof.
  intros U e. destruct (frame n U) as (FA & FB & FAB & NA & NB & _). split.
  - unfold e. repeat rewrite ?dot_scale_l, ?dot_scale_r, ?dot_add_l, ?dot_add_r. rewrite FA, FB, (dot_sym (fb n)), FAB.
    pose proof (sin2_cos2 a) as S. unfold Rsqr in S. lra.
  - unfold e; rewrite dot_add_r, !dot_scale_r, NA, NB; ring.
Qed.
Lemma circular_position c r n sp ep right l lat t : dot n n = 1 -> 0 < r -> 0 < spin right (ep - sp) ->
  let a := spin right sp + l / r in let e := vadd (vscale (cos a) (fa n)) (vscale (sin a) (fb n)) in
  position (Circular c r n sp ep right (r * spin right (ep - sp))) l lat t
  = Some (wheel (wheel c r n a) lat (cross n e) t).
Proof.
  intros U Hr Sw a e. unfold position. rewrite outer_wheel by assumption. cbn [obind]. fold a.
  destruct (spoke n a U) as [Ee Oe]. fold e in Ee, Oe. destruct (triad n e U Ee Oe) as (M & _).
  replace (cross n (vsub (wheel c r n a) c)) with (vscale r (cross n e)) by (unfold wheel; fold e; vecs; ring).
  rewrite (unit_of r _ M Hr). cbn [obind]. f_equal. apply coor_wheel, M.
Qed.
(** Such a position is [c + rho e + h n] with the same [e], when it is closer to the circle than the center. *)
Lemma position_split c r n e lat t : dot n n = 1 -> dot e e = 1 -> dot n e = 0 -> 0 <= lat < r ->
  exists rho h, 0 < rho
  /\ wheel (vadd c (vscale r e)) lat (cross n e) t = vadd c (vadd (vscale rho e) (vscale h n)).
Proof.
  intros U E O Hl. destruct (triad n e U E O) as (M & Mn & Me & X & B). set (m := cross n e) in *.
  destruct (spoke m t M) as [W1 W2]. set (x := vadd (vscale (cos t) (fa m)) (vscale (sin t) (fb m))) in *.
  pose proof (B x) as Bx. rewrite (dot_sym x m), W2 in Bx.
  exists (r + lat * dot x e), (lat * dot x n). split.
  - pose proof (cauchy (vscale (-1) x) e) as C. rewrite vnorm_scale, (vnorm_eq x 1), (vnorm_eq e 1), dot_scale_l in C by lra.
    rewrite Rabs_left in C by lra. assert (lat * (- dot x e) <= lat * 1) by (apply Rmult_le_compat_l; lra). lra.
  - unfold wheel. fold x. set (f := dot x e) in *. set (g := dot x n) in *. rewrite Bx. clear. vecs; ring.
Qed.

(** Level circles. *)
Lemma level_frame m : dot m m = 1 -> vz m = 0 -> fa m = V (vy m) (- vx m) 0 /\ fb m = V 0 0 (-1) /\ blur m = 0.
Proof.
  intros U Z. unfold dot in U. rewrite Z in U.
  assert (F : fa m = V (vy m) (- vx m) 0).
  { unfold fa. replace (vx m * vx m + vy m * vy m) with 1 by lra. rewrite sqrt_1. destruct (Req_EM_T 1 0); [lra |].
    vecs; field. }
  split; [exact F |]. split.
  - unfold fb. rewrite F. vecs; rewrite ?Z; try ring. lra.
  - unfold blur. destruct (Req_EM_T _ _); [reflexivity |]. rewrite Z, Rmult_0_r. unfold Rdiv. rewrite Rmult_0_l. apply Rabs_R0.
Qed.
