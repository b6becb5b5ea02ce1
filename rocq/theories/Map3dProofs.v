(** Lemmas about the three-dimensional example maps. *)
From Coq Require Import Ascii String Reals Lra Lia Psatz.
From Verif Require Import Base PyText Dict Angle AngleProofs Lane3d Lane3dSpec Lane3dProofs Lane3dStraight Lane3dProps Lane3dCircular Lane3dArcProps Map3d.
Open Scope R_scope.

Lemma up_frame : dot (V 0 0 1) (V 0 0 1) = 1 /\ fa (V 0 0 1) = V 1 0 0 /\ fb (V 0 0 1) = V 0 1 0.
Proof.
  split; [unfold dot; cbn; ring |].
  assert (F : fa (V 0 0 1) = V 1 0 0).
  { unfold fa; cbn. replace (0 * 0 + 0 * 0) with 0 by ring. rewrite sqrt_0. destruct (Req_EM_T 0 0); [reflexivity | lra]. }
  split; [exact F |]. unfold fb. rewrite F. vecs; ring.
Qed.
Lemma down_frame : dot (V 0 0 (-1)) (V 0 0 (-1)) = 1 /\ fa (V 0 0 (-1)) = V 1 0 0 /\ fb (V 0 0 (-1)) = V 0 (-1) 0.
Proof.
  split; [unfold dot; cbn; ring |].
  assert (F : fa (V 0 0 (-1)) = V 1 0 0).
  { unfold fa; cbn. replace (0 * 0 + 0 * 0) with 0 by ring. rewrite sqrt_0. destruct (Req_EM_T 0 0); [reflexivity | lra]. }
  split; [exact F |]. unfold fb. rewrite F. vecs; ring.
Qed.

Lemma unit_self u : dot u u = 1 -> unit u = Some u.
Proof. intros U. transitivity (unit (vscale 1 u)); [f_equal; vecs; ring | apply unit_of; lra]. Qed.

Lemma straight_make s d k : dot d d = 1 -> 0 < k -> straight_lane s (vadd s (vscale k d)) = Some (Straight s (vadd s (vscale k d)) d k).
Proof.
  intros U Hk. unfold straight_lane. replace (vsub (vadd s (vscale k d)) s) with (vscale k d) by (vecs; ring).
  rewrite unit_of by assumption. cbn [obind]. do 2 f_equal. rewrite vnorm_scale, (vnorm_eq d 1), Rabs_pos_eq by lra. ring.
Qed.

(** The two circles and two straight segments of a lane of M6. *)
Definition circle1 (z : R) : segment := Circular (V 0 0 z) 10 (V 0 0 1) 0 (3 / 2 * PI) true (10 * (3 / 2 * PI - 0)).
Definition north (z : R) : segment := Straight (V 10 (-20) z) (V 10 0 z) (V 0 1 0) 20.
Definition east (z : R) : segment := Straight (V 0 (-10) z) (V 20 (-10) z) (V 1 0 0) 20.
Definition circle2 (z : R) : segment := Circular (V 20 (-20) z) 10 (V 0 0 (-1)) (- (PI / 2)) PI true (10 * (PI - - (PI / 2))).

Lemma circle1_make z : circular_lane (V 0 0 z) 10 (V 0 0 1) 0 (3 / 2 * PI) true = Some (circle1 z).
Proof.
  pose proof PI_RGT_0. unfold circular_lane. rewrite unit_self by apply up_frame. cbn [obind].
  destruct (Rle_dec (3 / 2 * PI) 0); [lra |]. cbv zeta. rewrite Rmax_right by lra. destruct (Rlt_dec (2 * PI) (3 / 2 * PI)); [lra |].
  unfold circle1. rewrite !Rminus_0_r. do 2 f_equal. apply Rabs_pos_eq. lra.
Qed.
Lemma circle1_at z l : get_outer_center (circle1 z) l = Some (V (10 * cos (l / 10)) (10 * sin (l / 10)) z).
Proof.
  pose proof PI_RGT_0. destruct up_frame as (U & A & B). 
  etransitivity; [exact (outer_wheel (V 0 0 z) 10 (V 0 0 1) 0 (3 / 2 * PI) true l U ltac:(lra) ltac:(cbn [spin]; lra)) |].
  unfold wheel. rewrite A, B. cbn [spin]. rewrite Rplus_0_l. f_equal. vecs; ring.
Qed.
Lemma circle1_tang z l : get_tang (circle1 z) l = Some (V (- (10 * sin (l / 10))) (10 * cos (l / 10)) 0).
Proof.
  unfold get_tang. change (match circle1 z with Straight _ _ d _ => Some d | Circular c _ n _ _ _ _ => do o <- get_outer_center (circle1 z) l; Some (cross n (vsub o c)) end = Some (V (- (10 * sin (l / 10))) (10 * cos (l / 10)) 0)).
  rewrite circle1_at. unfold circle1. cbn [obind]. f_equal. vecs; ring.
Qed.
Lemma circle2_at z l : get_outer_center (circle2 z) l = Some (V (20 + 10 * sin (l / 10)) (-20 + 10 * cos (l / 10)) z).
Proof.
  pose proof PI_RGT_0. destruct down_frame as (U & A & B). 
  etransitivity; [exact (outer_wheel (V 20 (-20) z) 10 (V 0 0 (-1)) (- (PI / 2)) PI true l U ltac:(lra) ltac:(cbn [spin]; lra)) |].
  unfold wheel. rewrite A, B. cbn [spin]. replace (- (PI / 2) + l / 10) with (l / 10 - PI / 2) by ring.
  rewrite cos_minus, sin_minus, cos_PI2, sin_PI2. f_equal. vecs; ring.
Qed.
Lemma circle2_tang z l : get_tang (circle2 z) l = Some (V (10 * cos (l / 10)) (- (10 * sin (l / 10))) 0).
Proof.
  unfold get_tang. change (match circle2 z with Straight _ _ d _ => Some d | Circular c _ n _ _ _ _ => do o <- get_outer_center (circle2 z) l; Some (cross n (vsub o c)) end = Some (V (10 * cos (l / 10)) (- (10 * sin (l / 10))) 0)).
  rewrite circle2_at. unfold circle2. cbn [obind]. f_equal. vecs; ring.
Qed.

Lemma three_quarters : cos (3 / 2 * PI) = 0 /\ sin (3 / 2 * PI) = -1.
Proof.
  replace (3 / 2 * PI) with (PI / 2 + PI) by field. rewrite neg_cos, neg_sin, cos_PI2, sin_PI2. split; ring.
Qed.

Lemma pyround5_IZR k : pyround (IZR k) 5 = IZR k.
Proof.
  unfold pyround. rewrite pow_IZR, <- mult_IZR, round_even_IZR, mult_IZR. field. rewrite <- pow_IZR. apply pow_nonzero. lra.
Qed.

Lemma circle2_make z : circular_lane_v2 (V 20 (-10) z) (V 10 (-20) z) (V 0 0 (-1)) (3 / 2 * PI) true = Some (circle2 z).
Proof.
  pose proof PI_RGT_0 as HP. destruct down_frame as (U & A & B). unfold circular_lane_v2.
  assert (G : get_center_radius (V 20 (-10) z) (V 10 (-20) z) (V 0 0 (-1)) (3 / 2 * PI) true = Some (V 20 (-20) z, 10)).
  { unfold get_center_radius. destruct (Rlt_dec _ _); [| lra]. destruct (Rlt_dec _ _); [| lra].
    set (k := sqrt 2). assert (K : k * k = 2) by (apply sqrt_sqrt; lra). assert (Hk : 0 < k) by (apply sqrt_lt_R0; lra).
    replace (cross (V 0 0 (-1)) (vsub (V 20 (-10) z) (V 10 (-20) z))) with (vscale (10 * k) (V (1 / k) (- 1 / k) 0)) by (vecs; field; lra).
    rewrite unit_of; [| unfold dot; cbn; replace (1 / k * (1 / k) + - 1 / k * (- 1 / k) + 0 * 0) with (2 / (k * k)) by (field; lra); rewrite K; field | lra].
    cbn [obind]. cbv zeta. destruct (Rlt_dec PI (3 / 2 * PI)); [| lra].
    replace ((3 / 2 * PI - PI) / 2) with (PI / 4) by field. rewrite tan_PI4, sin_PI4. fold k.
    replace (vnorm (vsub (V 10 (-20) z) (V 20 (-10) z))) with (10 * k)
      by (symmetry; apply vnorm_eq; [lra | replace (10 * k * (10 * k)) with (100 * (k * k)) by ring; rewrite K; unfold dot; cbn; ring]).
    f_equal. apply f_equal2; [vecs; field; lra |].
    replace (10 * k / 2 / (1 / k)) with (5 * (k * k)) by (field; lra). rewrite K. ring. }
  rewrite G. cbn [obind].
  assert (R10 : pyround 10 3 <> 0) by (intros Z; apply pyround3 in Z; rewrite Rabs_pos_eq in Z by lra; lra).
  assert (P0 : pyround 0 5 = 0) by apply (pyround5_IZR 0). assert (P1 : pyround 1 5 = 1) by apply (pyround5_IZR 1).
  assert (Pm : pyround (-1) 5 = -1) by apply (pyround5_IZR (-1)).
  assert (Ts : get_theta_by_coor (V 20 (-10) z) (V 0 0 (-1)) (V 20 (-20) z) 10 true = Some (3 / 2 * PI)).
  { unfold get_theta_by_coor. destruct (Req_EM_T _ 0); [contradiction |]. cbv zeta. cbn [vx vy vz vscale vsub].
    replace (0 * 0 + 0 * 0) with 0 by ring. rewrite sqrt_0. destruct (Req_EM_T 0 0); [| lra]. destruct (Req_EM_T (-1) 0); [lra |].
    destruct (Rlt_dec (-1) 0); [| lra]. replace (/ 10 * (-10 - -20)) with 1 by field. replace (/ 10 * (20 - 20)) with 0 by field.
    rewrite P0, P1. unfold theta_of. rewrite P0. destruct (Req_EM_T 0 0); [| lra]. destruct (Rlt_dec 0 (Ropp 1)); [lra |].
    destruct (Rlt_dec (Ropp 1) 0); [reflexivity | lra]. }
  assert (Te : get_theta_by_coor (V 10 (-20) z) (V 0 0 (-1)) (V 20 (-20) z) 10 true = Some PI).
  { unfold get_theta_by_coor. destruct (Req_EM_T _ 0); [contradiction |]. cbv zeta. cbn [vx vy vz vscale vsub].
    replace (0 * 0 + 0 * 0) with 0 by ring. rewrite sqrt_0. destruct (Req_EM_T 0 0); [| lra]. destruct (Req_EM_T (-1) 0); [lra |].
    destruct (Rlt_dec (-1) 0); [| lra]. replace (/ 10 * (-20 - -20)) with 0 by field. replace (/ 10 * (10 - 20)) with (-1) by field.
    rewrite P0, Pm. unfold theta_of. rewrite Pm. destruct (Req_EM_T (-1) 0); [lra |]. replace (- 0 / -1) with 0 by field. rewrite atan_0.
    cbv zeta. destruct (Rlt_dec (-1) 0); [| lra]. f_equal. ring. }
  rewrite Ts. cbn [obind]. rewrite Te. cbn [obind]. unfold circular_lane. rewrite unit_self by exact U. cbn [obind].
  destruct (Rle_dec PI (3 / 2 * PI)); [| lra]. cbv zeta. rewrite Rmax_right by lra. destruct (Rlt_dec (2 * PI) (PI + 2 * PI)); [| lra].
  unfold circle2. replace (3 / 2 * PI - 2 * PI) with (- (PI / 2)) by field. replace (PI + 2 * PI - 2 * PI) with PI by ring.
  do 2 f_equal. apply Rabs_pos_eq. lra.
Qed.

Lemma north_make z : straight_lane (V 10 (-20) z) (V 10 0 z) = Some (north z).
Proof.
  pose proof (straight_make (V 10 (-20) z) (V 0 1 0) 20 ltac:(unfold dot; cbn; ring) ltac:(lra)) as H.
  replace (vadd (V 10 (-20) z) (vscale 20 (V 0 1 0))) with (V 10 0 z) in H by (vecs; ring). exact H.
Qed.
Lemma east_make z : straight_lane (V 0 (-10) z) (V 20 (-10) z) = Some (east z).
Proof.
  pose proof (straight_make (V 0 (-10) z) (V 1 0 0) 20 ltac:(unfold dot; cbn; ring) ltac:(lra)) as H.
  replace (vadd (V 0 (-10) z) (vscale 20 (V 1 0 0))) with (V 20 (-10) z) in H by (vecs; ring). exact H.
Qed.
Lemma eight_make z : eight (V 0 0 z) = Some [circle1 z; north z; east z; circle2 z].
Proof.
  unfold eight. rewrite circle1_make. cbn [obind]. unfold get_start_end_tang. rewrite !circle1_at, !circle1_tang. cbn [obind].
  unfold circle1 at 1 2 3 4 5 6. cbn [seg_length]. 
  replace (0 / 10) with 0 by field. replace (10 * (3 / 2 * PI - 0) / 10) with (3 / 2 * PI) by field.
  destruct three_quarters as [-> ->]. rewrite cos_0, sin_0. 
  replace (V (- (10 * 0)) (10 * 1) 0) with (vscale 10 (V 0 1 0)) by (vecs; ring).
  replace (V (- (10 * -1)) (10 * 0) 0) with (vscale 10 (V 1 0 0)) by (vecs; ring).
  replace (vscale (-1) (vscale 10 (V 0 1 0))) with (vscale 10 (V 0 (-1) 0)) by (vecs; ring).
  unfold get_end. rewrite !unit_of by (try lra; unfold dot; cbn; ring). cbn [obind].
  replace (vadd (V (10 * 1) (10 * 0) z) (vscale (2 * 10) (V 0 (-1) 0))) with (V 10 (-20) z) by (vecs; ring).
  replace (V (10 * 1) (10 * 0) z) with (V 10 0 z) by (vecs; ring).
  replace (vadd (V (10 * 0) (10 * -1) z) (vscale (2 * 10) (V 1 0 0))) with (V 20 (-10) z) by (vecs; ring).
  replace (V (10 * 0) (10 * -1) z) with (V 0 (-10) z) by (vecs; ring).
  replace (vscale (-1) (V 0 0 1)) with (V 0 0 (-1)) by (vecs; ring).
  rewrite north_make. cbn [obind]. rewrite east_make. cbn [obind]. rewrite circle2_make. reflexivity.
Qed.
