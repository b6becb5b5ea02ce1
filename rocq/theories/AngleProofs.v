(** Proofs about angles. *)
From Coq Require Import Reals Lra Lia Psatz.
From Verif Require Import Angle AngleSpec.
Open Scope R_scope.

Lemma two_pi_pos : 0 < 2 * PI.
Proof. pose proof PI_RGT_0. lra. Qed.

Lemma rmod_range a b : 0 < b -> 0 <= rmod a b < b.
Proof.
  intros Hb. unfold rmod. destruct (base_Int_part (a / b)) as [H1 H2]. set (k := IZR (Int_part (a / b))) in *.
  assert (E : a = b * (a / b)) by (field; lra). split.
  - assert (b * k <= b * (a / b)) by (apply Rmult_le_compat_l; lra). lra.
  - assert (b * (a / b) < b * (k + 1)) by (apply Rmult_lt_compat_l; lra). lra.
Qed.

Lemma wrap_range x : - PI <= wrap_to_pi x < PI.
Proof. unfold wrap_to_pi. pose proof (rmod_range (x + PI) (2 * PI) two_pi_pos). lra. Qed.

Lemma wrap_same x : same_angle (wrap_to_pi x) x.
Proof.
  exists (- Int_part ((x + PI) / (2 * PI)))%Z. unfold wrap_to_pi, rmod. rewrite opp_IZR. ring.
Qed.

Lemma same_sym x y : same_angle x y -> same_angle y x.
Proof. intros [k E]. exists (- k)%Z. rewrite opp_IZR, E. ring. Qed.
Lemma same_trans x y z : same_angle x y -> same_angle y z -> same_angle x z.
Proof. intros [k E] [m F]. exists (k + m)%Z. rewrite plus_IZR, E, F. ring. Qed.
Lemma same_refl x : same_angle x x.
Proof. exists 0%Z. ring. Qed.
Lemma same_plus x y c : same_angle x y -> same_angle (x + c) (y + c).
Proof. intros [k E]. exists k. rewrite E. ring. Qed.

Lemma same_close x y : same_angle x y -> Rabs (x - y) < 2 * PI -> x = y.
Proof.
  intros [k E] H. pose proof two_pi_pos as P. assert (k = 0)%Z.
  { destruct (Z_dec k 0) as [[L|G]|Z]; [| |exact Z]; exfalso.
    - assert (IZR k <= -1) by (apply IZR_le; lia). assert (2 * PI * IZR k <= 2 * PI * -1) by (apply Rmult_le_compat_l; lra).
      rewrite E in H. replace (y + 2 * PI * IZR k - y) with (2 * PI * IZR k) in H by ring. rewrite Rabs_left in H; lra.
    - assert (1 <= IZR k) by (apply IZR_le; lia). assert (2 * PI * 1 <= 2 * PI * IZR k) by (apply Rmult_le_compat_l; lra).
      rewrite E in H. replace (y + 2 * PI * IZR k - y) with (2 * PI * IZR k) in H by ring. rewrite Rabs_right in H; lra. }
  subst k. rewrite E. ring.
Qed.

Lemma wrap_unique x y : - PI <= y < PI -> same_angle y x -> y = wrap_to_pi x.
Proof.
  intros Hy Hs. apply same_close; [exact (same_trans _ _ _ Hs (same_sym _ _ (wrap_same x)))|].
  pose proof (wrap_range x). apply Rabs_def1; lra.
Qed.

Lemma wrap_id x : - PI <= x < PI -> wrap_to_pi x = x.
Proof. intros H. symmetry. apply wrap_unique; [exact H|apply same_refl]. Qed.

Lemma wrap_congr x y : same_angle x y -> wrap_to_pi x = wrap_to_pi y.
Proof. intros H. apply wrap_unique; [apply wrap_range|exact (same_trans _ _ _ (wrap_same x) H)]. Qed.

Lemma same_cos x y : same_angle x y -> cos x = cos y /\ sin x = sin y.
Proof.
  intros [k ->]. destruct (Z_le_dec 0 k) as [H|H].
  - destruct (IZN k H) as [n ->]. rewrite <- INR_IZR_INZ. replace (2 * PI * INR n) with (2 * INR n * PI) by ring. split; [apply cos_period|apply sin_period].
  - destruct (IZN (- k)) as [n En]; [lia|]. assert (k = - Z.of_nat n)%Z by lia. subst k. rewrite opp_IZR, <- INR_IZR_INZ.
    split; [rewrite <- (cos_period (y + _) n)|rewrite <- (sin_period (y + _) n)]; f_equal; ring.
Qed.

Lemma norm_nonneg x y : 0 <= norm x y.
Proof. apply sqrt_pos. Qed.
Lemma norm_sq x y : norm x y * norm x y = x * x + y * y.
Proof. unfold norm. apply sqrt_sqrt. nra. Qed.
Lemma norm_pos x y : x <> 0 \/ y <> 0 -> 0 < norm x y.
Proof. intros H. unfold norm. apply sqrt_lt_R0. destruct H; nra. Qed.
Lemma norm_polar r a : 0 <= r -> norm (r * cos a) (r * sin a) = r.
Proof.
  intros H. unfold norm. replace (r * cos a * (r * cos a) + r * sin a * (r * sin a)) with (r * r * (sin a * sin a + cos a * cos a)) by ring.
  change (sin a * sin a + cos a * cos a) with (Rsqr (sin a) + Rsqr (cos a)). rewrite sin2_cos2, Rmult_1_r. apply sqrt_square. exact H.
Qed.

Lemma norm_atan x y : 0 < x -> norm x y = x * sqrt (1 + (y / x)²).
Proof.
  intros H. unfold norm. rewrite <- (sqrt_square x) at 3 by lra. rewrite <- sqrt_mult; [|nra|unfold Rsqr; nra]. f_equal. unfold Rsqr. field. lra.
Qed.

Lemma cs_atan x y : 0 < x -> x = norm x y * cos (atan (y / x)) /\ y = norm x y * sin (atan (y / x)).
Proof.
  intros H. rewrite (norm_atan x y H), cos_atan, sin_atan.
  assert (0 < sqrt (1 + (y / x)²)). { apply sqrt_lt_R0. unfold Rsqr. nra. }
  split; field; lra.
Qed.

Lemma atan2_polar x y : x = norm x y * cos (arctan2 y x) /\ y = norm x y * sin (arctan2 y x).
Proof.
  unfold arctan2. destruct (Rlt_dec 0 x) as [Hx|Hx]; [exact (cs_atan x y Hx)|]. destruct (Rlt_dec x 0) as [Hn|Hn].
  - assert (E : y / x = (- y) / (- x)) by (field; lra). assert (N : norm x y = norm (- x) (- y)) by (unfold norm; f_equal; ring).
    destruct (cs_atan (- x) (- y) ltac:(lra)) as [A B]. rewrite <- E, <- N in A, B.
    destruct (Rlt_dec y 0).
    + replace (atan (y / x) - PI) with (- (PI - atan (y / x))) by ring. rewrite cos_neg, sin_antisym, Rtrigo_facts.cos_pi_minus, sin_PI_x. split; lra.
    + rewrite neg_cos, neg_sin. split; lra.
  - assert (x = 0) by lra. subst x. destruct (Rlt_dec 0 y) as [Hy|Hy].
    + rewrite cos_PI2, sin_PI2. unfold norm. replace (0 * 0 + y * y) with (y * y) by ring. rewrite sqrt_square by lra. split; ring.
    + destruct (Rlt_dec y 0) as [Hy'|Hy'].
      * rewrite cos_neg, sin_antisym, cos_PI2, sin_PI2. unfold norm. replace (0 * 0 + y * y) with ((- y) * (- y)) by ring. rewrite sqrt_square by lra. split; ring.
      * assert (y = 0) by lra. subst y. unfold norm. replace (0 * 0 + 0 * 0) with 0 by ring. rewrite sqrt_0. split; ring.
Qed.

Lemma atan2_range x y : - PI < arctan2 y x <= PI.
Proof.
  pose proof PI_RGT_0. pose proof (atan_bound (y / x)) as [B1 B2]. unfold arctan2. destruct (Rlt_dec 0 x); [lra|]. destruct (Rlt_dec x 0) as [Hn|Hn].
  - assert (E : y / x = (- y) / (- x)) by (field; lra). assert (P : 0 < / (- x)) by (apply Rinv_0_lt_compat; lra). destruct (Rlt_dec y 0) as [Hy|Hy].
    + assert (0 < atan (y / x)). { rewrite <- atan_0. apply atan_increasing. rewrite E. unfold Rdiv. nra. } lra.
    + assert (atan (y / x) <= 0). { destruct (Req_dec y 0) as [->|Hy']; [unfold Rdiv; rewrite Rmult_0_l, atan_0; lra|].
        left. rewrite <- atan_0. apply atan_increasing. rewrite E. unfold Rdiv. nra. } lra.
  - destruct (Rlt_dec 0 y); [lra|]. destruct (Rlt_dec y 0); lra.
Qed.

(** Angles with equal cosine and sine are the same. *)
Lemma cs_same a b : cos a = cos b -> sin a = sin b -> same_angle a b.
Proof.
  intros Hc Hs. assert (S : sin ((a - b) / 2) = 0).
  { assert (C : cos (a - b) = 1). { rewrite cos_minus, Hc, Hs. pose proof (sin2_cos2 b) as P. unfold Rsqr in P. lra. }
    replace (a - b) with (2 * ((a - b) / 2)) in C by field. rewrite cos_2a_sin in C. nra. }
  destruct (sin_eq_0_0 _ S) as [k Hk]. exists k. nra.
Qed.

Lemma atan2_of_polar r a : 0 < r -> same_angle (arctan2 (r * sin a) (r * cos a)) a.
Proof.
  intros Hr. destruct (atan2_polar (r * cos a) (r * sin a)) as [A B]. rewrite (norm_polar r a) in A, B by lra.
  apply cs_same; nra.
Qed.
