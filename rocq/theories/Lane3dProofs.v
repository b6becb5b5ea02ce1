From Coq Require Import Reals List ZArith Lra Lia Psatz.
From Verif Require Import Base Angle AngleSpec AngleProofs Lane3d Lane3dSpec.
Import ListNotations.
Open Scope R_scope.

(** ** Vectors *)
Lemma v3_ext u v : vx u = vx v -> vy u = vy v -> vz u = vz v -> u = v.
Proof. destruct u, v; cbn. intros -> -> ->. reflexivity. Qed.

Ltac vecs := apply v3_ext; cbn [vx vy vz vadd vsub vscale cross].

Lemma dist_norm p q : dist p q = vnorm (vsub p q).
Proof. unfold dist, vnorm, dot, vsub; cbn. reflexivity. Qed.
Lemma dot_sym u v : dot u v = dot v u. Proof. unfold dot. ring. Qed.
Lemma dot_add_l u v x : dot (vadd u v) x = dot u x + dot v x. Proof. unfold dot, vadd; cbn. ring. Qed.
Lemma dot_sub_l u v x : dot (vsub u v) x = dot u x - dot v x. Proof. unfold dot, vsub; cbn. ring. Qed.
Lemma dot_scale_l k u x : dot (vscale k u) x = k * dot u x. Proof. unfold dot, vscale; cbn. ring. Qed.
Lemma dot_add_r u v x : dot x (vadd u v) = dot x u + dot x v. Proof. unfold dot, vadd; cbn. ring. Qed.
Lemma dot_sub_r u v x : dot x (vsub u v) = dot x u - dot x v. Proof. unfold dot, vsub; cbn. ring. Qed.
Lemma dot_scale_r k u x : dot x (vscale k u) = k * dot x u. Proof. unfold dot, vscale; cbn. ring. Qed.
Lemma dot_pos u : 0 <= dot u u. Proof. unfold dot. nra. Qed.
Lemma vnorm_pos u : 0 <= vnorm u. Proof. apply sqrt_pos. Qed.
Lemma vnorm_sq u : vnorm u * vnorm u = dot u u.
Proof. apply sqrt_sqrt, dot_pos. Qed.
Lemma vnorm_eq u x : 0 <= x -> dot u u = x * x -> vnorm u = x.
Proof. intros Hx H. unfold vnorm. rewrite H. apply sqrt_square, Hx. Qed.
Lemma vnorm_zero u : vnorm u = 0 -> u = V 0 0 0.
Proof.
  intros H. pose proof (vnorm_sq u) as E. rewrite H in E. unfold dot in E. vecs; nra.
Qed.
Lemma vnorm_scale k u : vnorm (vscale k u) = Rabs k * vnorm u.
Proof.
  apply vnorm_eq; [apply Rmult_le_pos; [apply Rabs_pos | apply vnorm_pos] |].
  replace (Rabs k * vnorm u * (Rabs k * vnorm u)) with (Rabs k * Rabs k * (vnorm u * vnorm u)) by ring.
  rewrite vnorm_sq, <- Rabs_mult, (Rabs_pos_eq (k * k)) by nra. unfold dot, vscale; cbn. ring.
Qed.
Lemma vsub_self u : vsub u u = V 0 0 0. Proof. vecs; ring. Qed.

Lemma unit_some u v : unit u = Some v -> dot v v = 1 /\ vscale (vnorm u) v = u /\ 0 < vnorm u.
Proof.
  unfold unit. destruct (Req_EM_T (vnorm u) 0) as [E | E]; [discriminate |]. intros [= <-].
  pose proof (vnorm_pos u). pose proof (vnorm_sq u) as S. assert (0 < vnorm u) by lra.
  split; [| split; [vecs; field; lra | lra]].
  unfold dot, vscale in *; cbn in *.
  replace 1 with (/ vnorm u * / vnorm u * (vnorm u * vnorm u)) by (field; lra). rewrite S at 1. ring.
Qed.
Lemma unit_ok u : u <> V 0 0 0 -> exists v, unit u = Some v.
Proof.
  intros H. unfold unit. destruct (Req_EM_T (vnorm u) 0) as [E | E]; [| eauto].
  exfalso. apply H, vnorm_zero, E.
Qed.
Lemma unit_of k v : dot v v = 1 -> 0 < k -> unit (vscale k v) = Some v.
Proof.
  intros Hv Hk. unfold unit. assert (N : vnorm (vscale k v) = k).
  { rewrite vnorm_scale, Rabs_pos_eq by lra. rewrite (vnorm_eq v 1) by lra. ring. }
  rewrite N. destruct (Req_EM_T k 0); [lra |]. f_equal. vecs; field; lra.
Qed.

(** ** Rounding *)
Lemma round_even_err x : Rabs (IZR (round_even x) - x) <= 1 / 2.
Proof.
  unfold round_even. destruct (base_Int_part x) as [A B].
  assert (0 <= x - IZR (Int_part x) < 1) by lra.
  destruct (Rlt_dec _ _); [apply Rabs_le; lra |].
  destruct (Rlt_dec _ _); [rewrite plus_IZR; apply Rabs_le; lra |].
  destruct (Z.even _); [| rewrite plus_IZR]; apply Rabs_le; lra.
Qed.
Lemma Int_part_IZR z : Int_part (IZR z) = z.
Proof.
  destruct (base_Int_part (IZR z)) as [A B].
  assert (IZR (Int_part (IZR z)) < IZR z + 1) by lra. assert (IZR z - 1 < IZR (Int_part (IZR z))) by lra.
  assert (Int_part (IZR z) < z + 1)%Z by (apply lt_IZR; rewrite plus_IZR; lra).
  assert (z - 1 < Int_part (IZR z))%Z by (apply lt_IZR; rewrite minus_IZR; lra). lia.
Qed.
Lemma round_even_IZR z : round_even (IZR z) = z.
Proof.
  unfold round_even. rewrite Int_part_IZR. replace (IZR z - IZR z) with 0 by ring.
  destruct (Rlt_dec 0 (1 / 2)); [reflexivity | lra].
Qed.
Lemma pow10_pos k : 0 < 10 ^ k. Proof. apply pow_lt. lra. Qed.
Lemma pyround_err x k : Rabs (pyround x k - x) <= / (2 * 10 ^ k).
Proof.
  unfold pyround. pose proof (pow10_pos k) as P. pose proof (round_even_err (x * 10 ^ k)) as E.
  replace (IZR (round_even (x * 10 ^ k)) / 10 ^ k - x) with ((IZR (round_even (x * 10 ^ k)) - x * 10 ^ k) * / 10 ^ k)
    by (field; lra).
  rewrite Rabs_mult, (Rabs_pos_eq (/ 10 ^ k)) by (left; apply Rinv_0_lt_compat, P).
  replace (/ (2 * 10 ^ k)) with (1 / 2 * / 10 ^ k) by (field; lra).
  apply Rmult_le_compat_r; [left; apply Rinv_0_lt_compat, P | exact E].
Qed.
Lemma pyround_idem x k : pyround (pyround x k) k = pyround x k.
Proof.
  unfold pyround. pose proof (pow10_pos k).
  replace (IZR (round_even (x * 10 ^ k)) / 10 ^ k * 10 ^ k) with (IZR (round_even (x * 10 ^ k))) by (field; lra).
  rewrite round_even_IZR. reflexivity.
Qed.
Lemma pyround5 x : Rabs (pyround x 5 - x) <= 5 / 1000000.
Proof. eapply Rle_trans; [apply pyround_err |]. apply Req_le. cbn [pow]. lra. Qed.
Lemma pyround3 x : pyround x 3 = 0 -> Rabs x <= 5 / 10000.
Proof.
  intros H. pose proof (pyround_err x 3) as E. rewrite H in E. replace (0 - x) with (- x) in E by ring. rewrite Rabs_Ropp in E.
  eapply Rle_trans; [exact E |]. apply Req_le. cbn [pow]. lra.
Qed.
Lemma pyround_0 k : pyround 0 k = 0.
Proof. unfold pyround. rewrite Rmult_0_l. change 0 with (IZR 0) at 1. rewrite round_even_IZR. unfold Rdiv. ring. Qed.
Lemma pyround3_pos x : 0 <= x -> pyround x 3 <> 0 -> 0 < x.
Proof. intros H N. destruct (Req_dec x 0) as [-> |]; [exfalso; apply N, pyround_0 | lra]. Qed.

(** ** The angle of rounded coordinates *)
Lemma theta_of_spec s c : pyround c 5 = c ->
  c = norm c s * cos (theta_of s c) /\ s = norm c s * sin (theta_of s c) /\ 0 <= theta_of s c < 2 * PI.
Proof.
  intros Hc. unfold theta_of. rewrite Hc. pose proof PI_RGT_0 as HP.
  destruct (Req_EM_T c 0) as [-> | Hn].
  - destruct (Rlt_dec 0 s); [| destruct (Rlt_dec s 0)].
    + rewrite cos_PI2, sin_PI2. unfold norm. replace (0 * 0 + s * s) with (s * s) by ring. rewrite sqrt_square by lra. lra.
    + replace (3 / 2 * PI) with (PI + PI / 2) by lra.
      rewrite (Rplus_comm PI), neg_cos, neg_sin, cos_PI2, sin_PI2. unfold norm. replace (0 * 0 + s * s) with (- s * - s) by ring.
      rewrite sqrt_square by lra. lra.
    + assert (s = 0) as -> by lra. rewrite cos_0, sin_0. unfold norm. replace (0 * 0 + 0 * 0) with 0 by ring.
      rewrite sqrt_0. lra.
  - destruct (atan_bound (s / c)) as [A B].
    destruct (Rlt_dec c 0) as [Lc | Lc].
    + rewrite (Rplus_comm PI), neg_cos, neg_sin. destruct (cs_atan (- c) (- s)) as [C S]; [lra |].
      replace (- s / - c) with (s / c) in * by (field; lra).
      assert (norm (- c) (- s) = norm c s) as N by (unfold norm; f_equal; ring). rewrite N in *. lra.
    + assert (0 < c) as Lp by lra. destruct (cs_atan c s Lp) as [C S].
      destruct (Rlt_dec (atan (s / c)) 0) as [La | La]; [destruct (Rlt_dec 0 c); [| lra] | lra].
      replace (2 * PI + atan (s / c)) with (atan (s / c) + 2 * INR 1 * PI) by (cbn [INR]; ring).
      rewrite cos_period, sin_period. cbn [INR]. lra.
Qed.

(** Turning a vector [v] of length 1 into the direction of a vector close to it. *)
Lemma norm_dist_tri a b c d : norm a b <= norm c d + norm (a - c) (b - d).
Proof.
  assert (C : 0 <= (c * c + d * d) * ((a - c) * (a - c) + (b - d) * (b - d)) - (c * (a - c) + d * (b - d)) * (c * (a - c) + d * (b - d))).
  { replace (_ - _) with ((c * (b - d) - d * (a - c)) * (c * (b - d) - d * (a - c))) by ring. apply Rle_0_sqr. }
  pose proof (norm_sq a b) as E1. pose proof (norm_sq c d) as E2. pose proof (norm_sq (a - c) (b - d)) as E3.
  pose proof (norm_nonneg a b). pose proof (norm_nonneg c d). pose proof (norm_nonneg (a - c) (b - d)).
  set (x := norm a b) in *. set (y := norm c d) in *. set (z := norm (a - c) (b - d)) in *.
  rewrite <- E2, <- E3 in C. clearbody x y z.
  apply Rsqr_incr_0_var; [unfold Rsqr | lra].
  assert (c * (a - c) + d * (b - d) <= y * z).
  { destruct (Rle_dec (c * (a - c) + d * (b - d)) (y * z)) as [| N]; [assumption |]. exfalso.
    assert (0 <= y * z) by nra. nra. }
  nra.
Qed.
Lemma norm_swap a b c d : norm (a - c) (b - d) = norm (c - a) (d - b).
Proof. unfold norm. f_equal. ring. Qed.
Lemma norm_plus a b : norm a b <= Rabs a + Rabs b.
Proof.
  apply Rsqr_incr_0_var; [| pose proof (Rabs_pos a); pose proof (Rabs_pos b); lra]. unfold Rsqr. rewrite norm_sq.
  pose proof (Rabs_pos a). pose proof (Rabs_pos b).
  assert (Rabs a * Rabs a = a * a) by (rewrite <- Rabs_mult; apply Rabs_pos_eq; nra).
  assert (Rabs b * Rabs b = b * b) by (rewrite <- Rabs_mult; apply Rabs_pos_eq; nra). nra.
Qed.
Lemma norm_unit t : norm (cos t) (sin t) = 1.
Proof. rewrite <- (norm_polar 1 t) by lra. rewrite !Rmult_1_l. reflexivity. Qed.
Lemma direction_close c s t p : c = norm c s * cos t -> s = norm c s * sin t ->
  norm (cos t - cos p) (sin t - sin p) <= 2 * (Rabs (c - cos p) + Rabs (s - sin p)).
Proof.
  intros Ec Es. set (m := norm c s) in *. assert (0 <= m) as Hm by apply norm_nonneg.
  pose proof (norm_dist_tri (cos t - cos p) (sin t - sin p) (c - cos p) (s - sin p)) as T1.
  assert (D : norm (cos t - cos p - (c - cos p)) (sin t - sin p - (s - sin p)) = Rabs (1 - m)).
  { rewrite Ec, Es at 1. unfold norm.
    replace (_ + _) with ((1 - m) * (1 - m) * (sin t * sin t + cos t * cos t)) by ring.
    replace (sin t * sin t + cos t * cos t) with 1 by (symmetry; apply sin2_cos2). rewrite Rmult_1_r. apply sqrt_Rsqr_abs. }
  rewrite D in T1.
  assert (M : Rabs (1 - m) <= norm (c - cos p) (s - sin p)).
  { pose proof (norm_dist_tri c s (cos p) (sin p)) as A. rewrite norm_unit in A. fold m in A.
    pose proof (norm_dist_tri (cos p) (sin p) c s) as B. rewrite norm_unit, norm_swap in B. fold m in B.
    apply Rabs_le. lra. }
  pose proof (norm_plus (c - cos p) (s - sin p)). lra.
Qed.

(** ** The frame around a direction *)
Definition fa (n : v3) : v3 :=
  let l1 := sqrt (vx n * vx n + vy n * vy n) in if Req_EM_T l1 0 then V 1 0 0 else V (vy n / l1) (- vx n / l1) 0.
Definition fb (n : v3) : v3 := cross n (fa n).

Lemma l1_zero n : sqrt (vx n * vx n + vy n * vy n) = 0 -> vx n = 0 /\ vy n = 0.
Proof. intros H. apply sqrt_eq_0 in H; [| nra]. split; nra. Qed.
Lemma l1_sq n : sqrt (vx n * vx n + vy n * vy n) * sqrt (vx n * vx n + vy n * vy n) = vx n * vx n + vy n * vy n.
Proof. apply sqrt_sqrt. nra. Qed.

Lemma frame n : dot n n = 1 ->
  dot (fa n) (fa n) = 1 /\ dot (fb n) (fb n) = 1 /\ dot (fa n) (fb n) = 0 /\ dot n (fa n) = 0 /\ dot n (fb n) = 0
  /\ cross n (fb n) = vscale (-1) (fa n) /\ cross (fa n) (fb n) = n.
Proof.
  intros U. unfold fb, fa. pose proof (l1_sq n) as L. set (l1 := sqrt _) in *.
  assert (A : dot (if Req_EM_T l1 0 then V 1 0 0 else V (vy n / l1) (- vx n / l1) 0)
                  (if Req_EM_T l1 0 then V 1 0 0 else V (vy n / l1) (- vx n / l1) 0) = 1
              /\ dot n (if Req_EM_T l1 0 then V 1 0 0 else V (vy n / l1) (- vx n / l1) 0) = 0).
  { destruct (Req_EM_T l1 0) as [Z | Z].
    - apply l1_zero in Z. unfold dot; cbn. destruct Z as [-> ->]. lra.
    - unfold dot; cbn. split; [| field; lra].
      replace 1 with ((vx n * vx n + vy n * vy n) * / (l1 * l1)) by (rewrite <- L; field; lra). field; lra. }
  set (a := if Req_EM_T l1 0 then _ else _) in *. clearbody a. clear L l1. destruct A as [A N].
  destruct n as [n0 n1 n2], a as [a0 a1 a2]. unfold dot, cross, vscale in *; cbn in *.
  split; [exact A |].
  split. { transitivity ((n0 * n0 + n1 * n1 + n2 * n2) * (a0 * a0 + a1 * a1 + a2 * a2)
                         - (n0 * a0 + n1 * a1 + n2 * a2) * (n0 * a0 + n1 * a1 + n2 * a2)); [ring | rewrite U, A, N; ring]. }
  split; [ring |]. split; [exact N |]. split; [ring |].
  split.
  - apply v3_ext; cbn.
    + transitivity (n0 * (n0 * a0 + n1 * a1 + n2 * a2) - a0 * (n0 * n0 + n1 * n1 + n2 * n2)); [ring | rewrite U, N; ring].
    + transitivity (n1 * (n0 * a0 + n1 * a1 + n2 * a2) - a1 * (n0 * n0 + n1 * n1 + n2 * n2)); [ring | rewrite U, N; ring].
    + transitivity (n2 * (n0 * a0 + n1 * a1 + n2 * a2) - a2 * (n0 * n0 + n1 * n1 + n2 * n2)); [ring | rewrite U, N; ring].
  - apply v3_ext; cbn.
    + transitivity (n0 * (a0 * a0 + a1 * a1 + a2 * a2) - a0 * (n0 * a0 + n1 * a1 + n2 * a2)); [ring | rewrite A, N; ring].
    + transitivity (n1 * (a0 * a0 + a1 * a1 + a2 * a2) - a1 * (n0 * a0 + n1 * a1 + n2 * a2)); [ring | rewrite A, N; ring].
    + transitivity (n2 * (a0 * a0 + a1 * a1 + a2 * a2) - a2 * (n0 * a0 + n1 * a1 + n2 * a2)); [ring | rewrite A, N; ring].
Qed.

(** The second vector as the code computes it. *)
Lemma fb_code n : dot n n = 1 ->
  fb n = let l1 := sqrt (vx n * vx n + vy n * vy n) in
         if Req_EM_T l1 0 then (if Rlt_dec (vz n) 0 then V 0 (-1) 0 else V 0 1 0)
         else V (vx n * vz n / l1) (vy n * vz n / l1) (- l1).
Proof.
  intros U. unfold fb, fa. cbv zeta. pose proof (l1_sq n) as L. set (l1 := sqrt _) in *.
  destruct (Req_EM_T l1 0) as [Z | Z].
  - apply l1_zero in Z. destruct n as [n0 n1 n2]. unfold dot in U. cbn in *. destruct Z as [-> ->].
    assert (n2 = 1 \/ n2 = -1) as [-> | ->].
    { assert ((n2 - 1) * (n2 + 1) = 0) as E by lra. apply Rmult_integral in E. lra. }
    + destruct (Rlt_dec 1 0); [lra |]. vecs; ring.
    + destruct (Rlt_dec (-1) 0); [| lra]. vecs; ring.
  - vecs; [field; lra | field; lra |]. replace (- l1) with (- (l1 * l1) / l1) by (field; lra). rewrite L. field; lra.
Qed.

Definition spin (right : bool) (t : R) : R := if right then t else - t.

Lemma coor_frame r t n c right : dot n n = 1 ->
  get_coor_by_rt r t n c right = vadd c (vscale r (vadd (vscale (cos t) (fa n)) (vscale (spin right 1 * sin t) (fb n)))).
Proof.
  intros U. unfold get_coor_by_rt. rewrite fb_code by exact U. cbv zeta.
  assert (L2 : sqrt (vx n * vx n + vy n * vy n + vz n * vz n) = 1).
  { unfold dot in U. rewrite U. apply sqrt_1. }
  rewrite L2. unfold fa. set (l1 := sqrt _).
  destruct (Req_EM_T l1 0) as [Z | Z].
  - destruct (Rlt_dec (vz n) 0); destruct right; vecs; cbn [spin]; ring.
  - destruct right; vecs; cbn [spin]; field; lra.
Qed.

(** A vector across [n] in the frame. *)
Lemma in_frame n v : dot n n = 1 -> dot n v = 0 -> v = vadd (vscale (dot v (fa n)) (fa n)) (vscale (dot v (fb n)) (fb n)).
Proof.
  intros U H. destruct (frame n U) as (A & B & AB & NA & NB & _ & X).
  assert (C1 : forall w, dot w (fa n) = 0 -> dot w (fb n) = 0 -> dot n w = 0 -> w = V 0 0 0).
  { intros w W1 W2 W3.
    assert (dot w w = 0) as E; [| unfold dot in E; vecs; nra].
    unfold fb in W2. destruct n as [n0 n1 n2], w as [w0 w1 w2]. set (a := fa _) in *. clearbody a. destruct a as [a0 a1 a2].
    unfold dot, cross in *; cbn in *.
    set (d := n0 * n0 + n1 * n1 + n2 * n2) in *. set (e := a0 * a0 + a1 * a1 + a2 * a2) in *.
    assert (G : (w0 * w0 + w1 * w1 + w2 * w2) * (d * e - (n0 * a0 + n1 * a1 + n2 * a2) * (n0 * a0 + n1 * a1 + n2 * a2)) =
       (w0 * (n1 * a2 - n2 * a1) + w1 * (n2 * a0 - n0 * a2) + w2 * (n0 * a1 - n1 * a0)) * (w0 * (n1 * a2 - n2 * a1) + w1 * (n2 * a0 - n0 * a2) + w2 * (n0 * a1 - n1 * a0))
       + (n0 * w0 + n1 * w1 + n2 * w2) * (n0 * w0 + n1 * w1 + n2 * w2) * e
       + (w0 * a0 + w1 * a1 + w2 * a2) * (w0 * a0 + w1 * a1 + w2 * a2) * d
       - 2 * (n0 * w0 + n1 * w1 + n2 * w2) * (w0 * a0 + w1 * a1 + w2 * a2) * (n0 * a0 + n1 * a1 + n2 * a2)).
    { unfold d, e. ring. }
    rewrite U, A, NA, W1, W2, W3 in G. lra. }
  set (w := vsub v (vadd (vscale (dot v (fa n)) (fa n)) (vscale (dot v (fb n)) (fb n)))).
  assert (W : w = V 0 0 0).
  { apply C1; unfold w.
    - rewrite dot_sub_l, dot_add_l, !dot_scale_l, A, (dot_sym (fb n)), AB. ring.
    - rewrite dot_sub_l, dot_add_l, !dot_scale_l, B, AB. ring.
    - rewrite dot_sym, dot_sub_l, dot_add_l, !dot_scale_l, (dot_sym v n), (dot_sym (fa n) n), (dot_sym (fb n) n), H, NA, NB. ring. }
  unfold w in W. injection W as W1 W2 W3. vecs; cbn in *; lra.
Qed.


Lemma pyround5_neg x y : Rabs (x - y) <= 5 / 1000000 -> Rabs (- x - - y) <= 5 / 1000000.
Proof. intros H. replace (- x - - y) with (- (x - y)) by ring. rewrite Rabs_Ropp. exact H. Qed.

Lemma theta_finish s c p K : Rabs (s - sin p) <= 5 / 1000000 -> Rabs (c - cos p) <= 5 / 1000000 * (1 + K) ->
  pyround c 5 = c ->
  0 <= theta_of s c < 2 * PI /\ norm (cos (theta_of s c) - cos p) (sin (theta_of s c) - sin p) <= 1 / 100000 * (2 + K).
Proof.
  intros Hs Hc I. destruct (theta_of_spec s c I) as (A & B & C). split; [exact C |].
  pose proof (direction_close c s (theta_of s c) p A B). lra.
Qed.

Lemma theta_spec n c r right p : dot n n = 1 -> 0 <= r -> pyround r 3 <> 0 ->
  exists t, get_theta_by_coor (vadd c (vscale r (vadd (vscale (cos p) (fa n)) (vscale (spin right 1 * sin p) (fb n))))) n c r right = Some t
    /\ 0 <= t < 2 * PI /\ norm (cos t - cos p) (sin t - sin p) <= 1 / 100000 * (2 + blur n).
Proof.
  intros U Hr N. pose proof (pyround3_pos r Hr N) as P. unfold get_theta_by_coor.
  destruct (Req_EM_T (pyround r 3) 0) as [E | _]; [contradiction |].
  set (q := vadd (vscale (cos p) (fa n)) (vscale (spin right 1 * sin p) (fb n))).
  assert (D : vscale (/ r) (vsub (vadd c (vscale r q)) c) = q) by (vecs; field; lra).
  rewrite D. clear D. cbv zeta. unfold q, fa, blur. rewrite fb_code by exact U. cbv zeta. set (l1 := sqrt _).
  assert (S1 : spin right 1 * spin right 1 = 1) by (destruct right; cbn; lra).
  destruct (Req_EM_T l1 0) as [Z | Z].
  - apply l1_zero in Z. destruct Z as [Zx Zy]. destruct (Req_EM_T (vz n) 0) as [Z | Z].
    { unfold dot in U. rewrite Zx, Zy, Z in U. lra. }
    eexists. split; [reflexivity |]. rewrite Zy. destruct (Req_EM_T 0 0) as [_ |]; [| lra].
    apply theta_finish.
    + set (y := vy _).
      assert (Y : y = (if Rlt_dec (vz n) 0 then -1 else 1) * spin right 1 * sin p).
      { unfold y. destruct (Rlt_dec (vz n) 0); cbn; ring. }
      pose proof (pyround5 y) as E.
      destruct (Rlt_dec (vz n) 0), right; cbn [spin] in *; rewrite ?Ropp_involutive.
      * replace (sin p) with (- y) by lra. apply pyround5_neg, E.
      * replace (sin p) with y by lra. exact E.
      * replace (sin p) with y by lra. exact E.
      * replace (sin p) with (- y) by lra. apply pyround5_neg, E.
    + set (x := vx _). assert (X : x = cos p) by (unfold x; destruct (Rlt_dec (vz n) 0); cbn; ring). rewrite X.
      rewrite Rplus_0_r, Rmult_1_r. apply pyround5.
    + apply pyround_idem.
  - set (b := if right then _ else _).
    assert (Bx : vx b = spin right 1 * (vx n * vz n / l1)) by (unfold b; destruct right; cbn; field; lra).
    assert (By : vy b = spin right 1 * (vy n * vz n / l1)) by (unfold b; destruct right; cbn; field; lra).
    assert (Bz : vz b = spin right 1 * (- l1)) by (unfold b; destruct right; cbn; field; lra).
    assert (S0 : spin right 1 <> 0) by (destruct right; cbn; lra).
    eexists. split; [reflexivity |]. rewrite Bx, By, Bz. cbn [vx vy vz vadd vscale].
    set (s := pyround _ 5) at 1.
    assert (Es : Rabs (s - sin p) <= 5 / 1000000).
    { unfold s. replace ((cos p * 0 + spin right 1 * sin p * - l1) / (spin right 1 * - l1)) with (sin p); [apply pyround5 |].
      field. split; assumption. }
    fold s. clearbody s.
    apply theta_finish; [exact Es | |].
    + destruct (Req_EM_T (vy n) 0) as [Zy | Zy].
      * rewrite Zy. assert (vx n <> 0) as Zx.
        { intros Zx. apply Z. unfold l1. rewrite Zx, Zy. replace (0 * 0 + 0 * 0) with 0 by ring. apply sqrt_0. }
        rewrite Rplus_0_r, Rmult_1_r.
        match goal with |- Rabs (pyround ?x 5 - _) <= _ => replace x with (cos p) by (field; split; assumption) end.
        apply pyround5.
      * set (x := (_ - _) / _).
        assert (X : x = cos p + spin right 1 * (vx n * vz n / vy n) * (sin p - s)) by (unfold x; field; split; assumption).
        pose proof (pyround5 x) as E. replace (pyround x 5 - cos p) with ((pyround x 5 - x) + (x - cos p)) by ring.
        eapply Rle_trans; [apply Rabs_triang |].
        assert (Rabs (x - cos p) <= 5 / 1000000 * Rabs (vx n * vz n / vy n)); [| lra].
        rewrite X. replace (cos p + _ - cos p) with (spin right 1 * ((vx n * vz n / vy n) * - (s - sin p))) by ring.
        rewrite Rabs_mult. replace (Rabs (spin right 1)) with 1.
        2:{ destruct right; cbn; [rewrite Rabs_R1; reflexivity | rewrite Rabs_Ropp, Rabs_R1; reflexivity]. }
        rewrite Rmult_1_l, Rabs_mult, Rabs_Ropp, Rmult_comm. apply Rmult_le_compat_r; [apply Rabs_pos | exact Es].
    + destruct (Req_EM_T (vy n) 0); apply pyround_idem.
Qed.
