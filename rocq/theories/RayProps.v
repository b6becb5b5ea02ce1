(** Property C114: distances along rays and segments to circles and rectangles, points in ellipses (verse/utils/utils.py:94-109,
    363-413). *)
From Coq Require Import Reals List Bool Lra Psatz.
From Verif Require Import Angle Polygon Ray RaySpec RayProofs.
Import ListNotations.
Open Scope R_scope.

(** ** C114: for a segment along none of the sides, the result is infinite if the segment does not meet the rectangle; otherwise
    it is the distance to the first point of the segment's line in the rectangle. *)
Theorem C114_rect_meets : forall r q a b c d, right_angled a b d -> not_along r q a b d -> r <> q ->
  (distance_to_rect r q a b c d = PInf <-> forall t, 0 <= t <= 1 -> ~ within a b d (on_way r q t)).
Proof.
  intros r q a b c d HR (N1 & N2 & N3 & N4) Hrq. destruct HR as (Ho & Hb & Hd). pose proof (conj Ho (conj Hb Hd)) as HR.
  destruct (@side_ok r q a b Hb N1 N2) as (P1 & F1 & I1). destruct (@side_ok r q a d Hd N3 N4) as (P2 & F2 & I2).
  unfold distance_to_rect. cbv zeta. pose proof (@meets_some _ _ P1 P2) as M. unfold meets in M.
  assert (Nl : 0 < norm (fst q - fst r) (snd q - snd r)) by (apply norm_pos, pt_neq, Hrq).
  split.
  - intros H t Ht Hw. apply (sides_sum _ _ _ HR) in Hw. destruct Hw as [W1 W2].
    assert (Mt := proj2 M (ex_intro _ t (conj Ht (conj (proj1 (F1 t) W1) (proj1 (F2 t) W2))))). rewrite Mt in H.
    destruct (@first_point _ _ _ P1 P2 Nl) as (t0 & E & _).
    + exists t. split; [apply F1; exact W1|apply F2; exact W2].
    + intros [E1 E2]. apply I1 in E1. apply I2 in E2. exact (no_direction _ _ _ _ _ Hb Hd Ho Hrq E1 E2).
    + rewrite E in H. discriminate H.
  - intros H. destruct (_ && _) eqn:E; [|reflexivity]. exfalso. destruct (proj1 M eq_refl) as (t & Ht & X1 & X2). apply (H t Ht). apply (sides_sum _ _ _ HR). split; [apply F1; exact X1|apply F2; exact X2].
Qed.
Print Assumptions C114_rect_meets.

Theorem C114_rect_first : forall r q a b c d v, right_angled a b d -> not_along r q a b d -> r <> q ->
  distance_to_rect r q a b c d = v -> v <> PInf ->
  exists t0, v = Fin (t0 * len r q) /\ within a b d (on_way r q t0) /\ (forall t, within a b d (on_way r q t) -> t0 <= t) /\
    (~ within a b d r -> 0 < t0 <= 1).
Proof.
  intros r q a b c d v HR (N1 & N2 & N3 & N4) Hrq Hv Hf. destruct HR as (Ho & Hb & Hd). pose proof (conj Ho (conj Hb Hd)) as HR.
  destruct (@side_ok r q a b Hb N1 N2) as (P1 & F1 & I1). destruct (@side_ok r q a d Hd N3 N4) as (P2 & F2 & I2).
  unfold distance_to_rect in Hv. cbv zeta in Hv. pose proof (@meets_some _ _ P1 P2) as M. unfold meets in M.
  assert (Nl : 0 < norm (fst q - fst r) (snd q - snd r)) by (apply norm_pos, pt_neq, Hrq).
  destruct (_ && _) eqn:E; [|congruence]. destruct (proj1 M eq_refl) as (t & Ht & X1 & X2).
  destruct (@first_point _ _ _ P1 P2 Nl) as (t0 & E0 & G1 & G2 & G3).
  - exists t. auto.
  - intros [E1 E2]. apply I1 in E1. apply I2 in E2. exact (no_direction _ _ _ _ _ Hb Hd Ho Hrq E1 E2).
  - assert (W : forall t', within a b d (on_way r q t') <-> fits (fst (side_interval r q a b)) (snd (side_interval r q a b)) t' /\ fits (fst (side_interval r q a d)) (snd (side_interval r q a d)) t').
    { intros t'. rewrite (sides_sum _ _ _ HR), F1, F2. reflexivity. }
    exists t0. split; [rewrite <- Hv, E0; reflexivity|]. split; [apply W; auto|]. split; [intros t' Hw; apply W in Hw; apply G3; tauto|].
    intros Hout. split; [|specialize (G3 t X1 X2); lra]. destruct (Rlt_dec 0 t0) as [L|L]; [exact L|]. exfalso. apply Hout.
    (* the rectangle is convex: it contains the points at t0 <= 0 and t >= 0, hence r *)
    replace r with (on_way r q 0) by (unfold on_way; destruct r; cbn; f_equal; ring). apply W.
    split; [eapply fits_between; [exact G1|exact X1|lra|lra]|eapply fits_between; [exact G2|exact X2|lra|lra]].
Qed.
Print Assumptions C114_rect_first.

(** ** C114: the first point of a ray from the origin in the disc; [infinity] only if no later point than the origin is in it. *)
Theorem C114_circle : forall center radius direction, 0 < radius -> direction <> (0, 0) ->
  match distance_to_circle center radius direction with
  | Fin t0 => 0 <= t0 /\ in_disc center radius (t0 * fst direction, t0 * snd direction) /\
              forall t, 0 <= t -> in_disc center radius (t * fst direction, t * snd direction) -> t0 <= t
  | PInf => forall t, 0 < t -> ~ in_disc center radius (t * fst direction, t * snd direction)
  | _ => False
  end.
Proof.
  intros [c1 c2] R0 [d1 d2] HR Hd. unfold distance_to_circle, dotp, in_disc. cbn [fst snd]. rewrite !norm_sqr.
  set (A := Rsqr (d1 / R0) + Rsqr (d2 / R0)). set (B := - 2 * (c1 * (d1 / Rsqr R0) + c2 * (d2 / Rsqr R0))). set (C0 := Rsqr (c1 / R0) + Rsqr (c2 / R0) - 1).
  assert (R2 : 0 < R0 * R0) by nra.
  assert (HA : 0 < A).
  { replace A with ((d1 * d1 + d2 * d2) / (R0 * R0)) by (unfold A, Rsqr; field; lra). apply Rmult_lt_0_compat; [|apply Rinv_0_lt_compat; exact R2].
    apply sum_pos. destruct (Req_dec d1 0) as [->|]; [|auto]. right. intros ->. apply Hd. reflexivity. }
  assert (W : forall t, Rsqr (t * d1 - c1) + Rsqr (t * d2 - c2) <= Rsqr R0 <-> A * Rsqr t + B * t + C0 <= 0).
  { intros t. replace (A * Rsqr t + B * t + C0) with ((Rsqr (t * d1 - c1) + Rsqr (t * d2 - c2) - Rsqr R0) / (R0 * R0)) by (unfold A, B, C0, Rsqr; field; lra).
    split; intros H.
    - apply Rmult_le_reg_r with (r := R0 * R0); [exact R2|]. unfold Rdiv. rewrite Rmult_assoc, Rinv_l by lra. lra.
    - apply Rmult_le_compat_r with (r := R0 * R0) in H; [|lra]. unfold Rdiv in H. rewrite Rmult_assoc, Rinv_l in H by lra. lra. }
  pose proof (@trinom_sound A B C0 HA) as T. destruct (solve_trinom A B C0) as [[x y]|].
  - destruct T as [Hxy T]. destruct (Rlt_dec 0 x) as [Hx|Hx]; [|destruct (Rlt_dec 0 y) as [Hy|Hy]].
    + split; [lra|]. split; [apply W, T; lra|]. intros t _ Ht. apply W, T in Ht. lra.
    + split; [lra|]. split; [apply W, T; lra|]. intros t Ht _. exact Ht.
    + intros t Ht Hi. apply W, T in Hi. lra.
  - intros t _ Hi. apply W in Hi. specialize (T t). lra.
Qed.
Print Assumptions C114_circle.

(** ** C114: the test answers for the ellipse turned by the opposite angle. *)
Theorem C114_ellipse_partial : forall p center angle length width,
  point_in_ellipse p center angle length width = true <-> in_ellipse center (- angle) length width p.
Proof.
  intros [p1 p2] [c1 c2] angle l w. unfold point_in_ellipse, rotate, in_ellipse. cbn [fst snd]. rewrite cos_neg, sin_neg.
  pose proof (sin2_cos2 angle) as S. unfold Rsqr at 1 2 in S. set (s := sin angle) in *. set (c := cos angle) in *. split.
  - destruct (Rlt_dec _ 1) as [L|]; [intros _|discriminate]. eexists _, _. split; [exact L|]. f_equal.
    + transitivity (c1 + (p1 - c1) * (s * s + c * c)); [rewrite S; ring|ring].
    + transitivity (c2 + (p2 - c2) * (s * s + c * c)); [rewrite S; ring|ring].
  - intros (u & v & L & E). injection E as -> ->. destruct (Rlt_dec _ 1) as [|N]; [reflexivity|]. exfalso. apply N.
    replace (c * (c1 + (u * c - v * - s) - c1) + - s * (c2 + (u * - s + v * c) - c2)) with u by (transitivity (u * (s * s + c * c)); [rewrite S; ring|ring]).
    replace (s * (c1 + (u * c - v * - s) - c1) + c * (c2 + (u * - s + v * c) - c2)) with v by (transitivity (v * (s * s + c * c)); [rewrite S; ring|ring]). exact L.
Qed.
Print Assumptions C114_ellipse_partial.

(** ** Cases *)
Module Example_C114.
  (** From (-2, 1) to (2, 3) through the rectangle with corners (0, 0), (4, 0), (4, 3), (0, 3): it enters at (0, 2). *)
  Example ex_rect : exists t0, distance_to_rect (-2, 1) (2, 3) (0, 0) (4, 0) (4, 3) (0, 3) = Fin (t0 * len (-2, 1) (2, 3)) /\ t0 = 1 / 2.
  Proof.
    assert (HR : right_angled (0, 0) (4, 0) (0, 3)) by (split; [cbn; ring|split; intros [=]; lra]).
    assert (HN : not_along (-2, 1) (2, 3) (0, 0) (4, 0) (0, 3)) by (repeat split; unfold along; cbn; lra).
    assert (HQ : (-2, 1) <> (2, 3)) by (intros [=]; lra).
    assert (W : forall t, within (0, 0) (4, 0) (0, 3) (on_way (-2, 1) (2, 3) t) <-> 1 / 2 <= t <= 1).
    { intros t. rewrite (sides_sum _ _ _ HR). unfold on_way. cbn. lra. }
    destruct (@C114_rect_first _ _ _ _ (4, 3) _ _ HR HN HQ eq_refl) as (t0 & E & H1 & H2 & _).
    - intros E. apply (proj1 (C114_rect_meets _ _ _ _ _ _ HR HN HQ) E 1); [lra|]. apply W. lra.
    - exists t0. split; [exact E|]. apply W in H1. specialize (H2 (1 / 2)). rewrite W in H2. lra.
  Qed.
  (** The circle of radius 5 about (6, 0) seen from the origin along (1, 0): it is 1 away. *)
  Example ex_circle : distance_to_circle (6, 0) 5 (1, 0) = Fin 1.
  Proof.
    pose proof (@C114_circle (6, 0) 5 (1, 0) ltac:(lra) ltac:(intros [=]; lra)) as H. unfold in_disc in H. cbn [fst snd] in H. destruct (distance_to_circle _ _ _) as [t0| | |]; try contradiction.
    - destruct H as (H0 & H1 & H2). f_equal. specialize (H2 1). unfold Rsqr in *. assert (t0 <= 1) by (apply H2; lra). nra.
    - exfalso. apply (H 1); [lra|]. unfold Rsqr. lra.
  Qed.
  Example ex_ellipse : point_in_ellipse (3, 1) (1, 1) 0 3 1 = true.
  Proof. apply C114_ellipse_partial. exists 2, 0. rewrite Ropp_0, cos_0, sin_0. split; [unfold Rsqr; lra|]. cbn. f_equal; ring. Qed.
End Example_C114.

(** ** Where it fails *)

(** C114: a segment along the side opposite to [a] gives 0 / 0, and the rectangle is missed. *)
Theorem C114_along_refuted : exists r q a b c d, right_angled a b d /\ r <> q /\
  (forall t, 0 <= t <= 1 -> within a b d (on_way r q t)) /\ distance_to_rect r q a b c d = PInf.
Proof.
  exists (1, 3), (2, 3), (0, 0), (4, 0), (4, 3), (0, 3). assert (HR : right_angled (0, 0) (4, 0) (0, 3)) by (split; [cbn; ring|split; intros [=]; lra]).
  split; [exact HR|]. split; [intros [=]; lra|]. split.
  - intros t Ht. apply (sides_sum _ _ _ HR). unfold on_way. cbn. lra.
  - unfold distance_to_rect. assert (E : side_interval (1, 3) (2, 3) (0, 0) (0, 3) = (NInf, NaN)).
    { unfold side_interval, unit_of, minus, dotp, ediv. cbn [fst snd]. replace (3 - 0) with 3 by ring. set (n := norm (0 - 0) 3). assert (Hn : 0 < n) by (apply norm_pos; right; lra).
      replace ((2 - 1) * ((0 - 0) / n) + (3 - 3) * (3 / n)) with 0 by (unfold Rdiv; ring). replace ((0 - 1) * ((0 - 0) / n) + (3 - 3) * (3 / n)) with 0 by (unfold Rdiv; ring).
      assert (L : (0 - 1) * ((0 - 0) / n) + (0 - 3) * (3 / n) < 0) by (replace (_ + _) with (- (9 * / n)) by (field; lra); pose proof (Rinv_0_lt_compat _ Hn); lra).
      destruct (Rle_dec 0 0) as [_|N]; [|exfalso; apply N; lra]. destruct (Req_EM_T 0 0) as [_|N]; [|exfalso; apply N; reflexivity].
      destruct (Rlt_dec 0 0) as [N|_]; [exfalso; lra|]. destruct (Rlt_dec 0 _) as [N|_]; [exfalso; lra|]. destruct (Rlt_dec _ 0) as [_|N]; [reflexivity|exfalso; apply N, L]. }
    rewrite E. replace (ele (einterval_distance (Fin 0, Fin 1) (NInf, NaN)) (Fin 0)) with false by reflexivity. rewrite andb_false_r. reflexivity.
Qed.
Print Assumptions C114_along_refuted.

(** C114: from inside the rectangle the result is negative. *)
Theorem C114_inside_refuted : exists r q a b c d x, right_angled a b d /\ not_along r q a b d /\ r <> q /\ within a b d r /\
  distance_to_rect r q a b c d = Fin x /\ x < 0.
Proof.
  exists (1, 1), (3, 2), (0, 0), (4, 0), (4, 3), (0, 3).
  assert (HR : right_angled (0, 0) (4, 0) (0, 3)) by (split; [cbn; ring|split; intros [=]; lra]).
  assert (HN : not_along (1, 1) (3, 2) (0, 0) (4, 0) (0, 3)) by (repeat split; unfold along; cbn; lra).
  assert (HQ : (1, 1) <> (3, 2)) by (intros [=]; lra).
  assert (W : forall t, within (0, 0) (4, 0) (0, 3) (on_way (1, 1) (3, 2) t) <-> - (1 / 2) <= t <= 3 / 2).
  { intros t. rewrite (sides_sum _ _ _ HR). unfold on_way. cbn. lra. }
  destruct (@C114_rect_first _ _ _ _ (4, 3) _ _ HR HN HQ eq_refl) as (t0 & E & H1 & H2 & _).
  - intros E. apply (proj1 (C114_rect_meets _ _ _ _ _ _ HR HN HQ) E 1); [lra|]. apply W. lra.
  - exists (t0 * len (1, 1) (3, 2)). split; [exact HR|]. split; [exact HN|]. split; [exact HQ|]. split; [apply (sides_sum _ _ _ HR); cbn; lra|]. split; [exact E|].
    apply W in H1. specialize (H2 (- (1 / 2))). rewrite W in H2. assert (L : 0 < len (1, 1) (3, 2)) by (unfold len; apply sqrt_lt_R0; cbn; unfold Rsqr; lra). assert (t0 <= - (1 / 2)) by (apply H2; lra). nra.
Qed.
Print Assumptions C114_inside_refuted.

(** C114: on the circle and moving outwards, the root 0 counts as none and the result is infinite. *)
Theorem C114_touch_refuted : exists center radius direction, 0 < radius /\ direction <> (0, 0) /\ in_disc center radius (0, 0) /\ distance_to_circle center radius direction = PInf.
Proof.
  exists (-1, 0), 1, (1, 0). split; [lra|]. split; [intros [=]; lra|]. split; [unfold in_disc, Rsqr; cbn; lra|].
  pose proof (@C114_circle (-1, 0) 1 (1, 0) ltac:(lra) ltac:(intros [=]; lra)) as H. unfold distance_to_circle in *. cbv zeta in *. rewrite !norm_sqr in *. unfold dotp in *. cbn [fst snd] in *.
  set (A := Rsqr (1 / 1) + _) in *. set (B := - 2 * _) in *. set (C0 := _ - 1) in *. assert (HA : 0 < A) by (unfold A, Rsqr; lra).
  pose proof (@trinom_sound A B C0 HA) as T. destruct (solve_trinom A B C0) as [[x y]|]; [|reflexivity]. destruct T as [Hxy T].
  assert (W : forall t, x <= t <= y <-> t * t + 2 * t <= 0) by (intros t; rewrite <- T; unfold A, B, C0, Rsqr; split; intros; lra).
  assert (X := proj1 (W y) ltac:(lra)). assert (X2 := proj1 (W x) ltac:(lra)). destruct (Rlt_dec 0 x); [exfalso; nra|]. destruct (Rlt_dec 0 y); [exfalso; nra|]. reflexivity.
Qed.
Print Assumptions C114_touch_refuted.

(** C114: a point of a turned ellipse is not found. *)
Theorem C114_ellipse_refuted : exists p center angle length width, in_ellipse center angle length width p /\ point_in_ellipse p center angle length width = false.
Proof.
  exists (3 * cos (PI / 4), 3 * sin (PI / 4)), (0, 0), (PI / 4), 10, 1. split.
  - exists 3, 0. split; [unfold Rsqr; lra|]. cbn. f_equal; ring.
  - unfold point_in_ellipse, rotate. cbn [fst snd]. pose proof (sin2_cos2 (PI / 4)) as S. rewrite sin_PI4, cos_PI4 in *. set (k := 1 / sqrt 2) in *.
    destruct (Rlt_dec _ 1) as [L|]; [|reflexivity]. exfalso. unfold Rsqr in *. assert (k * k = 1 / 2) by lra.
    replace ((k * (3 * k - 0) + - k * (3 * k - 0)) / 10) with 0 in L by field. replace ((k * (3 * k - 0) + k * (3 * k - 0)) / 1) with (6 * (k * k)) in L by field. rewrite H in L. lra.
Qed.
Print Assumptions C114_ellipse_refuted.
