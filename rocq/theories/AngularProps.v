(** Properties C73 to C76: bounds of angles.

    [same_angle] (AngleSpec.v) is equality up to whole turns; [angle_in], [on_arc], [in_bound] and [direction]
    (AngularSpec.v) say which angles a bound contains. *)
From Coq Require Import Reals Lra Lia Psatz List.
From Verif Require Import Base Angle AngleSpec AngleProofs Angular AngularSpec AngularProofs AngularRect AngularProj.
Import ListNotations.
Set Implicit Arguments.
Open Scope R_scope.

(** * C73: the difference of two bounds contains exactly the differences *)
Theorem C73_difference_partial : forall fuel theta ref, proper theta -> proper ref -> (1 <= fuel)%nat ->
  (snd theta - fst theta + (snd ref - fst ref) < 2 * PI \/ theta = (- PI, PI) \/ ref = (- PI, PI)) ->
  exists b, diff_bounds fuel theta ref = Some b /\
    forall x, in_bound b x <-> exists a c, fst theta <= a <= snd theta /\ fst ref <= c <= snd ref /\ same_angle x (a - c).
Proof.
  intros fuel theta ref Ht Hr Hf H. apply diff_spec; assumption.
Qed.

Lemma three_pi : 3 < PI <= 4.
Proof. pose proof PI2_3_2. pose proof PI_4. lra. Qed.

(** Wide bounds: from [-3, 3] to [-3, -1] the difference is reported between -2 and 6 - 2 PI. *)
Theorem C73_wide_refuted : exists theta ref b a c, proper theta /\ proper ref /\ (forall n, (1 <= n)%nat -> diff_bounds n theta ref = Some b) /\
  fst theta <= a <= snd theta /\ fst ref <= c <= snd ref /\ ~ in_bound b (a - c).
Proof.
  pose proof three_pi as P. exists (-3, 3), (-3, -1), (One (-2) (6 - 2 * PI)), 0, (-2).
  split; [unfold proper; cbn; lra|]. split; [unfold proper; cbn; lra|]. split; [|split; [cbn; lra|split; [cbn; lra|]]].
  - intros n Hn. unfold diff_bounds. cbn [fst snd]. destruct (Req_EM_T (-3) (- PI)) as [E|_]; [lra|]. cbn [orb].
    rewrite lift_once by (assumption || lra). destruct (Rlt_dec (-3 - -1) 0) as [_|E]; [|lra]. cbn [obind fst snd INR].
    destruct (Rle_dec (-3 - -1 + 2 * PI) PI) as [E|_]; [lra|]. rewrite (@wrap_angle_unique (-3 - -1 + 2 * PI) (-2)) by (lra || turn (-1)%Z).
    rewrite (@wrap_angle_unique (3 - -3 + 2 * PI * 1) (6 - 2 * PI)) by (lra || turn (-2)%Z). destruct (Rlt_dec (6 - 2 * PI) (-2)) as [E|_]; [lra|reflexivity].
  - intros (y & (k & E) & [[_ H]|[H _]]); [|lra].
    assert (0 < k < 1)%Z; [|lia]. split; apply lt_IZR; [apply Rmult_lt_reg_l with (2 * PI); lra|apply Rmult_lt_reg_l with (2 * PI); lra].
Qed.

(** * C74: the angles under which rectangles are seen *)
(** All directions from one rectangle to another are within the span. *)
Theorem C74_between_partial : forall r1 r2, ordered r1 -> ordered r2 -> apart r1 r2 \/ corner_inside r1 r2 \/ corner_inside r2 r1 ->
  exists lo hi, span_between r1 r2 = Some (lo, hi) /\ forall a, direction r1 r2 a -> on_arc lo hi a.
Proof. intros r1 r2 O1 O2 H. destruct (span_covers O1 O2 H) as (lo & hi & E & _ & C). exists lo, hi. auto. Qed.

(** The ends of the span are directions from one to the other. *)
Theorem C74_tight : forall r1 r2 lo hi, ordered r1 -> ordered r2 -> apart r1 r2 -> span_between r1 r2 = Some (lo, hi) ->
  direction r1 r2 lo /\ direction r1 r2 hi /\ - PI < lo <= PI /\ - PI < hi <= PI.
Proof.
  intros r1 r2 lo hi O1 O2 H E. destruct (span_spec O1 O2 H) as (lo' & hi' & E' & A & B & C & D & _). rewrite E in E'. injection E' as -> ->. auto.
Qed.

(** The rectangle seen from the origin. *)
Theorem C74_atan2_partial : forall yb xb, fst xb <= snd xb -> fst yb <= snd yb ->
  (0 < fst xb \/ snd xb < 0 \/ 0 < fst yb \/ snd yb < 0 \/ (fst xb < 0 < snd xb /\ fst yb < 0 < snd yb)) ->
  exists b, span_rect yb xb = Some b /\ forall x y, fst xb <= x <= snd xb -> fst yb <= y <= snd yb -> in_bound b (arctan2 y x).
Proof. exact span_rect_covers. Qed.

(** The origin seen from the rectangle. *)
Theorem C74_to_origin_partial : forall r, ordered r -> (0 < xmin r /\ ymin r <> 0 \/ xmax r < 0 \/ 0 < ymin r \/ ymax r < 0) ->
  exists lo hi, bounds_rectangle r = Some (lo, hi) /\ forall x y, in_rect r x y -> on_arc lo hi (arctan2 (- y) (- x)).
Proof. exact bounds_rectangle_spec. Qed.

(** ** Values of arctan2 *)
Lemma at_pp : arctan2 1 1 = PI / 4.
Proof. unfold arctan2. destruct (Rlt_dec 0 1); [|lra]. replace (1 / 1) with 1 by field. apply atan_1. Qed.
Lemma atan_m1 : atan (-1) = - (PI / 4).
Proof. replace (-1) with (- (1)) by lra. rewrite atan_opp, atan_1. reflexivity. Qed.
Lemma at_mp : arctan2 (-1) 1 = - (PI / 4).
Proof. unfold arctan2. destruct (Rlt_dec 0 1); [|lra]. replace (-1 / 1) with (-1) by field. apply atan_m1. Qed.
Lemma at_zp x : 0 < x -> arctan2 0 x = 0.
Proof. intros H. unfold arctan2. destruct (Rlt_dec 0 x); [|lra]. replace (0 / x) with 0 by (field; lra). apply atan_0. Qed.
Lemma at_zm x : x < 0 -> arctan2 0 x = PI.
Proof. intros H. unfold arctan2. destruct (Rlt_dec 0 x); [lra|]. destruct (Rlt_dec x 0); [|lra]. destruct (Rlt_dec 0 0); [lra|]. replace (0 / x) with 0 by (field; lra). rewrite atan_0. lra. Qed.
Lemma at_zz : arctan2 0 0 = 0.
Proof. unfold arctan2. destruct (Rlt_dec 0 0); [lra|]. reflexivity. Qed.
Lemma at_pm : arctan2 1 (-1) = 3 * PI / 4.
Proof. unfold arctan2. destruct (Rlt_dec 0 (-1)); [lra|]. destruct (Rlt_dec (-1) 0); [|lra]. destruct (Rlt_dec 1 0); [lra|]. replace (1 / -1) with (-1) by field. rewrite atan_m1. lra. Qed.
Lemma at_mm : arctan2 (-1) (-1) = - (3 * PI / 4).
Proof. unfold arctan2. destruct (Rlt_dec 0 (-1)); [lra|]. destruct (Rlt_dec (-1) 0); [|lra]. destruct (Rlt_dec (-1) 0); [|lra]. replace (-1 / -1) with 1 by field. rewrite atan_1. lra. Qed.
Lemma at_pz : arctan2 1 0 = PI / 2.
Proof. unfold arctan2. destruct (Rlt_dec 0 0); [lra|]. destruct (Rlt_dec 0 1); [|lra]. lra. Qed.
Lemma at_mz : arctan2 (-1) 0 = - (PI / 2).
Proof. unfold arctan2. destruct (Rlt_dec 0 0); [lra|]. destruct (Rlt_dec 0 (-1)); [lra|]. destruct (Rlt_dec (-1) 0); [|lra]. lra. Qed.

Lemma slope_below x y : 0 < - y -> - y < x -> - (PI / 4) < arctan2 y x < 0.
Proof.
  intros H1 H2. pose proof PI_RGT_0. split; [|apply atan2_down; lra]. unfold arctan2. destruct (Rlt_dec 0 x); [|lra]. rewrite <- atan_m1. apply atan_increasing.
  apply Rmult_lt_reg_r with x; [lra|]. unfold Rdiv. rewrite Rmult_assoc, Rinv_l by lra. lra.
Qed.
Lemma off_arc x : - (PI / 4) < x < 0 -> ~ on_arc 0 (- (PI / 4)) x.
Proof.
  intros H (y & (k & E) & [[A _]|[_ B]]); pose proof PI_RGT_0; [lra|].
  assert (-1 < k < 1)%Z as K by (split; apply lt_IZR; apply Rmult_lt_reg_l with (2 * PI); lra). assert (k = 0)%Z by lia. subst k. cbn in E. lra.
Qed.

Ltac cases_in := repeat match goal with H : In _ (_ :: _) |- _ => destruct H as [<-|H] | H : In _ [] |- _ => destruct H end.

(** The two rectangles may be the same: then neither lower left corner is strictly inside, and a quarter of the
    directions is missed. *)
Theorem C74_same_refuted : exists r lo hi a, ordered r /\ span_between r r = Some (lo, hi) /\ direction r r a /\ ~ on_arc lo hi a.
Proof.
  pose proof PI_RGT_0 as P. exists (mk_rect 0 1 0 1), 0, (- (PI / 4)), (arctan2 (- (1 / 2)) 1). split; [unfold ordered; cbn; lra|]. split; [|split].
  - unfold span_between. cbn [xmin xmax ymin ymax]. assert (L : lt 0 0 = false) by (unfold lt; destruct (Rlt_dec 0 0); [lra|reflexivity]). rewrite L. cbn [andb orb].
    cbn [corners flat_map map fst snd xmin xmax ymin ymax app].
    replace (0 - 0) with 0 by ring. replace (1 - 0) with 1 by ring. replace (0 - 1) with (-1) by ring. replace (1 - 1) with 0 by ring.
    rewrite at_zz, (at_zp Rlt_0_1), (@at_zm (-1)), at_pp, at_pm, at_mm, at_mp, at_pz, at_mz by lra.
    rewrite (@least_is _ (- (3 * PI / 4))), (@greatest_is _ PI); [|cbn; tauto|intros y Hy; cases_in; lra|cbn; tauto|intros y Hy; cases_in; lra]. cbn [obind].
    destruct (Rle_dec (PI - - (3 * PI / 4)) PI) as [X|_]; [lra|].
    cbn [map]. rewrite ?(@rmod_low 0), ?(@rmod_low PI), ?(@rmod_low (PI / 2)), ?(@rmod_low (PI / 4)), ?(@rmod_low (3 * PI / 4)), ?(@rmod_neg (- (PI / 2))), ?(@rmod_neg (- (PI / 4))), ?(@rmod_neg (- (3 * PI / 4))) by lra.
    rewrite (@least_is _ 0), (@greatest_is _ (- (PI / 4) + 2 * PI)); [|cbn; tauto|intros y Hy; cases_in; lra|cbn; tauto|intros y Hy; cases_in; lra]. cbn [obind].
    destruct (Rlt_dec PI 0); [lra|]. destruct (Rlt_dec PI (- (PI / 4) + 2 * PI)); [|lra]. do 2 f_equal. ring.
  - exists 0, (1 / 2), 1, 0. unfold in_rect. cbn. split; [lra|]. split; [lra|]. replace (0 - 1 / 2) with (- (1 / 2)) by field. rewrite Rminus_0_r. apply same_refl.
  - apply off_arc, slope_below; lra.
Qed.

(** The origin may be on the upper edge of the rectangle. *)
Theorem C74_edge_refuted : exists yb xb b x y, fst xb < snd xb /\ fst yb < snd yb /\ span_rect yb xb = Some b /\
  fst xb <= x <= snd xb /\ fst yb <= y <= snd yb /\ ~ in_bound b (arctan2 y x).
Proof.
  pose proof PI_RGT_0 as P. exists (-1, 0), (-1, 1), (Many [(0, PI); (- PI, - (PI / 4))]), 1, (- (1 / 2)). cbn [fst snd].
  split; [lra|]. split; [lra|]. split; [|split; [lra|split; [lra|]]].
  - unfold span_rect, span_between. cbn [xmin xmax ymin ymax fst snd].
    match goal with |- context [if ?t then Some (- PI, PI) else _] => assert (T : t = false) end.
    { apply Bool.not_true_iff_false. rewrite Bool.orb_true_iff, !Bool.andb_true_iff, !lt_iff. lra. }
    rewrite T. cbn [corners flat_map map fst snd xmin xmax ymin ymax app].
    rewrite !Rminus_0_r, at_mm, at_mp, (at_zp Rlt_0_1), (@at_zm (-1)) by lra.
    rewrite (@least_is _ (- (3 * PI / 4))), (@greatest_is _ PI); [|cbn; tauto|intros y Hy; cases_in; lra|cbn; tauto|intros y Hy; cases_in; lra]. cbn [obind].
    destruct (Rle_dec (PI - - (3 * PI / 4)) PI) as [X|_]; [lra|].
    cbn [map]. rewrite ?(@rmod_low 0), ?(@rmod_low PI), ?(@rmod_neg (- (PI / 4))), ?(@rmod_neg (- (3 * PI / 4))) by lra.
    rewrite (@least_is _ 0), (@greatest_is _ (- (PI / 4) + 2 * PI)); [|cbn; tauto|intros y Hy; cases_in; lra|cbn; tauto|intros y Hy; cases_in; lra]. cbn [obind].
    destruct (Rlt_dec PI 0); [lra|]. destruct (Rlt_dec PI (- (PI / 4) + 2 * PI)); [|lra]. cbn [fst snd]. destruct (Rle_dec 0 (- (PI / 4) + 2 * PI - 2 * PI)); [lra|].
    do 2 f_equal. f_equal. f_equal. f_equal. ring.
  - cbn [in_bound]. intros (y & i & Hs & Hi & Hy). apply (@off_arc (arctan2 (- (1 / 2)) 1)); [apply slope_below; lra|]. exists y. split; [exact Hs|]. right. split; [lra|].
    cases_in; cbn in Hy; auto.
Qed.

(** The rectangle may have its lower edge on the axis (with the integer bound 0, which has no sign). *)
Theorem C74_axis_refuted : exists r lo hi x y, ordered r /\ 0 < xmin r /\ bounds_rectangle r = Some (lo, hi) /\ in_rect r x y /\ ~ on_arc lo hi (arctan2 (- y) (- x)).
Proof.
  pose proof PI_RGT_0 as P. set (lo := arctan2 (-1) (- (2))).
  assert (A : - PI < lo) by (apply atan2_range).
  assert (V : forall y, y < 0 -> arctan2 y (- (2)) = atan (y / - (2)) - PI).
  { intros y Hy. unfold arctan2. destruct (Rlt_dec 0 (- (2))); [lra|]. destruct (Rlt_dec (- (2)) 0); [|lra]. destruct (Rlt_dec y 0); [|lra]. lra. }
  assert (B : lo <= - (3 * PI / 4)).
  { unfold lo. rewrite V by lra. assert (atan (-1 / - (2)) < PI / 4); [|lra]. rewrite <- atan_1. apply atan_increasing. replace (-1 / - (2)) with (1 / 2) by field. lra. }
  exists (mk_rect 1 2 0 1), lo, PI, 2, (1 / 2). split; [unfold ordered; cbn; lra|]. split; [cbn; lra|]. split; [|split; [unfold in_rect; cbn; lra|]].
  - unfold bounds_rectangle. cbn [xmin xmax ymin ymax].
    match goal with |- context [if ?t then Some (- PI, PI) else _] => assert (T : t = false) end.
    { apply Bool.not_true_iff_false. rewrite !Bool.andb_true_iff, !lt_iff. lra. }
    rewrite T. clear T. match goal with |- context [negb ?t] => assert (T : t = false) end.
    { apply Bool.not_true_iff_false. rewrite !Bool.andb_true_iff, !lt_iff. lra. }
    rewrite T. cbn [negb corners map fst snd xmin xmax ymin ymax]. rewrite Ropp_0. replace (- (1)) with (-1) by lra. rewrite (@at_zm (-1)), (@at_zm (- (2))), at_mm by lra. fold lo.
    rewrite (@least_is _ lo), (@greatest_is _ PI); [reflexivity|cbn; tauto|intros y Hy; cases_in; lra|cbn; tauto|intros y Hy; cases_in; lra].
  - assert (C : - PI < arctan2 (- (1 / 2)) (- (2)) < lo).
    { split; [apply atan2_range|]. unfold lo. rewrite !V by lra. assert (atan (- (1 / 2) / - (2)) < atan (-1 / - (2))); [|lra]. apply atan_increasing. replace (-1 / - (2)) with (1 / 2) by field. replace (- (1 / 2) / - (2)) with (1 / 4) by field. lra. }
    intros (y & (k & E) & [[_ H]|[H _]]); [|lra].
    assert (-1 < k < 0)%Z; [|lia]. split; apply lt_IZR; apply Rmult_lt_reg_l with (2 * PI); lra.
Qed.

(** * C75: the union of bounds contains exactly the angles of the bounds *)
Theorem C75_union_partial : forall bs,
  (forall b i, In b bs -> piece b i -> positive i) \/ (forall b i, In b bs -> piece b i -> negative i) \/
  ((forall b i, In b bs -> piece b i -> positive i \/ negative i) /\
   no_gap (fun y => exists b i, In b bs /\ piece b i /\ positive i /\ fst i <= y <= snd i) /\
   no_gap (fun y => exists b i, In b bs /\ piece b i /\ negative i /\ fst i <= y <= snd i)) ->
  forall x, angle_in (combine_bounds bs) x <-> exists b, In b bs /\ in_bound b x.
Proof.
  intros bs H. apply combine_spec.
  assert (G : forall Q : R * R -> Prop, (forall b i, In b bs -> piece b i -> Q i) -> forall i, In i (normalized bs) -> Q i).
  { intros Q HQ i Hi. apply piece_normalized in Hi. destruct Hi as (b & Hb & Hp). exact (HQ b i Hb Hp). }
  assert (E : forall Q y, covered_by Q (normalized bs) y <-> exists b i, In b bs /\ piece b i /\ Q i /\ fst i <= y <= snd i).
  { intros Q y. split.
    - intros (i & Hi & Hq & Hy). apply piece_normalized in Hi. destruct Hi as (b & Hb & Hp). exists b, i. auto.
    - intros (b & i & Hb & Hp & Hq & Hy). exists i. split; [apply piece_normalized; eauto|auto]. }
  destruct H as [H|[H|(H & N1 & N2)]]; [left; exact (G _ H)|right; left; exact (G _ H)|right; right]. split; [exact (G _ H)|].
  split; intros x y z; rewrite !E; [apply N1|apply N2].
Qed.

(** One bound that passes PI and reaches beyond 0 loses its negative part. *)
Theorem C75_wrapped_refuted : exists b x, in_bound b x /\ ~ angle_in (combine_bounds [b]) x.
Proof.
  pose proof three_pi as P. exists (Many [(1, PI); (- PI, 1 / 2)]), 0. split.
  - exists 0, (- PI, 1 / 2). split; [apply same_refl|]. split; [right; left; reflexivity|cbn; lra].
  - assert (E : combine_bounds [Many [(1, PI); (- PI, 1 / 2)]] = [(1, PI)]).
    { rewrite combine_unfold. cbn [normalized flat_map app sorted fold_right insert].
      assert (K : key_le (1, PI) (- PI, 1 / 2) = true) by (apply key_le_iff; cbn; lra). rewrite K. unfold merged. cbn [fold_left merge_step].
      assert (O : overlap (1, PI) (- PI, 1 / 2) = false) by (apply Bool.not_true_iff_false; rewrite overlap_iff; cbn; lra). rewrite O. cbn [rev app].
      assert (L1 : le 0 1 = true) by (apply le_iff; lra). assert (L2 : le 0 (- PI) = false) by (apply le_false; lra).
      assert (L3 : le PI 0 = false) by (apply le_false; lra). assert (L4 : le (1 / 2) 0 = false) by (apply le_false; lra).
      assert (L5 : lt PI (1 / 2) = false) by (apply Bool.not_true_iff_false; rewrite lt_iff; lra).
      unfold merge_wrapped, last_index. cbn [length Nat.ltb Nat.leb fold_left fst snd]. rewrite L1, L2. cbn [Nat.eqb Nat.sub last snd Nat.add firstn fold_left]. rewrite L4.
      cbn [fold_left fst snd]. rewrite L5. cbn [snd]. unfold format. cbn [filter fst snd]. rewrite L1, L2, L3, L4. reflexivity. }
    rewrite E. intros (y & i & (k & Ek) & [<-|[]] & Hy). cbn in Hy.
    assert (-1 < k < 0)%Z; [|lia]. split; apply lt_IZR; apply Rmult_lt_reg_l with (2 * PI); lra.
Qed.

(** Of several separate pieces only the first positive and the first negative one are kept. *)
Theorem C75_pieces_refuted : exists bs b x, (forall b i, In b bs -> piece b i -> positive i \/ negative i) /\ In b bs /\ in_bound b x /\ ~ angle_in (combine_bounds bs) x.
Proof.
  pose proof three_pi as P. exists [One (1 / 10) (2 / 10); One (5 / 10) (6 / 10); One (-1) (- (5 / 10))], (One (5 / 10) (6 / 10)), (5 / 10). split; [|split; [cbn; auto|split]].
  - intros b i [<-|[<-|[<-|[]]]] [[A ->]|[A B]]; cbn in *; try lra; unfold positive, negative; cbn; lra.
  - exists (5 / 10). split; [apply same_refl|]. left. lra.
  - assert (E : combine_bounds [One (1 / 10) (2 / 10); One (5 / 10) (6 / 10); One (-1) (- (5 / 10))] = [(1 / 10, 2 / 10); (-1, - (5 / 10))]).
    { rewrite combine_unfold. cbn [normalized flat_map app].
      destruct (Rlt_dec (2 / 10) (1 / 10)); [lra|]. destruct (Rlt_dec (6 / 10) (5 / 10)); [lra|]. destruct (Rlt_dec (- (5 / 10)) (-1)); [lra|]. cbn [app sorted fold_right insert].
      assert (K1 : key_le (5 / 10, 6 / 10) (-1, - (5 / 10)) = true) by (apply key_le_iff; cbn; lra). rewrite K1.
      assert (K2 : key_le (1 / 10, 2 / 10) (5 / 10, 6 / 10) = true) by (apply key_le_iff; cbn; lra). cbn [insert]. rewrite K2. unfold merged. cbn [fold_left merge_step].
      assert (O1 : overlap (1 / 10, 2 / 10) (5 / 10, 6 / 10) = false) by (apply Bool.not_true_iff_false; rewrite overlap_iff; cbn; lra). rewrite O1.
      assert (O2 : overlap (5 / 10, 6 / 10) (-1, - (5 / 10)) = false) by (apply Bool.not_true_iff_false; rewrite overlap_iff; cbn; lra). cbn [merge_step]. rewrite O2. cbn [rev app].
      assert (L1 : le 0 (1 / 10) = true) by (apply le_iff; lra). assert (L2 : le 0 (-1) = false) by (apply le_false; lra).
      assert (L3 : le 0 (5 / 10) = true) by (apply le_iff; lra). assert (L4 : le (- (5 / 10)) 0 = true) by (apply le_iff; lra).
      assert (L5 : le (2 / 10) 0 = false) by (apply le_false; lra). assert (L6 : le (6 / 10) 0 = false) by (apply le_false; lra).
      unfold merge_wrapped, last_index. cbn [length Nat.ltb Nat.leb fold_left fst snd]. rewrite L1, L2, L3. cbn [Nat.eqb Nat.sub last snd]. rewrite L4.
      unfold format. cbn [filter fst snd]. rewrite L1, L2, L3, L4, L5, L6. reflexivity. }
    rewrite E. intros (y & i & (k & Ek) & Hi & Hy).
    assert (k = 0)%Z. { assert (-1 < k < 1)%Z; [|lia]. cases_in; cbn in Hy; split; apply lt_IZR; apply Rmult_lt_reg_l with (2 * PI); lra. }
    subst k. cases_in; cbn in Hy; lra.
Qed.

(** * C76: the largest and smallest error of a sensed position *)
Theorem C76_error_exact : forall x y z eps_r eps ax, 0 <= eps_r -> 0 <= eps < PI ->
  exists e_max e_min, point_error x y z eps_r eps ax = Some (e_max, e_min) /\
    (forall v, reading_error ax x y z eps_r eps v -> e_min <= v <= e_max) /\
    reading_error ax x y z eps_r eps e_max /\ reading_error ax x y z eps_r eps e_min.
Proof. exact error_spec. Qed.

(** An error of half a turn wraps to a single angle. *)
Theorem C76_wide_refuted : exists x y z ax e_max e_min v,
  point_error x y z 0 PI ax = Some (e_max, e_min) /\ reading_error ax x y z 0 PI v /\ v < e_min.
Proof.
  pose proof PI_RGT_0 as P. exists 1, 0, 0, AX, 0, 0, (-1).
  assert (S : sqrt (1 ^ 2 + 0 ^ 2) = 1) by (replace (1 ^ 2 + 0 ^ 2) with 1 by ring; apply sqrt_1).
  assert (S' : sqrt (1 ^ 2 + 0 ^ 2 + 0 ^ 2) = 1) by (replace (1 ^ 2 + 0 ^ 2 + 0 ^ 2) with 1 by ring; apply sqrt_1).
  split; [|split; [|lra]].
  - unfold point_error. rewrite S, S', (at_zp Rlt_0_1). unfold projections, psi_candidates, theta_candidates.
    rewrite (@wrap_angle_unique (0 - PI) PI), (@wrap_angle_unique (0 + PI) PI) by (lra || turn 1%Z || turn 0%Z).
    assert (W : forall a, - PI < a < PI -> in_wrapped a PI PI = false).
    { intros a Ha. unfold in_wrapped. rewrite (@wrap_angle_id a), (@wrap_angle_id PI) by lra. destruct (Rle_dec PI PI); [|lra]. destruct (Rle_dec PI a); [lra|reflexivity]. }
    assert (WP : in_wrapped PI PI PI = true).
    { unfold in_wrapped. rewrite (@wrap_angle_id PI) by lra. destruct (Rle_dec PI PI); [reflexivity|lra]. }
    rewrite !W, !WP by lra. cbn [when app flat_map map project]. rewrite cos_PI, cos_0. replace (-1 * -1) with 1 by ring.
    destruct (Rle_dec 0 1); [|lra]. rewrite !Rplus_0_r, !Rminus_0_r, !Rmult_1_r.
    rewrite (@greatest_is _ 1), (@least_is _ 1); [|left; reflexivity|intros v Hv; cases_in; lra|left; reflexivity|intros v Hv; cases_in; lra]. cbn [obind]. do 2 f_equal; ring.
  - exists 1, 0, (PI / 2). rewrite S, S', !(at_zp Rlt_0_1). cbn [spherical coordinate]. rewrite cos_0, cos_PI2. split; [unfold Rminus; rewrite Rplus_opp_r, Rabs_R0; lra|].
    split; [rewrite Rminus_0_r, Rabs_R0; lra|]. split; [rewrite Rminus_0_r, Rabs_right; lra|ring].
Qed.

(** * Concrete cases *)
Module Example_angular.
  (** Bounds around PI. *)
  Example ex_C73 : exists b, diff_bounds 1 (2, 3) (-2, -1) = Some b /\ in_bound b (2 - -2) /\ ~ in_bound b 0.
  Proof.
    pose proof three_pi as P. destruct (@C73_difference_partial 1 (2, 3) (-2, -1)) as (b & E & H); [unfold proper; cbn; lra|unfold proper; cbn; lra|lia|left; cbn; lra|].
    exists b. split; [exact E|]. split; [apply H; exists 2, (-2); cbn; split; [lra|]; split; [lra|apply same_refl]|].
    intros B. apply H in B. cbn in B. destruct B as (a & c & Ha & Hc & k & Ek). assert (-1 < k < 0)%Z; [|lia]. split; apply lt_IZR; apply Rmult_lt_reg_l with (2 * PI); lra.
  Qed.
  (** A rectangle to the left, seen across the angle PI. *)
  Example ex_C74 : exists lo hi, span_between (mk_rect 4 5 0 1) (mk_rect 0 1 0 1) = Some (lo, hi) /\ on_arc lo hi PI /\ on_arc lo hi (arctan2 (-1) (-3)).
  Proof.
    destruct (@C74_between_partial (mk_rect 4 5 0 1) (mk_rect 0 1 0 1)) as (lo & hi & E & H); [unfold ordered; cbn; lra|unfold ordered; cbn; lra|left; unfold apart; cbn; lra|].
    exists lo, hi. split; [exact E|]. split; apply H.
    - exists 4, 0, 0, 0. unfold in_rect. cbn. split; [lra|]. split; [lra|]. rewrite Rminus_0_r, at_zm by lra. apply same_refl.
    - exists 4, 1, 1, 0. unfold in_rect. cbn. split; [lra|]. split; [lra|]. replace (0 - 1) with (-1) by ring. replace (1 - 4) with (-3) by ring. apply same_refl.
  Qed.
  (** Overlapping pieces on both sides of 0. *)
  Example ex_C75 : forall x, angle_in (combine_bounds [One 1 2; One (3 / 2) 3; One (-1) (- (1 / 2)); One (-2) (-1)]) x <->
    exists y, same_angle x y /\ (1 <= y <= 3 \/ -2 <= y <= - (1 / 2)).
  Proof.
    intros x. rewrite C75_union_partial.
    - split.
      + intros (b & [<-|[<-|[<-|[<-|[]]]]] & y & Hs & [[_ Hy]|[A _]]); try lra; exists y; (split; [exact Hs|lra]).
      + intros (y & Hs & [Hy|Hy]).
        * destruct (Rle_dec y 2); [exists (One 1 2)|exists (One (3 / 2) 3)]; (split; [cbn; auto|]; exists y; split; [exact Hs|left; lra]).
        * destruct (Rle_dec y (-1)); [exists (One (-2) (-1))|exists (One (-1) (- (1 / 2)))]; (split; [cbn; auto|]; exists y; split; [exact Hs|left; lra]).
    - right. right. split; [|split].
      + intros b i [<-|[<-|[<-|[<-|[]]]]] [[A ->]|[A B]]; try lra; unfold positive, negative; cbn; lra.
      + assert (E : forall y, (exists b i, In b [One 1 2; One (3 / 2) 3; One (-1) (- (1 / 2)); One (-2) (-1)] /\ piece b i /\ positive i /\ fst i <= y <= snd i) <-> 1 <= y <= 3).
        { intros y. split.
          - intros (b & i & [<-|[<-|[<-|[<-|[]]]]] & [[A ->]|[A B]] & Hp & Hy); unfold positive in Hp; cbn in *; lra.
          - intros Hy. destruct (Rle_dec y 2); [exists (One 1 2), (1, 2)|exists (One (3 / 2) 3), (3 / 2, 3)]; unfold positive; cbn; (split; [auto|]; split; [left; split; [lra|reflexivity]|lra]). }
        intros a b c. rewrite !E. lra.
      + assert (E : forall y, (exists b i, In b [One 1 2; One (3 / 2) 3; One (-1) (- (1 / 2)); One (-2) (-1)] /\ piece b i /\ negative i /\ fst i <= y <= snd i) <-> -2 <= y <= - (1 / 2)).
        { intros y. split.
          - intros (b & i & [<-|[<-|[<-|[<-|[]]]]] & [[A ->]|[A B]] & Hp & Hy); unfold negative in Hp; cbn in *; lra.
          - intros Hy. destruct (Rle_dec y (-1)); [exists (One (-2) (-1)), (-2, -1)|exists (One (-1) (- (1 / 2))), (-1, - (1 / 2))]; unfold negative; cbn; (split; [auto|]; split; [left; split; [lra|reflexivity]|lra]). }
        intros a b c. rewrite !E. lra.
  Qed.
  (** A point on the first axis: an azimuth off by up to a quarter of a turn. *)
  Example ex_C76 : exists e_max e_min, point_error 1 0 0 0 (PI / 2) AX = Some (e_max, e_min) /\ e_min <= -1 /\ e_max <= 0.
  Proof.
    pose proof PI_RGT_0 as P. destruct (@C76_error_exact 1 0 0 0 (PI / 2) AX) as (hi & lo & E & B & Rh & _); [lra|lra|]. exists hi, lo. split; [exact E|].
    assert (S : sqrt (1 ^ 2 + 0 ^ 2) = 1) by (replace (1 ^ 2 + 0 ^ 2) with 1 by ring; apply sqrt_1).
    assert (S' : sqrt (1 ^ 2 + 0 ^ 2 + 0 ^ 2) = 1) by (replace (1 ^ 2 + 0 ^ 2 + 0 ^ 2) with 1 by ring; apply sqrt_1). split.
    - apply B. exists 1, 0, (PI / 2). rewrite S, S', !(at_zp Rlt_0_1). cbn [spherical coordinate]. rewrite cos_0, cos_PI2. split; [unfold Rminus; rewrite Rplus_opp_r, Rabs_R0; lra|].
      split; [rewrite Rminus_0_r, Rabs_R0; lra|]. split; [rewrite Rminus_0_r, Rabs_right; lra|ring].
    - destruct Rh as (r & p & t & H1 & _ & _ & ->). rewrite S' in H1. assert (r = 1) as ->. { unfold Rabs in H1. destruct (Rcase_abs (r - 1)); lra. }
      cbn [spherical coordinate]. pose proof (COS_bound p). pose proof (COS_bound t). nra.
  Qed.
End Example_angular.

Print Assumptions C73_difference_partial.
Print Assumptions C73_wide_refuted.
Print Assumptions C74_between_partial.
Print Assumptions C74_tight.
Print Assumptions C74_atan2_partial.
Print Assumptions C74_to_origin_partial.
Print Assumptions C74_same_refuted.
Print Assumptions C74_edge_refuted.
Print Assumptions C74_axis_refuted.
Print Assumptions C75_union_partial.
Print Assumptions C75_wrapped_refuted.
Print Assumptions C75_pieces_refuted.
Print Assumptions C76_error_exact.
Print Assumptions C76_wide_refuted.
