(** Proofs about the angles under which rectangles are seen. *)
From Coq Require Import Reals Lra Lia Psatz List.
From Verif Require Import Base Angle AngleSpec AngleProofs Angular AngularSpec AngularProofs.
Import ListNotations.
Set Implicit Arguments.
Open Scope R_scope.

(** * Smallest and largest *)
Lemma fold_min_spec : forall l x, fold_left Rmin l x <= x /\ (forall y, In y l -> fold_left Rmin l x <= y) /\ In (fold_left Rmin l x) (x :: l).
Proof.
  induction l as [|z l IH]; intros x; cbn [fold_left]; [cbn; split; [lra|]; split; [tauto|auto]|].
  destruct (IH (Rmin x z)) as (A & B & C). pose proof (Rmin_l x z). pose proof (Rmin_r x z). split; [lra|]. split.
  - intros y [<-|Hy]; [lra|apply B, Hy].
  - destruct C as [C|C]; [|cbn; auto]. rewrite <- C. unfold Rmin. destruct (Rle_dec x z); cbn; auto.
Qed.
Lemma fold_max_spec : forall l x, x <= fold_left Rmax l x /\ (forall y, In y l -> y <= fold_left Rmax l x) /\ In (fold_left Rmax l x) (x :: l).
Proof.
  induction l as [|z l IH]; intros x; cbn [fold_left]; [cbn; split; [lra|]; split; [tauto|auto]|].
  destruct (IH (Rmax x z)) as (A & B & C). pose proof (Rmax_l x z). pose proof (Rmax_r x z). split; [lra|]. split.
  - intros y [<-|Hy]; [lra|apply B, Hy].
  - destruct C as [C|C]; [|cbn; auto]. rewrite <- C. unfold Rmax. destruct (Rle_dec x z); cbn; auto.
Qed.
Lemma least_spec l : l <> [] -> exists m, least l = Some m /\ In m l /\ forall y, In y l -> m <= y.
Proof.
  destruct l as [|x l]; [congruence|]. intros _. destruct (fold_min_spec l x) as (A & B & C). eexists. split; [reflexivity|]. split; [exact C|]. intros y [<-|Hy]; auto.
Qed.
Lemma greatest_spec l : l <> [] -> exists m, greatest l = Some m /\ In m l /\ forall y, In y l -> y <= m.
Proof.
  destruct l as [|x l]; [congruence|]. intros _. destruct (fold_max_spec l x) as (A & B & C). eexists. split; [reflexivity|]. split; [exact C|]. intros y [<-|Hy]; auto.
Qed.

(** * Half-planes *)
Lemma atan2_right x y : 0 < x -> - (PI / 2) < arctan2 y x < PI / 2.
Proof. intros H. unfold arctan2. destruct (Rlt_dec 0 x); [|lra]. pose proof (atan_bound (y / x)). lra. Qed.
Lemma atan2_up x y : 0 < y -> 0 < arctan2 y x < PI.
Proof.
  intros H. pose proof PI_RGT_0. pose proof (atan2_range x y). destruct (atan2_polar x y) as [_ B].
  assert (N : 0 < norm x y) by (apply norm_pos; right; lra).
  assert (S : 0 < sin (arctan2 y x)) by (destruct (Rle_dec (sin (arctan2 y x)) 0); [nra|lra]). split.
  - destruct (Rle_dec (arctan2 y x) 0) as [L|L]; [|lra]. exfalso. pose proof (sin_ge_0 (- arctan2 y x) ltac:(lra) ltac:(lra)) as Z. rewrite sin_neg in Z. lra.
  - destruct (Req_dec (arctan2 y x) PI) as [E|E]; [rewrite E, sin_PI in S; lra|lra].
Qed.
Lemma atan2_down x y : y < 0 -> - PI < arctan2 y x < 0.
Proof.
  intros H. pose proof PI_RGT_0. pose proof (atan2_range x y). destruct (atan2_polar x y) as [_ B].
  assert (N : 0 < norm x y) by (apply norm_pos; right; lra).
  assert (S : sin (arctan2 y x) < 0) by (destruct (Rle_dec 0 (sin (arctan2 y x))); [nra|lra]). split; [lra|].
  destruct (Rle_dec 0 (arctan2 y x)) as [L|L]; [|lra]. exfalso. pose proof (sin_ge_0 (arctan2 y x) ltac:(lra) ltac:(lra)). lra.
Qed.
Lemma atan2_left x y : x < 0 -> (0 <= y -> PI / 2 < arctan2 y x <= PI) /\ (y < 0 -> - PI < arctan2 y x < - (PI / 2)).
Proof.
  intros H. pose proof PI_RGT_0. pose proof (atan2_range x y) as Rg. destruct (atan2_polar x y) as [B _].
  assert (N : 0 < norm x y) by (apply norm_pos; left; lra).
  assert (S : cos (arctan2 y x) < 0) by (destruct (Rle_dec 0 (cos (arctan2 y x))); [nra|lra]).
  assert (G : PI / 2 < arctan2 y x \/ arctan2 y x < - (PI / 2)).
  { destruct (Rlt_dec (PI / 2) (arctan2 y x)); [auto|]. destruct (Rlt_dec (arctan2 y x) (- (PI / 2))); [auto|]. exfalso.
    pose proof (cos_ge_0 (arctan2 y x) ltac:(lra) ltac:(lra)). lra. }
  split; intros Hy.
  - destruct G as [G|G]; [lra|]. exfalso. unfold arctan2 in G, Rg. destruct (Rlt_dec 0 x); [lra|]. destruct (Rlt_dec x 0); [|lra]. destruct (Rlt_dec y 0); [lra|].
    pose proof (atan_bound (y / x)). lra.
  - pose proof (atan2_down x Hy). lra.
Qed.

(** * Sectors *)
Definition cross (a : R) (x y : R) : R := cos a * y - sin a * x.
Definition dot (a : R) (x y : R) : R := cos a * x + sin a * y.

Lemma polar_cross a r f : cross a (r * cos f) (r * sin f) = r * sin (f - a).
Proof. unfold cross. rewrite sin_minus. ring. Qed.
Lemma polar_dot a r f : dot a (r * cos f) (r * sin f) = r * cos (f - a).
Proof. unfold dot. rewrite cos_minus. ring. Qed.

Lemma in_cone a b x y f : a <= f <= b -> b < a + PI -> same_angle (arctan2 y x) f -> x <> 0 \/ y <> 0 ->
  0 <= cross a x y /\ cross b x y <= 0 /\ 0 < dot ((a + b) / 2) x y.
Proof.
  intros Hf Hb Hs Hn. pose proof PI_RGT_0. apply norm_pos in Hn. destruct (atan2_polar x y) as [Ex Ey]. destruct (same_cos _ _ Hs) as [C S]. rewrite C in Ex. rewrite S in Ey.
  set (r := norm x y) in *. clearbody r. rewrite Ex, Ey. rewrite !polar_cross, polar_dot. split; [|split].
  - apply Rmult_le_pos; [lra|]. apply sin_ge_0; lra.
  - assert (0 <= sin (b - f)) by (apply sin_ge_0; lra). replace (f - b) with (- (b - f)) by ring. rewrite sin_neg. nra.
  - apply Rmult_lt_0_compat; [lra|]. apply cos_gt_0; lra.
Qed.
Lemma of_cone a b x y : a <= b -> b < a + PI -> 0 <= cross a x y -> cross b x y <= 0 -> 0 < dot ((a + b) / 2) x y ->
  exists f, same_angle (arctan2 y x) f /\ a <= f <= b.
Proof.
  intros Hab Hb H1 H2 H3. pose proof PI_RGT_0. set (m := (a + b) / 2) in *.
  set (f := m + wrap_to_pi (arctan2 y x - m)). assert (Fr := wrap_range (arctan2 y x - m)).
  assert (Fs : same_angle (arctan2 y x) f).
  { apply same_sym. unfold f. replace (arctan2 y x) with (arctan2 y x - m + m) at 2 by ring. rewrite Rplus_comm. apply same_plus, wrap_same. }
  exists f. split; [exact Fs|].
  assert (N : 0 < norm x y). { apply norm_pos. destruct (Req_dec x 0) as [->|]; [|auto]. destruct (Req_dec y 0) as [->|]; [|auto]. unfold dot in H3. lra. }
  destruct (atan2_polar x y) as [Ex Ey]. destruct (same_cos _ _ Fs) as [C S]. rewrite C in Ex. rewrite S in Ey. set (r := norm x y) in *. clearbody r.
  rewrite Ex, Ey, polar_cross in H1, H2. rewrite Ex, Ey, polar_dot in H3.
  assert (Fm : - PI <= f - m < PI) by (unfold f; lra). clearbody f.
  assert (C0 : 0 < cos (f - m)) by (destruct (Rle_dec (cos (f - m)) 0); [nra|lra]).
  assert (S1 : 0 <= sin (f - a)) by (destruct (Rle_dec 0 (sin (f - a))); [lra|nra]).
  assert (S2 : 0 <= sin (b - f)). { replace (b - f) with (- (f - b)) by ring. rewrite sin_neg. destruct (Rle_dec (sin (f - b)) 0); [lra|nra]. }
  assert (Fq : - (PI / 2) < f - m < PI / 2).
  { split.
    - destruct (Rlt_dec (- (PI / 2)) (f - m)); [lra|]. exfalso. assert (0 <= cos (f - m + PI)) by (apply cos_ge_0; lra). rewrite neg_cos in *. lra.
    - destruct (Rlt_dec (f - m) (PI / 2)); [lra|]. exfalso. assert (0 <= cos (f - m - PI)) by (apply cos_ge_0; lra).
      replace (f - m) with (f - m - PI + PI) in C0 by ring. rewrite neg_cos in C0. lra. }
  unfold m in Fq. split.
  - destruct (Rle_dec a f); [lra|]. exfalso. assert (0 < sin (a - f)) by (apply sin_gt_0; lra). replace (a - f) with (- (f - a)) in * by ring. rewrite sin_neg in *. lra.
  - destruct (Rle_dec f b); [lra|]. exfalso. assert (0 < sin (f - b)) by (apply sin_gt_0; lra). replace (f - b) with (- (b - f)) in * by ring. rewrite sin_neg in *. lra.
Qed.

(** * Linear functions on rectangles *)
Lemma linear_box r p q k x y : in_rect r x y -> (forall c, In c (corners r) -> k <= p * fst c + q * snd c) -> k <= p * x + q * y.
Proof.
  intros [Hx Hy] H. assert (H1 := H _ (or_introl eq_refl)). assert (H2 := H _ (or_intror (or_introl eq_refl))).
  assert (H3 := H _ (or_intror (or_intror (or_introl eq_refl)))). assert (H4 := H _ (or_intror (or_intror (or_intror (or_introl eq_refl))))). cbn [fst snd] in *.
  destruct (Rle_dec 0 p), (Rle_dec 0 q); nra.
Qed.
Lemma linear_box_lt r p q k x y : in_rect r x y -> (forall c, In c (corners r) -> k < p * fst c + q * snd c) -> k < p * x + q * y.
Proof.
  intros [Hx Hy] H. assert (H1 := H _ (or_introl eq_refl)). assert (H2 := H _ (or_intror (or_introl eq_refl))).
  assert (H3 := H _ (or_intror (or_intror (or_introl eq_refl)))). assert (H4 := H _ (or_intror (or_intror (or_intror (or_introl eq_refl))))). cbn [fst snd] in *.
  destruct (Rle_dec 0 p), (Rle_dec 0 q); nra.
Qed.
Lemma corner_in r c : ordered r -> In c (corners r) -> in_rect r (fst c) (snd c).
Proof. intros [Hx Hy]. unfold in_rect. intros [<-|[<-|[<-|[<-|[]]]]]; cbn [fst snd]; lra. Qed.

(** If the corners are seen from each other in a sector of less than half a turn, so are all points. *)
Lemma sector r1 r2 a b : a <= b -> b < a + PI ->
  (forall c1 c2, In c1 (corners r1) -> In c2 (corners r2) -> (fst c2 - fst c1 <> 0 \/ snd c2 - snd c1 <> 0) /\
     exists f, same_angle (arctan2 (snd c2 - snd c1) (fst c2 - fst c1)) f /\ a <= f <= b) ->
  forall x1 y1 x2 y2, in_rect r1 x1 y1 -> in_rect r2 x2 y2 -> exists f, same_angle (arctan2 (y2 - y1) (x2 - x1)) f /\ a <= f <= b.
Proof.
  intros Hab Hb H x1 y1 x2 y2 H1 H2.
  assert (G : forall c1 c2, In c1 (corners r1) -> In c2 (corners r2) ->
    0 <= cross a (fst c2 - fst c1) (snd c2 - snd c1) /\ cross b (fst c2 - fst c1) (snd c2 - snd c1) <= 0 /\ 0 < dot ((a + b) / 2) (fst c2 - fst c1) (snd c2 - snd c1)).
  { intros c1 c2 I1 I2. destruct (H c1 c2 I1 I2) as (Hn & f & Hs & Hf). exact (in_cone Hf Hb Hs Hn). }
  clear H. apply of_cone; [exact Hab|exact Hb| | |].
  - assert (- sin a * x1 + cos a * y1 <= - sin a * x2 + cos a * y2); [|unfold cross; lra].
    apply (linear_box H2). intros c2 I2. assert (sin a * fst c2 + - cos a * snd c2 <= sin a * x1 + - cos a * y1); [|lra].
    apply (linear_box H1). intros c1 I1. destruct (G c1 c2 I1 I2) as (A & _ & _). unfold cross in A. lra.
  - assert (sin b * x1 + - cos b * y1 <= sin b * x2 + - cos b * y2); [|unfold cross; lra].
    apply (linear_box H2). intros c2 I2. assert (- sin b * fst c2 + cos b * snd c2 <= - sin b * x1 + cos b * y1); [|lra].
    apply (linear_box H1). intros c1 I1. destruct (G c1 c2 I1 I2) as (_ & A & _). unfold cross in A. lra.
  - set (m := (a + b) / 2) in *. assert (cos m * x1 + sin m * y1 < cos m * x2 + sin m * y2); [|unfold dot; lra].
    apply (linear_box_lt H2). intros c2 I2. assert (- cos m * fst c2 + - sin m * snd c2 < - cos m * x1 + - sin m * y1); [|lra].
    apply (linear_box_lt H1). intros c1 I1. destruct (G c1 c2 I1 I2) as (_ & _ & A). unfold dot in A. lra.
Qed.

(** * Spans *)
Definition seen (r1 r2 : rect) : list R := flat_map (fun c2 => map (fun c1 => arctan2 (snd c2 - snd c1) (fst c2 - fst c1)) (corners r1)) (corners r2).
Lemma seen_in r1 r2 a : In a (seen r1 r2) <-> exists c1 c2, In c1 (corners r1) /\ In c2 (corners r2) /\ a = arctan2 (snd c2 - snd c1) (fst c2 - fst c1).
Proof.
  unfold seen. rewrite in_flat_map. split.
  - intros (c2 & I2 & H). apply in_map_iff in H. destruct H as (c1 & E & I1). exists c1, c2. auto.
  - intros (c1 & c2 & I1 & I2 & ->). exists c2. split; [exact I2|]. apply in_map_iff. exists c1. auto.
Qed.
Lemma seen_all r1 r2 c1 c2 : In c1 (corners r1) -> In c2 (corners r2) -> In (arctan2 (snd c2 - snd c1) (fst c2 - fst c1)) (seen r1 r2).
Proof. intros I1 I2. apply seen_in. exists c1, c2. auto. Qed.
Lemma apart_nonzero r1 r2 c1 c2 : ordered r1 -> ordered r2 -> apart r1 r2 -> In c1 (corners r1) -> In c2 (corners r2) -> fst c2 - fst c1 <> 0 \/ snd c2 - snd c1 <> 0.
Proof.
  intros O1 O2 Ha I1 I2. apply corner_in in I1; [|exact O1]. apply corner_in in I2; [|exact O2]. unfold in_rect in *. destruct Ha as [H|[H|[H|H]]]; [left|left|right|right]; lra.
Qed.

(** Where the angles of the corners lie when the rectangles are apart. *)
Lemma seen_halves r1 r2 : ordered r1 -> ordered r2 -> apart r1 r2 ->
  (forall a, In a (seen r1 r2) -> - (PI / 2) < a < PI / 2) \/ (forall a, In a (seen r1 r2) -> 0 < a < PI) \/ (forall a, In a (seen r1 r2) -> - PI < a < 0) \/
  (forall a, In a (seen r1 r2) -> PI / 2 < a <= PI \/ - PI < a < - (PI / 2)).
Proof.
  intros O1 O2 Ha.
  assert (G : forall c1 c2, In c1 (corners r1) -> In c2 (corners r2) -> in_rect r1 (fst c1) (snd c1) /\ in_rect r2 (fst c2) (snd c2)) by (intros; split; apply corner_in; assumption).
  destruct Ha as [H|[H|[H|H]]].
  - left. intros a Ia. apply seen_in in Ia. destruct Ia as (c1 & c2 & I1 & I2 & ->). destruct (G _ _ I1 I2) as [[? ?] [? ?]]. apply atan2_right. lra.
  - right. right. right. intros a Ia. apply seen_in in Ia. destruct Ia as (c1 & c2 & I1 & I2 & ->). destruct (G _ _ I1 I2) as [[? ?] [? ?]].
    destruct (@atan2_left (fst c2 - fst c1) (snd c2 - snd c1) ltac:(lra)) as [A B]. destruct (Rle_dec 0 (snd c2 - snd c1)); [left; apply A; assumption|right; apply B; lra].
  - right. left. intros a Ia. apply seen_in in Ia. destruct Ia as (c1 & c2 & I1 & I2 & ->). destruct (G _ _ I1 I2) as [[? ?] [? ?]]. apply atan2_up. lra.
  - right. right. left. intros a Ia. apply seen_in in Ia. destruct Ia as (c1 & c2 & I1 & I2 & ->). destruct (G _ _ I1 I2) as [[? ?] [? ?]]. apply atan2_down. lra.
Qed.
Lemma seen_some r1 r2 : seen r1 r2 <> [].
Proof. cbn. discriminate. Qed.

Lemma rmod_low a : 0 <= a < 2 * PI -> rmod a (2 * PI) = a.
Proof.
  intros H. pose proof two_pi_pos. apply same_close; [apply rmod_same|]. pose proof (rmod_range a _ two_pi_pos). apply Rabs_def1; lra.
Qed.
Lemma rmod_neg a : - (2 * PI) <= a < 0 -> rmod a (2 * PI) = a + 2 * PI.
Proof.
  intros H. pose proof two_pi_pos. apply same_close; [eapply same_trans; [apply rmod_same|turn (-1)%Z]|]. pose proof (rmod_range a _ two_pi_pos). apply Rabs_def1; lra.
Qed.

(** Two angles in less than half a turn give the sector. *)
Lemma narrow r1 r2 lo hi : ordered r1 -> ordered r2 -> apart r1 r2 -> In lo (seen r1 r2) -> (forall a, In a (seen r1 r2) -> lo <= a) -> (forall a, In a (seen r1 r2) -> a <= hi) ->
  hi < lo + PI -> forall x1 y1 x2 y2, in_rect r1 x1 y1 -> in_rect r2 x2 y2 -> on_arc lo hi (arctan2 (y2 - y1) (x2 - x1)).
Proof.
  intros O1 O2 Ha I Hlo Hhi Hw x1 y1 x2 y2 H1 H2. assert (lo <= hi) by (apply Hhi, I).
  destruct (@sector r1 r2 lo hi) with (x1 := x1) (y1 := y1) (x2 := x2) (y2 := y2) as (f & Hs & Hf); try assumption.
  - intros c1 c2 I1 I2. split; [exact (apart_nonzero O1 O2 Ha I1 I2)|]. eexists. split; [apply same_refl|]. split; [apply Hlo|apply Hhi]; apply seen_all; assumption.
  - exists f. split; [exact Hs|]. left. auto.
Qed.

(** The angles modulo a turn, when they pass PI. *)
Lemma wide r1 r2 lo hi : ordered r1 -> ordered r2 -> apart r1 r2 ->
  (forall a, In a (seen r1 r2) -> PI / 2 < a <= PI \/ - PI < a < - (PI / 2)) ->
  let am := map (fun a => rmod a (2 * PI)) (seen r1 r2) in
  least am = Some lo -> greatest am = Some hi -> PI / 2 < lo /\ lo <= hi /\ hi < 3 * PI / 2 /\
  (exists a, In a (seen r1 r2) /\ same_angle a lo) /\ (exists a, In a (seen r1 r2) /\ same_angle a hi) /\
  (forall a, In a (seen r1 r2) -> lo <= rmod a (2 * PI) <= hi) /\
  forall x1 y1 x2 y2, in_rect r1 x1 y1 -> in_rect r2 x2 y2 -> exists f, same_angle (arctan2 (y2 - y1) (x2 - x1)) f /\ lo <= f <= hi.
Proof.
  intros O1 O2 Ha Hh am El Eh. pose proof PI_RGT_0.
  destruct (@least_spec am ltac:(unfold am; cbn; discriminate)) as (m & Em & Im & Lm). rewrite Em in El. injection El as ->.
  destruct (@greatest_spec am ltac:(unfold am; cbn; discriminate)) as (m & Em' & Im' & Lm'). rewrite Em' in Eh. injection Eh as ->.
  assert (Rm : forall a, In a (seen r1 r2) -> PI / 2 < rmod a (2 * PI) < 3 * PI / 2).
  { intros a Ia. destruct (Hh a Ia) as [B|B]; [rewrite rmod_low by lra; lra|rewrite rmod_neg by lra; lra]. }
  apply in_map_iff in Im. destruct Im as (al & El & Ial). apply in_map_iff in Im'. destruct Im' as (ah & Eh & Iah).
  assert (Bl := Rm _ Ial). assert (Bh := Rm _ Iah). rewrite El in Bl. rewrite Eh in Bh.
  assert (Hlh : lo <= hi). { apply Lm. rewrite <- Eh. apply in_map_iff. exists ah. auto. }
  assert (All : forall a, In a (seen r1 r2) -> lo <= rmod a (2 * PI) <= hi).
  { intros a Ia. split; [apply Lm|apply Lm']; apply in_map_iff; exists a; auto. }
  split; [lra|]. split; [exact Hlh|]. split; [lra|]. split; [exists al; split; [exact Ial|]; rewrite <- El; apply same_sym, rmod_same|].
  split; [exists ah; split; [exact Iah|]; rewrite <- Eh; apply same_sym, rmod_same|]. split; [exact All|].
  intros x1 y1 x2 y2 H1 H2. apply (@sector r1 r2 lo hi Hlh ltac:(lra)) with (3 := H2) (2 := H1).
  intros c1 c2 I1 I2. split; [exact (apart_nonzero O1 O2 Ha I1 I2)|]. exists (rmod (arctan2 (snd c2 - snd c1) (fst c2 - fst c1)) (2 * PI)).
  split; [apply same_sym, rmod_same|]. apply All, seen_all; assumption.
Qed.

Lemma seen_attained r1 r2 a b : ordered r1 -> ordered r2 -> In a (seen r1 r2) -> same_angle a b -> direction r1 r2 b.
Proof.
  intros O1 O2 Ia Hs. apply seen_in in Ia. destruct Ia as (c1 & c2 & I1 & I2 & ->). exists (fst c1), (snd c1), (fst c2), (snd c2).
  split; [apply corner_in; assumption|]. split; [apply corner_in; assumption|exact Hs].
Qed.

Lemma span_spec r1 r2 : ordered r1 -> ordered r2 -> apart r1 r2 ->
  exists lo hi, span_between r1 r2 = Some (lo, hi) /\ direction r1 r2 lo /\ direction r1 r2 hi /\ - PI < lo <= PI /\ - PI < hi <= PI /\
    (hi < lo -> PI / 2 < lo /\ hi < - (PI / 2)) /\
    forall x1 y1 x2 y2, in_rect r1 x1 y1 -> in_rect r2 x2 y2 -> on_arc lo hi (arctan2 (y2 - y1) (x2 - x1)).
Proof.
  intros O1 O2 Ha. pose proof PI_RGT_0 as P. unfold span_between.
  match goal with |- context [if ?t then Some (- PI, PI) else _] => destruct t eqn:T end.
  { exfalso. rewrite Bool.orb_true_iff, !Bool.andb_true_iff, !lt_iff in T. unfold ordered, apart in *. lra. }
  clear T. fold (seen r1 r2).
  destruct (least_spec (@seen_some r1 r2)) as (lo & El & Il & Ll). destruct (greatest_spec (@seen_some r1 r2)) as (hi & Eh & Ih & Lh).
  rewrite El, Eh. cbn [obind]. assert (Rg : forall a, In a (seen r1 r2) -> - PI < a <= PI).
  { intros a Ia. apply seen_in in Ia. destruct Ia as (c1 & c2 & _ & _ & ->). apply atan2_range. }
  assert (N1 := Rg _ Il). assert (N2 := Rg _ Ih). assert (N3 := Ll _ Ih).
  assert (Narrow : hi < lo + PI -> exists lo0 hi0, Some (lo, hi) = Some (lo0, hi0) /\ direction r1 r2 lo0 /\ direction r1 r2 hi0 /\ - PI < lo0 <= PI /\ - PI < hi0 <= PI /\ (hi0 < lo0 -> PI / 2 < lo0 /\ hi0 < - (PI / 2)) /\
    forall x1 y1 x2 y2, in_rect r1 x1 y1 -> in_rect r2 x2 y2 -> on_arc lo0 hi0 (arctan2 (y2 - y1) (x2 - x1))).
  { intros W. exists lo, hi. split; [reflexivity|]. split; [exact (seen_attained O1 O2 Il (same_refl _))|]. split; [exact (seen_attained O1 O2 Ih (same_refl _))|].
    split; [lra|]. split; [lra|]. split; [lra|]. exact (narrow O1 O2 Ha Il Ll Lh W). }
  destruct (seen_halves O1 O2 Ha) as [Hh|[Hh|[Hh|Hh]]].
  1-3: assert (A := Hh _ Il); assert (B := Hh _ Ih); destruct (Rle_dec (hi - lo) PI) as [W|W]; [apply Narrow; lra|lra].
  destruct (Rle_dec (hi - lo) PI) as [W|W]; [apply Narrow; destruct (Hh _ Il), (Hh _ Ih); lra|]. clear Narrow.
  destruct (@least_spec (map (fun a => rmod a (2 * PI)) (seen r1 r2)) ltac:(cbn; discriminate)) as (lm & Elm & _ & _).
  destruct (@greatest_spec (map (fun a => rmod a (2 * PI)) (seen r1 r2)) ltac:(cbn; discriminate)) as (hm & Ehm & _ & _). rewrite Elm, Ehm. cbn [obind].
  destruct (wide O1 O2 Ha Hh Elm Ehm) as (B1 & B2 & B3 & (al & Ial & Sal) & (ah & Iah & Sah) & All & Cov).
  assert (U : lm <= PI). { assert (A := All _ Ih). rewrite rmod_low in A by (destruct (Hh _ Ih), (Hh _ Il); lra). lra. }
  assert (V : PI < hm). { assert (A := All _ Il). rewrite rmod_neg in A by (destruct (Hh _ Ih), (Hh _ Il); lra). destruct (Hh _ Ih), (Hh _ Il); lra. }
  destruct (Rlt_dec PI lm) as [X|_]; [lra|]. destruct (Rlt_dec PI hm) as [_|X]; [|lra].
  exists lm, (hm - 2 * PI). split; [reflexivity|]. split; [exact (seen_attained O1 O2 Ial Sal)|].
  split; [apply (seen_attained O1 O2 Iah); eapply same_trans; [exact Sah|turn 1%Z]|]. split; [lra|]. split; [lra|]. split; [lra|].
  intros x1 y1 x2 y2 H1 H2. destruct (Cov _ _ _ _ H1 H2) as (f & Hs & Hf). destruct (Rle_dec f PI).
  - exists f. split; [exact Hs|]. right. split; [lra|]. left. lra.
  - exists (f - 2 * PI). split; [eapply same_trans; [exact Hs|turn 1%Z]|]. right. split; [lra|]. right. lra.
Qed.

(** * The rectangle seen from the origin, and back *)
Definition origin : rect := mk_rect 0 0 0 0.
Lemma in_origin : in_rect origin 0 0.
Proof. unfold in_rect, origin. cbn. lra. Qed.
Lemma origin_ordered : ordered origin.
Proof. unfold ordered, origin. cbn. lra. Qed.
Lemma in_mirror r x y : in_rect r x y -> in_rect (mk_rect (- xmax r) (- xmin r) (- ymax r) (- ymin r)) (- x) (- y).
Proof. unfold in_rect. cbn. lra. Qed.

Lemma seen_origin m : map (fun c => arctan2 (snd c) (fst c)) (corners m) = map (fun c => arctan2 (snd c - 0) (fst c - 0)) (corners m).
Proof. apply map_ext. intros c. rewrite !Rminus_0_r. reflexivity. Qed.
Lemma seen_from_origin m a : In a (map (fun c => arctan2 (snd c) (fst c)) (corners m)) <-> In a (seen origin m).
Proof.
  rewrite in_map_iff, seen_in. split.
  - intros (c & E & I). exists (0, 0), c. cbn [fst snd]. rewrite !Rminus_0_r. split; [left; reflexivity|]. auto.
  - intros (c1 & c2 & I1 & I2 & E). exists c2. split; [|exact I2]. rewrite E. assert (c1 = (0, 0)) by (destruct I1 as [<-|[<-|[<-|[<-|[]]]]]; reflexivity). subst c1. cbn. rewrite !Rminus_0_r. reflexivity.
Qed.

Lemma bounds_rectangle_spec r : ordered r -> (0 < xmin r /\ ymin r <> 0 \/ xmax r < 0 \/ 0 < ymin r \/ ymax r < 0) ->
  exists lo hi, bounds_rectangle r = Some (lo, hi) /\ forall x y, in_rect r x y -> on_arc lo hi (arctan2 (- y) (- x)).
Proof.
  intros O Hout. pose proof PI_RGT_0 as P. unfold bounds_rectangle. set (m := mk_rect (- xmax r) (- xmin r) (- ymax r) (- ymin r)).
  assert (Om : ordered m) by (unfold ordered, m in *; cbn; lra).
  assert (Ap : apart origin m) by (unfold apart, origin, m; cbn; lra).
  assert (Pt : forall lo hi, (forall x1 y1 x2 y2, in_rect origin x1 y1 -> in_rect m x2 y2 -> on_arc lo hi (arctan2 (y2 - y1) (x2 - x1))) -> forall x y, in_rect r x y -> on_arc lo hi (arctan2 (- y) (- x))).
  { intros lo hi H x y Hr. specialize (H 0 0 (- x) (- y) in_origin (in_mirror Hr)). rewrite !Rminus_0_r in H. exact H. }
  match goal with |- context [if ?t then Some (- PI, PI) else _] => destruct t eqn:T end.
  { exfalso. rewrite !Bool.andb_true_iff, !lt_iff in T. unfold m in T. cbn in T. lra. }
  clear T. set (angles := map (fun c => arctan2 (snd c) (fst c)) (corners m)).
  assert (Ne : angles <> []) by (unfold angles; cbn; discriminate).
  destruct (least_spec Ne) as (lo & El & Il & Ll). destruct (greatest_spec Ne) as (hi & Eh & Ih & Lh).
  assert (Narrow : hi < lo + PI -> exists lo0 hi0, Some (lo, hi) = Some (lo0, hi0) /\ forall x y, in_rect r x y -> on_arc lo0 hi0 (arctan2 (- y) (- x))).
  { intros W. exists lo, hi. split; [reflexivity|]. apply Pt.
    apply (narrow origin_ordered Om Ap); [apply seen_from_origin, Il|intros a Ia; apply Ll, seen_from_origin, Ia|intros a Ia; apply Lh, seen_from_origin, Ia|exact W]. }
  assert (Hlo := proj1 (seen_from_origin m lo) Il). assert (Hhi := proj1 (seen_from_origin m hi) Ih).
  assert (Cs : forall a, In a angles -> exists x y, in_rect m x y /\ a = arctan2 y x).
  { intros a Ia. apply in_map_iff in Ia. destruct Ia as (c & <- & Ic). exists (fst c), (snd c). split; [apply corner_in; assumption|reflexivity]. }
  match goal with |- context [if negb ?t then _ else _] => destruct t eqn:T end; cbn [negb].
  - rewrite !Bool.andb_true_iff, !lt_iff in T. destruct T as [[T1 T2] T3].
    assert (Hh : forall a, In a (seen origin m) -> PI / 2 < a <= PI \/ - PI < a < - (PI / 2)).
    { intros a Ia. apply seen_from_origin in Ia. destruct (Cs a Ia) as (x & y & [Hx Hy] & ->). destruct (@atan2_left x y ltac:(lra)) as [A B].
      destruct (Rle_dec 0 y); [left; apply A; assumption|right; apply B; lra]. }
    set (am := map (fun a => rmod a (2 * PI)) angles).
    destruct (@least_spec am ltac:(unfold am, angles; cbn; discriminate)) as (lm & Elm & Ilm & Llm).
    destruct (@greatest_spec am ltac:(unfold am, angles; cbn; discriminate)) as (hm & Ehm & Ihm & Lhm). rewrite Elm, Ehm. cbn [obind].
    assert (Rm : forall a, In a angles -> PI / 2 < rmod a (2 * PI) < 3 * PI / 2).
    { intros a Ia. apply seen_from_origin in Ia. destruct (Hh a Ia) as [B|B]; [rewrite rmod_low by lra; lra|rewrite rmod_neg by lra; lra]. }
    assert (All : forall a, In a angles -> lm <= rmod a (2 * PI) <= hm) by (intros a Ia; split; [apply Llm|apply Lhm]; apply in_map_iff; exists a; auto).
    assert (Bl : PI / 2 < lm) by (apply in_map_iff in Ilm; destruct Ilm as (a & <- & Ia); apply Rm, Ia).
    assert (Bh : hm < 3 * PI / 2) by (apply in_map_iff in Ihm; destruct Ihm as (a & <- & Ia); apply Rm, Ia).
    assert (U : lm < PI).
    { assert (I : In (arctan2 (ymax m) (xmin m)) angles) by (apply in_map_iff; exists (xmin m, ymax m); split; [reflexivity|right; left; reflexivity]).
      assert (A := All _ I). assert (G : 0 < arctan2 (ymax m) (xmin m) < PI) by (apply atan2_up; exact T3). rewrite rmod_low in A by lra. lra. }
    assert (V : PI < hm).
    { assert (I : In (arctan2 (ymin m) (xmin m)) angles) by (apply in_map_iff; exists (xmin m, ymin m); split; [reflexivity|left; reflexivity]).
      assert (A := All _ I). assert (G : - PI < arctan2 (ymin m) (xmin m) < 0) by (apply atan2_down; exact T2). rewrite rmod_neg in A by lra. lra. }
    rewrite (@rmod_low (lm + PI)) by lra. replace (rmod (hm + PI) (2 * PI)) with (hm - PI); [|symmetry; apply same_close; [eapply same_trans; [apply rmod_same|turn 1%Z]|pose proof (rmod_range (hm + PI) _ two_pi_pos); apply Rabs_def1; lra]].
    exists (lm + PI - PI), (hm - PI - PI). split; [reflexivity|]. apply Pt. intros x1 y1 x2 y2 H1 H2.
    destruct (@sector origin m lm hm ltac:(lra) ltac:(lra)) with (x1 := x1) (y1 := y1) (x2 := x2) (y2 := y2) as (f & Hs & Hf); [|exact H1|exact H2|].
    { intros c1 c2 I1 I2. split; [exact (apart_nonzero origin_ordered Om Ap I1 I2)|]. exists (rmod (arctan2 (snd c2 - snd c1) (fst c2 - fst c1)) (2 * PI)).
      split; [apply same_sym, rmod_same|]. apply All, seen_from_origin, seen_all; assumption. }
    destruct (Rle_dec f PI).
    + exists f. split; [exact Hs|]. right. split; [lra|]. left. lra.
    + exists (f - 2 * PI). split; [eapply same_trans; [exact Hs|turn 1%Z]|]. right. split; [lra|]. right. lra.
  - rewrite El, Eh. cbn [obind]. apply Narrow.
    assert (T' : ~ (xmax m < 0 /\ ymin m < 0 /\ 0 < ymax m)) by (intros T'; rewrite <- !lt_iff in T'; destruct T' as (A & B & C); rewrite A, B, C in T; discriminate).
    destruct (Cs _ Il) as (xl & yl & [Hxl Hyl] & Lo). destruct (Cs _ Ih) as (xh & yh & [Hxh Hyh] & Hi).
    destruct Hout as [[H0 H0']|[H0|[H0|H0]]].
    + assert (Tm : 0 <= ymin m \/ ymax m < 0). { unfold m in *. cbn [xmin xmax ymin ymax] in *. lra. }
      assert (xmax m < 0) by (unfold m; cbn; lra). destruct Tm as [Tm|Tm].
      * destruct (@atan2_left xl yl ltac:(lra)) as [A _]. destruct (@atan2_left xh yh ltac:(lra)) as [B _]. specialize (A ltac:(lra)). specialize (B ltac:(lra)). lra.
      * pose proof (@atan2_down xl yl ltac:(lra)). pose proof (@atan2_down xh yh ltac:(lra)). lra.
    + assert (0 < xmin m) by (unfold m; cbn; lra). pose proof (@atan2_right xl yl ltac:(lra)). pose proof (@atan2_right xh yh ltac:(lra)). lra.
    + assert (ymax m < 0) by (unfold m; cbn; lra). pose proof (@atan2_down xl yl ltac:(lra)). pose proof (@atan2_down xh yh ltac:(lra)). lra.
    + assert (0 < ymin m) by (unfold m; cbn; lra). pose proof (@atan2_up xl yl ltac:(lra)). pose proof (@atan2_up xh yh ltac:(lra)). lra.
Qed.

Lemma span_covers r1 r2 : ordered r1 -> ordered r2 -> apart r1 r2 \/ corner_inside r1 r2 \/ corner_inside r2 r1 ->
  exists lo hi, span_between r1 r2 = Some (lo, hi) /\ (lo <= hi \/ - PI < hi /\ lo <= PI) /\ forall a, direction r1 r2 a -> on_arc lo hi a.
Proof.
  intros O1 O2 [Ha|Hc].
  - destruct (span_spec O1 O2 Ha) as (lo & hi & E & _ & _ & L1 & L2 & _ & C). exists lo, hi. split; [exact E|]. split; [lra|]. intros a (x1 & y1 & x2 & y2 & H1 & H2 & Hs).
    destruct (C _ _ _ _ H1 H2) as (f & Hf & Ho). exists f. split; [eapply same_trans; [exact (same_sym _ _ Hs)|exact Hf]|exact Ho].
  - exists (- PI), PI. split; [|split; [pose proof PI_RGT_0; lra|intros a _; apply on_full]]. unfold span_between.
    match goal with |- context [if ?t then Some (- PI, PI) else _] => assert (T : t = true) end; [|rewrite T; reflexivity].
    rewrite Bool.orb_true_iff, !Bool.andb_true_iff, !lt_iff. unfold corner_inside in Hc. lra.
Qed.
Lemma span_rect_covers yb xb : fst xb <= snd xb -> fst yb <= snd yb ->
  (0 < fst xb \/ snd xb < 0 \/ 0 < fst yb \/ snd yb < 0 \/ (fst xb < 0 < snd xb /\ fst yb < 0 < snd yb)) ->
  exists b, span_rect yb xb = Some b /\ forall x y, fst xb <= x <= snd xb -> fst yb <= y <= snd yb -> in_bound b (arctan2 y x).
Proof.
  intros Hx Hy H. unfold span_rect. set (r := mk_rect (fst xb) (snd xb) (fst yb) (snd yb)).
  destruct (@span_covers origin r) as (lo & hi & E & L & C); [apply origin_ordered|split; assumption|unfold apart, corner_inside, origin, r; cbn; lra|].
  fold origin. rewrite E. cbn [obind fst snd]. eexists. split; [reflexivity|]. intros x y Ix Iy.
  assert (D : direction origin r (arctan2 y x)). { exists 0, 0, x, y. split; [apply in_origin|]. split; [split; assumption|]. rewrite !Rminus_0_r. apply same_refl. }
  destruct (C _ D) as (f & Hs & Hf). destruct (Rle_dec lo hi) as [A|A]; cbn [in_bound].
  - exists f. auto.
  - destruct Hf as [[X _]|[_ [Hf|Hf]]]; [lra| |].
    + exists f, (lo, PI). split; [exact Hs|]. split; [left; reflexivity|exact Hf].
    + exists f, (- PI, hi). split; [exact Hs|]. split; [right; left; reflexivity|exact Hf].
Qed.
Lemma least_is l m : In m l -> (forall y, In y l -> m <= y) -> least l = Some m.
Proof.
  intros I L. destruct (@least_spec l) as (m' & E & I' & L'); [intros ->; destruct I|]. rewrite E. f_equal. apply Rle_antisym; auto.
Qed.
Lemma greatest_is l m : In m l -> (forall y, In y l -> y <= m) -> greatest l = Some m.
Proof.
  intros I L. destruct (@greatest_spec l) as (m' & E & I' & L'); [intros ->; destruct I|]. rewrite E. f_equal. apply Rle_antisym; auto.
Qed.
