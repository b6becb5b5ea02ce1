(** Proofs about the errors of sensed positions. *)
From Coq Require Import Reals Lra Lia Psatz List.
From Verif Require Import Base Angle AngleSpec AngleProofs Angular AngularSpec AngularProofs AngularRect.
Import ListNotations.
Set Implicit Arguments.
Open Scope R_scope.

(** * Intervals of angles *)
Lemma wrap_angle_id x : - PI < x <= PI -> wrap_angle x = x.
Proof. intros H. apply wrap_angle_unique; [exact H|apply same_refl]. Qed.

Lemma in_wrapped_spec a l u : l <= u < l + 2 * PI ->
  in_wrapped a (wrap_angle l) (wrap_angle u) = true <-> exists y, same_angle a y /\ l <= y <= u.
Proof.
  intros Hlu. pose proof PI_RGT_0. unfold in_wrapped. destruct (wrap_angle_spec a) as [Ra Sa]. destruct (wrap_angle_spec l) as [Rl Sl]. destruct (wrap_angle_spec u) as [Ru Su].
  rewrite (wrap_angle_id Rl), (wrap_angle_id Ru). set (a' := wrap_angle a) in *. set (l' := wrap_angle l) in *. set (u' := wrap_angle u) in *. clearbody a' l' u'.
  assert (Wd : u - l = u' - l' \/ u - l = u' - l' + 2 * PI /\ u' < l').
  { assert (S : same_angle (u - l) (u' - l')). { destruct Sl as [k E], Su as [m F]. exists (k - m)%Z. rewrite minus_IZR, E, F. ring. }
    destruct (Rle_dec l' u').
    - left. apply same_close; [exact S|]. apply Rabs_def1; lra.
    - right. split; [|lra]. apply same_close; [eapply same_trans; [exact S|turn (-1)%Z]|]. apply Rabs_def1; lra. }
  destruct Sl as [k E]. split.
  - intros Hw. destruct (Rle_dec l' u') as [L|L].
    + destruct (Rle_dec l' a'); [|discriminate]. destruct (Rle_dec a' u'); [|discriminate]. exists (a' + (l - l')). split; [|lra].
      eapply same_trans; [exact (same_sym _ _ Sa)|]. exists k. rewrite E. ring.
    + destruct (Rle_dec l' a').
      * exists (a' + (l - l')). split; [|lra]. eapply same_trans; [exact (same_sym _ _ Sa)|]. exists k. rewrite E. ring.
      * destruct (Rle_dec a' u'); [|discriminate]. exists (a' + (l - l') + 2 * PI). split; [|lra]. eapply same_trans; [exact (same_sym _ _ Sa)|]. exists (k - 1)%Z. rewrite minus_IZR, E. ring.
  - intros (y & Hs & Hy).
    assert (Sy : same_angle a' (y - (l - l'))). { eapply same_trans; [exact Sa|]. eapply same_trans; [exact Hs|]. exists (- k)%Z. rewrite opp_IZR, E. ring. }
    destruct (Rle_dec (y - (l - l')) PI).
    + assert (a' = y - (l - l')) by (apply same_close; [exact Sy|apply Rabs_def1; lra]).
      destruct (Rle_dec l' u'), (Rle_dec l' a'), (Rle_dec a' u'); try reflexivity; lra.
    + assert (a' = y - (l - l') - 2 * PI) by (apply same_close; [eapply same_trans; [exact Sy|turn 1%Z]|apply Rabs_def1; lra]).
      destruct (Rle_dec l' u'), (Rle_dec l' a'), (Rle_dec a' u'); try reflexivity; lra.
Qed.

(** * Largest cosine on an interval *)
Lemma cos_top l u x : l <= x <= u -> (exists y, same_angle 0 y /\ l <= y <= u) \/ cos x <= cos l \/ cos x <= cos u.
Proof.
  intros H. pose proof PI_RGT_0. set (t := l - rmod l (2 * PI)). pose proof (rmod_range l _ two_pi_pos) as Rr.
  assert (St : same_angle 0 t). { destruct (rmod_same l) as [k E]. exists k. unfold t. rewrite E. ring. }
  destruct (Req_dec (rmod l (2 * PI)) 0) as [Z|Z]; [left; exists t; split; [exact St|unfold t; lra]|].
  destruct (Rle_dec (t + 2 * PI) u) as [B|B].
  - left. exists (t + 2 * PI). split; [eapply same_trans; [exact St|turn (-1)%Z]|unfold t in *; lra].
  - right. assert (C : forall z, cos z = cos (z - t)) by (intros z; apply same_cos; destruct St as [k E]; exists (- k)%Z; rewrite opp_IZR; lra). rewrite (C x), (C l), (C u).
    destruct (Rle_dec (x - t) PI).
    + left. apply cos_decr_1; unfold t in *; lra.
    + right. destruct (Req_dec (x - t) (u - t)) as [->|]; [lra|]. apply Rlt_le, cos_increasing_1; unfold t in *; lra.
Qed.

(** The candidates for the phase [p]. *)
Lemma top_candidate p l u x cs : l <= x <= u -> u < l + 2 * PI ->
  In (wrap_angle l) cs -> In (wrap_angle u) cs -> (in_wrapped p (wrap_angle l) (wrap_angle u) = true -> In p cs) ->
  exists c, In c cs /\ cos (x - p) <= cos (c - p).
Proof.
  intros Hx Hw Il Iu Ip. assert (Cw : forall z, cos (wrap_angle z - p) = cos (z - p)).
  { intros z. apply same_cos. destruct (wrap_angle_spec z) as [_ [k E]]. exists k. rewrite E. ring. }
  destruct (@cos_top (l - p) (u - p) (x - p) ltac:(lra)) as [(y & Hs & Hy)|[H|H]].
  - exists p. split; [|unfold Rminus; rewrite Rplus_opp_r, cos_0; apply COS_bound]. apply Ip. apply in_wrapped_spec; [lra|]. exists (y + p). split; [|lra].
    destruct Hs as [k E]. exists k. lra.
  - exists (wrap_angle l). split; [exact Il|]. rewrite Cw. exact H.
  - exists (wrap_angle u). split; [exact Iu|]. rewrite Cw. exact H.
Qed.
Lemma cos_pi x : cos (x - PI) = - cos x.
Proof. replace x with (x - PI + PI) at 2 by ring. rewrite neg_cos. ring. Qed.
Lemma cos_half x : cos (x - PI / 2) = sin x.
Proof. rewrite cos_minus, cos_PI2, sin_PI2. ring. Qed.
Lemma cos_minus_half x : cos (x - - PI / 2) = - sin x.
Proof. replace (x - - PI / 2) with (x + PI / 2) by field. rewrite cos_plus, cos_PI2, sin_PI2. ring. Qed.

Lemma when_in b x y : In y (when b x) <-> b = true /\ y = x.
Proof. unfold when. destruct b; cbn; [intuition|]. split; [intros []|intros [H _]; discriminate H]. Qed.

(** The values of [f] on the interval are between the values at candidates. *)
Definition spans (f : R -> R) (cs : list R) (x : R) : Prop := exists c1 c2, In c1 cs /\ In c2 cs /\ f c1 <= f x <= f c2.
Lemma spans_cos l u x cs : l <= x <= u -> u < l + 2 * PI -> In (wrap_angle l) cs -> In (wrap_angle u) cs ->
  (in_wrapped 0 (wrap_angle l) (wrap_angle u) = true -> In 0 cs) -> (in_wrapped PI (wrap_angle l) (wrap_angle u) = true -> In PI cs) -> spans cos cs x.
Proof.
  intros Hx Hw Il Iu I0 I1. destruct (@top_candidate _ _ _ _ _ Hx Hw Il Iu I1) as (c1 & H1 & L1). destruct (@top_candidate _ _ _ _ _ Hx Hw Il Iu I0) as (c2 & H2 & L2).
  exists c1, c2. split; [exact H1|]. split; [exact H2|]. rewrite !cos_pi in L1. rewrite !Rminus_0_r in L2. lra.
Qed.
Lemma spans_sin l u x cs : l <= x <= u -> u < l + 2 * PI -> In (wrap_angle l) cs -> In (wrap_angle u) cs ->
  (in_wrapped (PI / 2) (wrap_angle l) (wrap_angle u) = true -> In (PI / 2) cs) -> (in_wrapped (- PI / 2) (wrap_angle l) (wrap_angle u) = true -> In (- PI / 2) cs) -> spans sin cs x.
Proof.
  intros Hx Hw Il Iu I0 I1. destruct (@top_candidate _ _ _ _ _ Hx Hw Il Iu I1) as (c1 & H1 & L1). destruct (@top_candidate _ _ _ _ _ Hx Hw Il Iu I0) as (c2 & H2 & L2).
  exists c1, c2. split; [exact H1|]. split; [exact H2|]. rewrite !cos_minus_half in L1. rewrite !cos_half in L2. lra.
Qed.

(** * Projections *)
Lemma psi_spans psi eps ax p : 0 <= eps < PI -> psi - eps <= p <= psi + eps ->
  spans (match ax with AZ => sin | _ => cos end) (psi_candidates psi eps ax) p.
Proof.
  intros He Hp. destruct ax; [eapply spans_cos|eapply spans_cos|eapply spans_sin]; try exact Hp; try lra;
    unfold psi_candidates; try (apply in_or_app; left; cbn; auto; fail); intros Hw; rewrite ?in_app_iff, ?when_in; auto.
Qed.
Lemma theta_spans theta eps ax t : ax <> AZ -> 0 <= eps < PI -> theta - eps <= t <= theta + eps ->
  spans (match ax with AX => cos | _ => sin end) (theta_candidates theta eps ax) t.
Proof.
  intros Ha He Hp. destruct ax; [eapply spans_cos|eapply spans_sin|congruence]; try exact Hp; try lra;
    unfold theta_candidates; try (apply in_or_app; left; cbn; auto; fail); intros Hw; rewrite ?in_app_iff, ?when_in; auto 10.
Qed.

Lemma product_spans a1 a a2 b1 b b2 : a1 <= a <= a2 -> b1 <= b <= b2 ->
  (a1 * b1 <= a * b \/ a1 * b2 <= a * b \/ a2 * b1 <= a * b \/ a2 * b2 <= a * b) /\ (a * b <= a1 * b1 \/ a * b <= a1 * b2 \/ a * b <= a2 * b1 \/ a * b <= a2 * b2).
Proof.
  intros Ha Hb. split.
  - assert (H : a * b1 <= a * b \/ a * b2 <= a * b) by (destruct (Rle_dec 0 a); [left|right]; nra). destruct H as [H|H].
    + assert (G : a1 * b1 <= a * b1 \/ a2 * b1 <= a * b1) by (destruct (Rle_dec 0 b1); [left|right]; nra). destruct G; [left|right; right; left]; lra.
    + assert (G : a1 * b2 <= a * b2 \/ a2 * b2 <= a * b2) by (destruct (Rle_dec 0 b2); [left|right]; nra). destruct G; [right; left|right; right; right]; lra.
  - assert (H : a * b <= a * b1 \/ a * b <= a * b2) by (destruct (Rle_dec 0 a); [right|left]; nra). destruct H as [H|H].
    + assert (G : a * b1 <= a1 * b1 \/ a * b1 <= a2 * b1) by (destruct (Rle_dec 0 b1); [right|left]; nra). destruct G; [left|right; right; left]; lra.
    + assert (G : a * b2 <= a1 * b2 \/ a * b2 <= a2 * b2) by (destruct (Rle_dec 0 b2); [right|left]; nra). destruct G; [right; left|right; right; right]; lra.
Qed.

Lemma projections_in theta psi eps ax p : In p (projections theta psi eps ax) <->
  exists c t, In c (psi_candidates psi eps ax) /\ In t (theta_candidates theta eps ax) /\ p = project ax c t.
Proof.
  unfold projections. rewrite in_flat_map. split.
  - intros (c & Hc & H). apply in_map_iff in H. destruct H as (t & <- & Ht). exists c, t. auto.
  - intros (c & t & Hc & Ht & ->). exists c. split; [exact Hc|]. apply in_map_iff. exists t. auto.
Qed.

Lemma project_spans theta psi eps ax p t : 0 <= eps < PI -> psi - eps <= p <= psi + eps -> theta - eps <= t <= theta + eps ->
  exists q1 q2, In q1 (projections theta psi eps ax) /\ In q2 (projections theta psi eps ax) /\ q1 <= project ax p t <= q2.
Proof.
  intros He Hp Ht. assert (Sp := @psi_spans _ _ ax _ He Hp).
  assert (G : forall f, (forall c s, project ax c s = cos c * f s) -> spans cos (psi_candidates psi eps ax) p -> spans f (theta_candidates theta eps ax) t ->
    exists q1 q2, In q1 (projections theta psi eps ax) /\ In q2 (projections theta psi eps ax) /\ q1 <= project ax p t <= q2).
  { intros f Hf (c1 & c2 & I1 & I2 & Hc) (s1 & s2 & J1 & J2 & Hs). rewrite Hf. destruct (product_spans Hc Hs) as [Lo Hi].
    assert (In4 : forall c s, In c (psi_candidates psi eps ax) -> In s (theta_candidates theta eps ax) -> In (cos c * f s) (projections theta psi eps ax)).
    { intros c s Ic Is. apply projections_in. exists c, s. rewrite Hf. auto. }
    assert (L : exists q1, In q1 (projections theta psi eps ax) /\ q1 <= cos p * f t) by (destruct Lo as [X|[X|[X|X]]]; eauto).
    assert (U : exists q2, In q2 (projections theta psi eps ax) /\ cos p * f t <= q2) by (destruct Hi as [X|[X|[X|X]]]; eauto).
    destruct L as (q1 & ? & ?), U as (q2 & ? & ?). exists q1, q2. auto. }
  destruct ax.
  - exact (G cos (fun _ _ => eq_refl) Sp (@theta_spans theta eps AX t ltac:(discriminate) He Ht)).
  - exact (G sin (fun _ _ => eq_refl) Sp (@theta_spans theta eps AY t ltac:(discriminate) He Ht)).
  - destruct Sp as (c1 & c2 & I1 & I2 & Hc). exists (sin c1), (sin c2). split; [|split; [|exact Hc]]; apply projections_in; [exists c1, 0|exists c2, 0]; (split; [assumption|]; split; [left; reflexivity|reflexivity]).
Qed.

(** Every candidate is in the interval. *)
Lemma psi_in psi eps ax c : 0 <= eps < PI -> In c (psi_candidates psi eps ax) -> exists p, same_angle c p /\ psi - eps <= p <= psi + eps.
Proof.
  intros He Hc. assert (W : psi - eps <= psi + eps < psi - eps + 2 * PI) by lra.
  assert (G : forall a, in_wrapped a (wrap_angle (psi - eps)) (wrap_angle (psi + eps)) = true -> exists p, same_angle a p /\ psi - eps <= p <= psi + eps) by (intros a Ha; apply in_wrapped_spec; assumption).
  unfold psi_candidates in Hc. apply in_app_or in Hc. destruct Hc as [[<-|[<-|[]]]|Hc].
  - exists (psi - eps). split; [apply wrap_angle_spec|lra].
  - exists (psi + eps). split; [apply wrap_angle_spec|lra].
  - destruct ax; rewrite in_app_iff, !when_in in Hc; destruct Hc as [[Hw ->]|[Hw ->]]; exact (G _ Hw).
Qed.
Lemma theta_in theta eps ax c : ax <> AZ -> 0 <= eps < PI -> In c (theta_candidates theta eps ax) -> exists p, same_angle c p /\ theta - eps <= p <= theta + eps.
Proof.
  intros Ha He Hc. assert (W : theta - eps <= theta + eps < theta - eps + 2 * PI) by lra.
  assert (G : forall a, in_wrapped a (wrap_angle (theta - eps)) (wrap_angle (theta + eps)) = true -> exists p, same_angle a p /\ theta - eps <= p <= theta + eps) by (intros a Hw; apply in_wrapped_spec; assumption).
  assert (Ends : c = wrap_angle (theta - eps) \/ c = wrap_angle (theta + eps) -> exists p, same_angle c p /\ theta - eps <= p <= theta + eps).
  { intros [->| ->]; [exists (theta - eps)|exists (theta + eps)]; (split; [apply wrap_angle_spec|lra]). }
  unfold theta_candidates in Hc. destruct ax; [| |congruence]; rewrite !in_app_iff, !when_in in Hc; cbn [In] in Hc.
  - destruct Hc as [[<-|[<-|[]]]|[[Hw ->]|[[Hw ->]|[[Hw ->]|[Hw ->]]]]]; auto.
  - destruct Hc as [[<-|[<-|[]]]|[[Hw ->]|[[Hw ->]|[]]]]; auto.
Qed.
Lemma project_attained theta psi eps ax q : 0 <= eps < PI -> In q (projections theta psi eps ax) ->
  exists p t, psi - eps <= p <= psi + eps /\ theta - eps <= t <= theta + eps /\ project ax p t = q.
Proof.
  intros He Hq. apply projections_in in Hq. destruct Hq as (c & s & Ic & Is & ->). destruct (@psi_in _ _ _ _ He Ic) as (p & Sp & Hp). destruct (same_cos _ _ Sp) as [Cp Np].
  destruct ax.
  - destruct (@theta_in theta eps AX s ltac:(discriminate) He Is) as (t & St & Ht). destruct (same_cos _ _ St). exists p, t. cbn. split; [exact Hp|]. split; [exact Ht|congruence].
  - destruct (@theta_in theta eps AY s ltac:(discriminate) He Is) as (t & St & Ht). destruct (same_cos _ _ St). exists p, t. cbn. split; [exact Hp|]. split; [exact Ht|congruence].
  - exists p, theta. cbn. split; [exact Hp|]. split; [lra|congruence].
Qed.

(** * Positions *)
Lemma true_position x y z ax : let rho := sqrt (x ^ 2 + y ^ 2 + z ^ 2) in
  rho * project ax (arctan2 z (sqrt (x ^ 2 + y ^ 2))) (arctan2 y x) = coordinate ax x y z.
Proof.
  cbv zeta. assert (Eh : sqrt (x ^ 2 + y ^ 2) = norm x y) by (unfold norm; f_equal; ring). rewrite Eh.
  assert (Er : sqrt (x ^ 2 + y ^ 2 + z ^ 2) = norm (norm x y) z). { unfold norm at 1. rewrite norm_sq. f_equal. ring. } rewrite Er.
  destruct (atan2_polar x y) as [Ex Ey]. destruct (atan2_polar (norm x y) z) as [Eq Ez].
  destruct ax; cbn [project coordinate].
  - rewrite <- Rmult_assoc, <- Eq. symmetry. exact Ex.
  - rewrite <- Rmult_assoc, <- Eq. symmetry. exact Ey.
  - symmetry. exact Ez.
Qed.

(** The smallest and the largest of the products. *)
Lemma products rho e q1 q q2 r : 0 <= e -> q1 <= q <= q2 -> rho - e <= r <= rho + e ->
  let up p := if Rle_dec 0 p then (rho + e) * p else (rho - e) * p in let down p := if Rle_dec 0 p then (rho - e) * p else (rho + e) * p in
  (r * q <= up q1 \/ r * q <= up q2) /\ (down q1 <= r * q \/ down q2 <= r * q).
Proof.
  intros He Hq Hr. cbv zeta.
  assert (Up : forall p, r * p <= (if Rle_dec 0 p then (rho + e) * p else (rho - e) * p)) by (intros p; destruct (Rle_dec 0 p); nra).
  assert (Dn : forall p, (if Rle_dec 0 p then (rho - e) * p else (rho + e) * p) <= r * p) by (intros p; destruct (Rle_dec 0 p); nra).
  assert (U1 := Up q1). assert (U2 := Up q2). assert (D1 := Dn q1). assert (D2 := Dn q2).
  split; (destruct (Rle_dec 0 r); [assert (r * q1 <= r * q <= r * q2) by nra|assert (r * q2 <= r * q <= r * q1) by nra]); [right|left|left|right]; lra.
Qed.

Lemma point_error_spec x y z eps_r eps ax : 0 <= eps_r -> 0 <= eps < PI ->
  let rho := sqrt (x ^ 2 + y ^ 2 + z ^ 2) in let theta := arctan2 y x in let psi := arctan2 z (sqrt (x ^ 2 + y ^ 2)) in
  let reading v := exists r p t, rho - eps_r <= r <= rho + eps_r /\ psi - eps <= p <= psi + eps /\ theta - eps <= t <= theta + eps /\ v = r * project ax p t - coordinate ax x y z in
  exists hi lo, point_error x y z eps_r eps ax = Some (hi, lo) /\ (forall v, reading v -> lo <= v <= hi) /\ reading hi /\ reading lo.
Proof.
  intros Hr He rho theta psi reading. unfold point_error. fold rho theta psi. rewrite (true_position x y z ax : rho * project ax psi theta = _).
  set (ps := projections theta psi eps ax). set (up := fun p => if Rle_dec 0 p then (rho + eps_r) * p else (rho - eps_r) * p).
  set (down := fun p => if Rle_dec 0 p then (rho - eps_r) * p else (rho + eps_r) * p).
  assert (Ne : ps <> []). { destruct (@project_spans theta psi eps ax psi theta He ltac:(lra) ltac:(lra)) as (q1 & _ & I & _). intros E. unfold ps in *. rewrite E in I. destruct I. }
  destruct (@greatest_spec (map up ps)) as (hi & Eh & Ih & Lh); [destruct ps; [congruence|discriminate]|].
  destruct (@least_spec (map down ps)) as (lo & El & Il & Ll); [destruct ps; [congruence|discriminate]|]. rewrite Eh, El. cbn [obind].
  exists (hi - coordinate ax x y z), (lo - coordinate ax x y z). split; [reflexivity|]. split; [|split].
  - intros v (r & p & t & Rr & Rp & Rt & ->). destruct (@project_spans _ _ _ ax _ _ He Rp Rt) as (q1 & q2 & I1 & I2 & Hq). fold ps in I1, I2.
    destruct (products Hr Hq Rr) as [U D]. fold up in U. fold down in D. assert (M1 := Lh _ (in_map up _ _ I1)). assert (M2 := Lh _ (in_map up _ _ I2)).
    assert (M3 := Ll _ (in_map down _ _ I1)). assert (M4 := Ll _ (in_map down _ _ I2)). unfold up, down in *. lra.
  - apply in_map_iff in Ih. destruct Ih as (q & Eq & Iq). destruct (@project_attained _ _ _ _ _ He Iq) as (p & t & Hp & Ht & Ep).
    unfold up in Eq. destruct (Rle_dec 0 q); [exists (rho + eps_r)|exists (rho - eps_r)]; exists p, t; rewrite Ep, Eq; repeat split; lra.
  - apply in_map_iff in Il. destruct Il as (q & Eq & Iq). destruct (@project_attained _ _ _ _ _ He Iq) as (p & t & Hp & Ht & Ep).
    unfold down in Eq. destruct (Rle_dec 0 q); [exists (rho - eps_r)|exists (rho + eps_r)]; exists p, t; rewrite Ep, Eq; repeat split; lra.
Qed.

Lemma error_spec x y z eps_r eps ax : 0 <= eps_r -> 0 <= eps < PI ->
  exists hi lo, point_error x y z eps_r eps ax = Some (hi, lo) /\ (forall v, reading_error ax x y z eps_r eps v -> lo <= v <= hi) /\
    reading_error ax x y z eps_r eps hi /\ reading_error ax x y z eps_r eps lo.
Proof.
  intros Hr He. destruct (@point_error_spec x y z eps_r eps ax Hr He) as (hi & lo & E & C & A & B). exists hi, lo. split; [exact E|].
  assert (Sp : forall r p t, spherical ax r p t = r * project ax p t) by (intros; destruct ax; reflexivity).
  assert (Ab : forall u c e, Rabs (u - c) <= e <-> c - e <= u <= c + e).
  { intros u c e. split; [intros G; unfold Rabs in G; destruct (Rcase_abs (u - c)); lra|intros G; apply Rabs_le; lra]. }
  split; [|split].
  - intros v (r & p & t & H1 & H2 & H3 & ->). apply Ab in H1, H2, H3. apply C. exists r, p, t. rewrite Sp. auto.
  - destruct A as (r & p & t & H1 & H2 & H3 & ->). exists r, p, t. rewrite !Ab, Sp. auto.
  - destruct B as (r & p & t & H1 & H2 & H3 & ->). exists r, p, t. rewrite !Ab, Sp. auto.
Qed.
