(** C87: three-dimensional lanes made of several segments. *)
From Coq Require Import Reals List ZArith Lra Lia Psatz.
From Verif Require Import Base Angle AngleSpec AngleProofs Lane3d Lane3dSpec Lane3dProofs Lane3dStraight Lane3dProps Lane3dCircular Lane3dArcProps.
Import ListNotations.
Open Scope R_scope.

(** The place [p] is beside segment [j] of the lane (from one metre before its start to its end), at the given lateral
    distance. *)
Definition beside (lane : list segment) (p : v3) (j : nat) (lateral : R) : Prop :=
  exists s l t, nth_error lane j = Some s /\ local_coordinates s p = Some (l, lateral, t) /\ -1 <= l < seg_length s.

Lemma is_on_iff l len : is_on l len = true <-> -1 <= l < len.
Proof.
  unfold is_on, COMPENSATE. destruct (Rle_dec (0 - 1) l); [destruct (Rlt_dec l len) |]; split; intros H; try discriminate; try reflexivity; lra.
Qed.

(** What the loop keeps: the first of the closest segments, and all possible ones. *)
Definition kept (lane : list segment) (p : v3) (n : nat) (best : option (nat * R)) (poss : list nat) : Prop :=
  (forall j, In j poss <-> (j < n)%nat /\ exists r, beside lane p j r)
  /\ match best with
     | None => poss = []
     | Some (i, m) => beside lane p i m /\ (i < n)%nat /\ forall j r, (j < n)%nat -> beside lane p j r -> m <= r /\ ((j < i)%nat -> m < r)
     end
  /\ (forall a b, (a < b < length poss)%nat -> (nth a poss 0 < nth b poss 0)%nat).

Lemma beside_fun lane p j r r' : beside lane p j r -> beside lane p j r' -> r = r'.
Proof. intros (s & l & t & A & B & _) (s' & l' & t' & A' & B' & _). congruence. Qed.

Lemma find_kept p lane : forall rest pre best poss, lane = pre ++ rest -> kept lane p (length pre) best poss ->
  forall best' poss', find_segment rest (length pre) best poss p = Some (best', poss') -> kept lane p (length lane) best' poss'.
Proof.
  induction rest as [| s rest IH]; intros pre best poss E K best' poss' F.
  - cbn in F. injection F as <- <-. rewrite app_nil_r in E. subst. exact K.
  - cbn [find_segment] in F. destruct (local_coordinates s p) as [[[l r] t] |] eqn:C; [| discriminate]. cbn [obind] in F.
    assert (N : nth_error lane (length pre) = Some s) by (rewrite E, nth_error_app2, Nat.sub_diag by lia; reflexivity).
    specialize (IH (pre ++ [s])). rewrite app_length, Nat.add_1_r in IH.
    assert (E' : lane = (pre ++ [s]) ++ rest) by (rewrite <- app_assoc; exact E).
    destruct K as (K1 & K2 & K3).
    destruct (is_on l (seg_length s)) eqn:O.
    + apply is_on_iff in O. assert (B : beside lane p (length pre) r) by (exists s, l, t; auto).
      eapply IH; [exact E' | | exact F]. split; [| split].
      * intros j. rewrite in_app_iff, K1. cbn. split.
        -- intros [[H X] | [<- | []]]; [split; [lia | exact X] | split; [lia | eauto]].
        -- intros [H X]. destruct (Nat.eq_dec j (length pre)) as [-> |]; [auto | left; split; [lia | exact X]].
      * destruct best as [[i m] |].
        -- destruct K2 as (Bi & Hi & Ki). destruct (Rlt_dec r m) as [L | L].
           ++ split; [exact B |]. split; [lia |]. intros j x Hj Bj. destruct (Nat.eq_dec j (length pre)) as [-> |].
              ** rewrite (beside_fun _ _ _ _ _ B Bj). split; [lra | intros; lia].
              ** destruct (Ki j x ltac:(lia) Bj) as [A _]. split; intros; lra.
           ++ split; [exact Bi |]. split; [lia |]. intros j x Hj Bj. destruct (Nat.eq_dec j (length pre)) as [-> |].
              ** rewrite (beside_fun _ _ _ _ _ Bj B). split; [lra | intros; lia].
              ** apply Ki; [lia | exact Bj].
        -- split; [exact B |]. split; [lia |]. intros j x Hj Bj. destruct (Nat.eq_dec j (length pre)) as [-> |].
           ++ rewrite (beside_fun _ _ _ _ _ B Bj). split; [lra | intros; lia].
           ++ exfalso. assert (In j poss) as H by (apply K1; split; [lia | eauto]). rewrite K2 in H. destruct H.
      * intros a b H. rewrite app_length in H. cbn in H. destruct (Nat.eq_dec b (length poss)) as [-> |].
        -- rewrite (@app_nth1 _ poss _ _ a) by lia. rewrite app_nth2, Nat.sub_diag by lia. cbn. 
           assert (In (nth a poss 0%nat) poss) as I by (apply nth_In; lia). apply K1 in I. lia.
        -- rewrite !app_nth1 by lia. apply K3. lia.
    + assert (NB : forall x, ~ beside lane p (length pre) x).
      { intros x (s' & l' & t' & A & B & D). rewrite N in A. injection A as <-. rewrite C in B. injection B as <- <- <-.
        apply is_on_iff in D. congruence. }
      eapply IH; [exact E' | | exact F]. split; [| split; [| exact K3]].
      * intros j. rewrite K1. split; intros [H X]; (split; [| exact X]); [lia |].
        destruct (Nat.eq_dec j (length pre)) as [-> |]; [destruct X as [x X]; destruct (NB x X) | lia].
      * destruct best as [[i m] |]; [| exact K2]. destruct K2 as (Bi & Hi & Ki). split; [exact Bi |]. split; [lia |].
        intros j x Hj Bj. destruct (Nat.eq_dec j (length pre)) as [-> |]; [destruct (NB _ Bj) |]. apply Ki; [lia | exact Bj].
Qed.

Lemma find_total p lane : forall i best poss, (forall s, In s lane -> local_coordinates s p <> None) ->
  find_segment lane i best poss p <> None.
Proof.
  induction lane as [| s lane IH]; intros i best poss H; cbn [find_segment]; [discriminate |].
  destruct (local_coordinates s p) as [[[l r] t] |] eqn:C; [| exfalso; apply (H s); [left; reflexivity | exact C]]. cbn [obind].
  destruct (is_on l (seg_length s)); apply IH; intros x Hx; apply H; right; exact Hx.
Qed.

(** [get_lane_segment] lists the segments the place is beside, in order, and answers the first of those at the least
    lateral distance; it answers none exactly when there is none; it raises only where a segment has no coordinates (on
    the axis of a circular one). *)
Theorem C87_segment : forall lane p, (forall s, In s lane -> local_coordinates s p <> None) ->
  exists i poss, get_lane_segment lane p = Some (i, poss)
  /\ (forall j, In j poss <-> exists r, beside lane p j r)
  /\ (forall a b, (a < b < length poss)%nat -> (nth a poss 0 < nth b poss 0)%nat)
  /\ match i with
     | None => forall j r, ~ beside lane p j r
     | Some i => exists m, beside lane p i m /\ forall j r, beside lane p j r -> m <= r /\ ((j < i)%nat -> m < r)
     end.
Proof.
  intros lane p H. unfold get_lane_segment. destruct (find_segment lane 0 None [] p) as [[best poss] |] eqn:F;
    [| destruct (find_total p lane 0 None [] H F)]. cbn [obind fst snd].
  assert (K0 : kept lane p 0 None []).
  { split; [| split; [reflexivity | cbn; lia]]. intros j. split; [intros [] | intros [X _]; lia]. }
  destruct (find_kept p lane lane [] None [] eq_refl K0 best poss F) as (K1 & K2 & K3).
  assert (Lt : forall j r, beside lane p j r -> (j < length lane)%nat).
  { intros j r (s & _ & _ & A & _). apply nth_error_Some. congruence. }
  exists (match best with Some (i, _) => Some i | None => None end), poss. split; [reflexivity |]. split; [| split; [exact K3 |]].
  - intros j. rewrite K1. split; [intros [_ X]; exact X | intros [r X]; split; eauto].
  - destruct best as [[i m] |].
    + destruct K2 as (B & _ & K). exists m. split; [exact B |]. intros j r X. apply K; [eapply Lt; exact X | exact X].
    + intros j r X. assert (In j poss) as I by (apply K1; split; eauto). rewrite K2 in I. destruct I.
Qed.

Lemma fold_sum l : forall x y, fold_left (fun acc s' => acc + seg_length s') l (x + y) = y + fold_left (fun acc s' => acc + seg_length s') l x.
Proof. induction l as [| s l IH]; intros x y; cbn; [ring |]. rewrite <- IH. f_equal. ring. Qed.

(** The sum of the lengths of the first [i] segments. *)
Fixpoint before (lane : list segment) (i : nat) : R :=
  match i, lane with S k, s :: rest => seg_length s + before rest k | _, _ => 0 end.

Lemma fold_before lane : forall i x, fold_left (fun acc s' => acc + seg_length s') (firstn i lane) x = x + before lane i.
Proof.
  induction lane as [| s lane IH]; intros [| i] x; cbn; try ring. rewrite IH. ring.
Qed.

(** The longitudinal position is that on the closest segment, plus the lengths of the segments listed before it; the
    lateral distance and the angle are those of that segment; all of them raise where there is none. *)
Theorem C87_coordinates : forall lane p, (forall s, In s lane -> local_coordinates s p <> None) ->
  (exists i m, beside lane p i m /\ (forall j r, beside lane p j r -> m <= r /\ ((j < i)%nat -> m < r))
     /\ exists s l t, nth_error lane i = Some s /\ local_coordinates s p = Some (l, m, t) /\ -1 <= l < seg_length s
          /\ get_l_r_theta lane p = Some (l, m, t) /\ get_longitudinal_position lane p = Some (before lane i + l))
  \/ ((forall j r, ~ beside lane p j r) /\ get_l_r_theta lane p = None /\ get_longitudinal_position lane p = None).
Proof.
  intros lane p H. destruct (C87_segment lane p H) as (i & poss & E & _ & _ & K).
  unfold get_l_r_theta, get_longitudinal_position. rewrite E. cbn [obind fst snd]. destruct i as [i |]; [left | right; cbn; auto].
  destruct K as (m & B & K). exists i, m. split; [exact B |]. split; [exact K |].
  destruct B as (s & l & t & A & C & O). exists s, l, t. cbn [obind]. rewrite A. cbn [obind]. rewrite C. cbn [obind fst].
  rewrite fold_before. repeat split; try assumption; try reflexivity; try lra. f_equal. ring.
Qed.

(** [longitudinal_start] of a segment is the sum of the lengths before it, so a position on the middle of segment [i]
    that no other segment passes through has the longitudinal position [longitudinal_start + x]. *)
Theorem C87_starts : forall lane i, (i < length lane)%nat -> nth i (longitudinal_starts lane 0) 0 = before lane i.
Proof.
  assert (G : forall lane i x, (i < length lane)%nat -> nth i (longitudinal_starts lane x) 0 = x + before lane i).
  { induction lane as [| s lane IH]; intros i x H; [cbn in H; lia |]. destruct i as [| i]; cbn; [ring |].
    rewrite IH by (cbn in H; lia). ring. }
  intros lane i H. rewrite G by exact H. ring.
Qed.

Lemma lateral_nonneg s p l r t : local_coordinates s p = Some (l, r, t) -> 0 <= r.
Proof.
  destruct s as [a b n len | c rad n sp ep right len]; cbn [local_coordinates]; intros E.
  - destruct (Req_EM_T _ 0); [injection E as _ <- _; apply vnorm_pos |].
    destruct (get_theta_by_coor _ _ _ _ _); [| discriminate]. injection E as _ <- _. apply vnorm_pos.
  - unfold get_rtp_by_coor in E. destruct (unit (cross n _)); [| discriminate]. cbn [obind] in E. destruct (unit (cross _ n)); [| discriminate].
    cbn [obind] in E. destruct (get_theta_by_coor p _ _ _ _); [| discriminate]. cbn [obind] in E.
    destruct (get_theta_by_coor _ n c rad right); [| discriminate]. cbn [obind] in E. injection E as _ <- _. apply vnorm_pos.
Qed.
Theorem C87_middle : forall lane p i s e L x, (forall s, In s lane -> local_coordinates s p <> None) ->
  s <> e -> straight_lane s e = Some L -> nth_error lane i = Some L ->
  0 <= x < dist s e -> p = along s e x -> (forall j, (j < i)%nat -> ~ beside lane p j 0) ->
  exists t, get_l_r_theta lane p = Some (x, 0, t)
  /\ get_longitudinal_position lane p = Some (nth i (longitudinal_starts lane 0) 0 + x).
Proof.
  intros lane p i s e L x H N HL Hi Hx Ep Hj. destruct (C84_straight_cylinder s e L N HL x 0 0) as (q & Q & Z & _).
  specialize (Z eq_refl). rewrite <- Ep in Z. subst q. destruct (C84_straight_back s e L N HL x 0 0 p (Rle_refl 0) Q) as [t T].
  destruct (C84_straight_coordinates s e N) as (L' & HL' & Len & _). rewrite HL in HL'. injection HL' as <-.
  assert (B : beside lane p i 0) by (exists L, x, t; rewrite Len; repeat split; try assumption; lra).
  rewrite C87_starts by (apply nth_error_Some; congruence).
  destruct (C87_coordinates lane p H) as [(k & m & Bk & Kk & s' & l & t' & A & C & _ & G1 & G2) | (K & _)]; [| destruct (K _ _ B)].
  destruct (Kk i 0 B) as [Le Lt]. pose proof (lateral_nonneg _ _ _ _ _ C) as P. assert (m = 0) by lra. subst m.
  assert (k = i) as ->.
  { destruct (Nat.lt_trichotomy k i) as [X | [X | X]]; [destruct (Hj k X Bk) | exact X | specialize (Lt X); lra]. }
  rewrite Hi in A. injection A as <-. rewrite T in C. injection C as <- <-. exists t. split; assumption.
Qed.

(** A lane of one straight segment: the longitudinal position is that along its axis, from one metre before its start to
    its end, and elsewhere it raises. *)
Theorem C87_single : forall s e L p l r t, s <> e -> straight_lane s e = Some L -> local_coordinates L p = Some (l, r, t) ->
  (-1 <= l < dist s e -> get_longitudinal_position [L] p = Some l /\ get_l_r_theta [L] p = Some (l, r, t))
  /\ (~ (-1 <= l < dist s e) -> get_longitudinal_position [L] p = None /\ get_l_r_theta [L] p = None).
Proof.
  intros s e L p l r t N HL C. destruct (C84_straight_coordinates s e N) as (L' & HL' & Len & _). rewrite HL in HL'. injection HL' as <-.
  rewrite <- Len. unfold get_longitudinal_position, get_l_r_theta, get_lane_segment. cbn [find_segment]. rewrite C. cbn [obind].
  split; intros H.
  - apply is_on_iff in H. rewrite H. cbn. rewrite C. cbn. auto.
  - assert (is_on l (seg_length L) = false) as ->; [| cbn; auto].
    destruct (is_on l (seg_length L)) eqn:O; [apply is_on_iff in O; contradiction | reflexivity].
Qed.

(** The altitude of a level lane is its height. *)
Definition level (h : R) (s : segment) : Prop :=
  (exists a b, straight_lane a b = Some s /\ vz a = h /\ vz b = h)
  \/ exists c r z sp ep right, 0 < r /\ z <> 0 /\ proper sp ep right /\ circular_lane c r (V 0 0 z) sp ep right = Some s /\ vz c = h.
Lemma level_altitude h s : level h s -> altitude s = Some h.
Proof.
  intros [(a & b & E & A & B) | (c & r & z & sp & ep & right & Hr & Hz & Pr & E & A)].
  - unfold straight_lane in E. destruct (unit _); [| discriminate]. injection E as <-. cbn. f_equal. lra.
  - assert (Hn : V 0 0 z <> V 0 0 0) by (intros [= X]; contradiction).
    destruct (C85_arc c r (V 0 0 z) sp ep right Hr Hn Pr) as (L & sw & E' & Sw & Len & _ & _ & _ & K). rewrite E in E'. injection E' as <-.
    set (n := direction (V 0 0 0) (V 0 0 z)) in *.
    assert (Z : forall l, exists q g, get_outer_center s l = Some q /\ get_tang s l = Some g /\ vz q = h).
    { intros l. destruct (K l) as (q & Q & (_ & On) & _ & G & _). exists q, (vsub (turned c n (PI / 2) q) c). split; [exact Q |]. split; [exact G |].
      assert (vx n = 0) as Nx by (unfold n, direction; cbn; unfold Rdiv; ring).
      assert (vy n = 0) as Ny by (unfold n, direction; cbn; unfold Rdiv; ring).
      assert (vz n <> 0) as Nz.
      { unfold n, direction; cbn [vx vy vz]. intros X. apply Rmult_integral in X. destruct X as [X | X]; [lra |].
        assert (D : dist (V 0 0 z) (V 0 0 0) <> 0).
        { intros D. pose proof (dist_sq (V 0 0 z) (V 0 0 0)) as S. rewrite D in S. unfold dot in S; cbn in S. nra. }
        apply Rinv_neq_0_compat in D. contradiction. }
      rewrite Nx, Ny in On. assert (vz n * (vz q - vz c) = 0) as X by lra. apply Rmult_integral in X. destruct X; [contradiction | lra]. }
    assert (altitude s = do t <- get_start_end_tang s; let '(start, _, stop, _) := t in Some ((vz start + vz stop) / 2)) as ->.
    { destruct s; [| reflexivity]. exfalso. unfold circular_lane in E. destruct (unit _); discriminate. }
    unfold get_start_end_tang. destruct (Z 0) as (q & g & -> & -> & Q). destruct (Z (seg_length s)) as (q' & g' & -> & -> & Q').
    cbn [obind]. f_equal. lra.
Qed.
Theorem C87_altitude : forall lane h, lane <> [] -> Forall (level h) lane -> get_altitude lane = Some h.
Proof.
  intros lane h N F.
  assert (M : forall l, Forall (level h) l -> mapM altitude l = Some (map (fun _ => h) l)).
  { clear. intros l F. induction F as [| s l Hs F IH]; [reflexivity |]. cbn [mapM map]. rewrite (level_altitude _ _ Hs). cbn [obind]. rewrite IH. reflexivity. }
  assert (Sm : forall (l : list segment) x, fold_left Rplus (map (fun _ => h) l) x = x + INR (length l) * h).
  { clear. induction l as [| s l IH]; intros x; cbn [map fold_left length]; [cbn; ring |]. rewrite IH, S_INR. ring. }
  unfold get_altitude. destruct lane as [| s lane]; [congruence |]. rewrite M by exact F. cbn [obind]. rewrite Sm.
  f_equal. field. change (INR (S (length lane)) <> 0). apply not_0_INR. discriminate.
Qed.

Print Assumptions C87_segment.
Print Assumptions C87_coordinates.
Print Assumptions C87_starts.
Print Assumptions C87_middle.
Print Assumptions C87_single.
Print Assumptions C87_altitude.
