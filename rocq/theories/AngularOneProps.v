(** C79: angles of arguments that have one interval each. *)
From Coq Require Import Reals Lra Lia.
From Verif Require Import Base AngleSpec AngleProofs Angle Angular AngularSpec AngularProofs AngularRect AngularProj AngularProps Piecewise Handlers SeveralProps.
Set Implicit Arguments.
Open Scope R_scope.

(** [angular_bounds_diff_correct], the alias of minus_angular; two turns of its loop are enough. *)
Definition minus_on (comb : list (R * R)) : option bound := match comb with [x; z] => diff_bounds 2 x z | _ => None end.

(** ** Bounds of which nothing is lost *)
Definition kept (b : bound) : Prop :=
  match b with
  | One lo hi => lo <= hi
  | Many l => exists lo hi, l = [(lo, PI); (- PI, hi)] /\ 0 <= lo <= PI /\ - PI <= hi <= 0
  end.
Lemma kept_all b x : kept b -> angle_in (combine_bounds [b]) x <-> in_bound b x.
Proof.
  pose proof PI_RGT_0 as P. destruct b as [lo hi|l]; cbn [kept].
  - intros H. rewrite combine_unfold. cbn [normalized flat_map app]. destruct (Rlt_dec hi lo) as [?|_]; [lra|].
    cbn [app sorted fold_right insert]. unfold merged. cbn [fold_left merge_step rev app]. unfold merge_wrapped. cbn [length Nat.ltb Nat.leb].
    assert (E : forall i, In i (format [(lo, hi)]) <-> i = (lo, hi)).
    { intros i. unfold format. cbn [filter fst snd]. destruct (le 0 lo), (le hi 0); cbn; intuition. }
    unfold angle_in, in_bound, on_arc. split.
    + intros (y & i & S & I & V). apply E in I. subst i. exists y. split; [exact S|]. left. auto.
    + intros (y & S & [[_ V]|[F _]]); [|lra]. exists y, (lo, hi). split; [exact S|]. split; [apply E; reflexivity|exact V].
  - intros (lo & hi & -> & L & H). rewrite C75_union_partial.
    + split; [intros (b & [<-|[]] & I); exact I|intros I; exists (Many [(lo, PI); (- PI, hi)]); split; [left; reflexivity|exact I]].
    + right. right. split; [|split].
      * intros b i [<-|[]] [<-|[<-|[]]]; [left|right]; unfold positive, negative; cbn; lra.
      * intros x1 y1 z1 (b & i & [<-|[]] & [<-|[<-|[]]] & Q1 & V1) (b' & i' & [<-|[]] & [<-|[<-|[]]] & Q2 & V2) B; unfold positive in *; cbn in *; try lra.
        exists (Many [(lo, PI); (- PI, hi)]), (lo, PI). split; [left; reflexivity|]. split; [left; reflexivity|]. cbn. lra.
      * intros x1 y1 z1 (b & i & [<-|[]] & [<-|[<-|[]]] & Q1 & V1) (b' & i' & [<-|[]] & [<-|[<-|[]]] & Q2 & V2) B; unfold negative in *; cbn in *; try lra.
        exists (Many [(lo, PI); (- PI, hi)]), (- PI, hi). split; [left; reflexivity|]. split; [right; left; reflexivity|]. cbn. lra.
Qed.

(** ** atan2 *)
Lemma span_kept yb xb b : span_rect yb xb = Some b -> kept b.
Proof.
  pose proof PI_RGT_0 as P. unfold span_rect, span_between. cbn [xmin xmax ymin ymax].
  set (c := (_ || _)%bool). set (l := flat_map _ _).
  assert (Rl : forall a, In a l -> - PI < a <= PI).
  { intros a Ha. unfold l in Ha. apply in_flat_map in Ha. destruct Ha as (c2 & _ & Ha). apply in_map_iff in Ha. destruct Ha as (c1 & <- & _). apply atan2_range. }
  assert (NE : l <> []) by discriminate. destruct c.
  { cbn [obind fst snd]. destruct (Rle_dec (- PI) PI) as [_|?]; [|lra]. intros [= <-]. cbn. lra. }
  destruct (least_spec NE) as (lo & -> & L2 & L3). cbn [obind]. destruct (greatest_spec NE) as (hi & -> & G2 & G3). cbn [obind].
  assert (LH := L3 _ G2). destruct (Rle_dec (hi - lo) PI) as [_|W].
  { cbn [obind fst snd]. destruct (Rle_dec lo hi) as [_|?]; [|lra]. intros [= <-]. exact LH. }
  set (am := map (fun a => rmod a (2 * PI)) l). assert (NA : am <> []) by discriminate.
  destruct (least_spec NA) as (lo' & -> & L2' & L3'). cbn [obind]. destruct (greatest_spec NA) as (hi' & -> & G2' & G3'). cbn [obind fst snd].
  assert (Rlo := Rl _ L2). assert (Rhi := Rl _ G2).
  (* the greatest angle is not negative, the least one is *)
  assert (A1 : 0 <= lo' <= PI).
  { split.
    - unfold am in L2'. apply in_map_iff in L2'. destruct L2' as (a & <- & _). apply rmod_range. lra.
    - apply Rle_trans with (rmod hi (2 * PI)); [apply L3'; apply in_map_iff; exists hi; auto|]. rewrite rmod_low by lra. lra. }
  assert (A2 : PI < hi' < 2 * PI).
  { split.
    - apply Rlt_le_trans with (rmod lo (2 * PI)); [|apply G3'; apply in_map_iff; exists lo; auto]. rewrite rmod_neg by lra. lra.
    - unfold am in G2'. apply in_map_iff in G2'. destruct G2' as (a & <- & _). apply rmod_range. lra. }
  destruct (Rlt_dec PI lo') as [?|_]; [lra|]. destruct (Rlt_dec PI hi') as [_|?]; [|lra]. destruct (Rle_dec lo' (hi' - 2 * PI)) as [?|_]; [lra|].
  intros [= <-]. cbn. exists lo', (hi' - 2 * PI). split; [reflexivity|]. lra.
Qed.

(** All boxes of C74.  Missing: boxes with the origin on an edge (refuted there). *)
Theorem C79_one_atan2_partial : forall yb xb, fst xb <= snd xb -> fst yb <= snd yb ->
  (0 < fst xb \/ snd xb < 0 \/ 0 < fst yb \/ snd yb < 0 \/ (fst xb < 0 < snd xb /\ fst yb < 0 < snd yb)) ->
  exists l, handle_angular atan2_on [[yb]; [xb]] = Some l /\
    forall x y, fst xb <= x <= snd xb -> fst yb <= y <= snd yb -> angle_in l (arctan2 y x).
Proof.
  intros yb xb OX OY H. destruct (C74_atan2_partial _ _ OX OY H) as (b & E & C).
  exists (combine_bounds [b]). split; [unfold handle_angular; cbn; rewrite E; reflexivity|].
  intros x y X Y. apply kept_all; [exact (span_kept _ _ E)|]. apply C; assumption.
Qed.

(** ** minus_angular *)
Lemma diff_kept theta ref b : proper theta -> proper ref -> snd theta - fst theta + (snd ref - fst ref) <= PI -> diff_bounds 2 theta ref = Some b -> kept b.
Proof.
  pose proof PI_RGT_0 as P. intros (T1 & T2 & T3) (R1 & R2 & R3) W. unfold diff_bounds.
  set (full := (_ || _)%bool). destruct full; [intros [= <-]; cbn; lra|].
  rewrite lift_once by (lra || lia).
  assert (G : forall lo n, 0 <= lo <= 2 * PI -> lo = fst theta - snd ref + 2 * PI * INR n ->
    (let hi := snd theta - fst ref + 2 * PI * INR n in
     if Rle_dec lo PI then if Rle_dec PI hi then Some (Many [(lo, PI); (- PI, hi - 2 * PI)])
       else let a := wrap_angle lo in let b := wrap_angle hi in Some (if Rlt_dec b a then Many [(a, PI); (- PI, b)] else One a b)
     else let a := wrap_angle lo in let b := wrap_angle hi in Some (if Rlt_dec b a then Many [(a, PI); (- PI, b)] else One a b)) = Some b -> kept b).
  { intros lo n L E. cbv zeta. set (hi := snd theta - fst ref + 2 * PI * INR n). assert (LH : lo <= hi <= lo + PI) by (unfold hi; lra).
    destruct (Rle_dec lo PI) as [L1|L1].
    - destruct (Rle_dec PI hi) as [H1|H1].
      + intros [= <-]. cbn. exists lo, (hi - 2 * PI). split; [reflexivity|]. lra.
      + rewrite !wrap_angle_id by lra. destruct (Rlt_dec hi lo) as [?|_]; [lra|]. intros [= <-]. cbn. lra.
    - rewrite (@wrap_angle_unique lo (lo - 2 * PI)) by (lra || turn (-1)%Z). destruct (Rle_dec hi (3 * PI)) as [H3|H3]; [|lra].
      rewrite (@wrap_angle_unique hi (hi - 2 * PI)) by (lra || turn (-1)%Z). destruct (Rlt_dec (hi - 2 * PI) (lo - 2 * PI)) as [?|_]; [lra|]. intros [= <-]. cbn. lra. }
  destruct (Rlt_dec (fst theta - snd ref) 0) as [N|N]; cbn [obind fst snd]; apply G; cbn [INR]; try lra.
Qed.

(** Missing: intervals whose lengths add up to more than half a turn (refuted below). *)
Theorem C79_one_minus_partial : forall theta ref, proper theta -> proper ref -> snd theta - fst theta + (snd ref - fst ref) <= PI ->
  exists l, handle_angular minus_on [[theta]; [ref]] = Some l /\
    forall x, angle_in l x <-> exists a c, fst theta <= a <= snd theta /\ fst ref <= c <= snd ref /\ same_angle x (a - c).
Proof.
  intros theta ref T Rf W. pose proof PI_RGT_0 as P. destruct (@C73_difference_partial 2 theta ref T Rf ltac:(lia) ltac:(left; lra)) as (b & E & C).
  exists (combine_bounds [b]). split; [unfold handle_angular; cbn; rewrite E; reflexivity|].
  intros x. rewrite (@kept_all b x (@diff_kept theta ref b T Rf W E)). apply C.
Qed.

(** ** Where they fail *)
(** [x] in [-3, 5/2] minus [z] in [1/2, 1]: the difference 0 of 1/2 and 1/2 is not in the bounds. *)
Theorem C79_one_minus_refuted : exists theta ref l a c, proper theta /\ proper ref /\ snd theta - fst theta + (snd ref - fst ref) < 2 * PI /\
  handle_angular minus_on [[theta]; [ref]] = Some l /\ fst theta <= a <= snd theta /\ fst ref <= c <= snd ref /\ ~ angle_in l (a - c).
Proof.
  pose proof three_pi as P. exists (-3, 5 / 2), (1 / 2, 1), [(2 * PI - 4, PI)], (1 / 2), (1 / 2).
  split; [unfold proper; cbn; lra|]. split; [unfold proper; cbn; lra|]. split; [cbn; lra|]. split; [|cbn [fst snd]; split; [lra|split; [lra|]]].
  - unfold handle_angular. cbn [product flat_map map app mapM minus_on obind].
    assert (E : diff_bounds 2 (-3, 5 / 2) (1 / 2, 1) = Some (Many [(2 * PI - 4, PI); (- PI, 2)])).
    { unfold diff_bounds. cbn [fst snd]. destruct (Req_EM_T (-3) (- PI)) as [?|_]; [lra|]. destruct (Req_EM_T (1 / 2) (- PI)) as [?|_]; [lra|]. cbn [orb].
      rewrite lift_once by (lra || lia). destruct (Rlt_dec (-3 - 1) 0) as [_|?]; [|lra]. cbn [obind fst snd INR].
      destruct (Rle_dec (-3 - 1 + 2 * PI) PI) as [_|?]; [|pose proof PI_RGT_0; lra]. destruct (Rle_dec PI (5 / 2 - 1 / 2 + 2 * PI * 1)) as [_|?]; [|lra].
      replace (-3 - 1 + 2 * PI) with (2 * PI - 4) by lra. replace (5 / 2 - 1 / 2 + 2 * PI * 1 - 2 * PI) with 2 by lra. reflexivity. }
    rewrite E. cbn [obind]. f_equal. rewrite combine_unfold. cbn [normalized flat_map app sorted fold_right insert].
    assert (K : key_le (2 * PI - 4, PI) (- PI, 2) = true) by (apply key_le_iff; cbn; lra). rewrite K. unfold merged. cbn [fold_left merge_step].
    assert (O : overlap (2 * PI - 4, PI) (- PI, 2) = false) by (apply Bool.not_true_iff_false; rewrite overlap_iff; cbn; lra). rewrite O. cbn [rev app].
    assert (L1 : le 0 (2 * PI - 4) = true) by (apply le_iff; lra). assert (L2 : le 0 (- PI) = false) by (apply le_false; lra).
    assert (L3 : le PI 0 = false) by (apply le_false; lra). assert (L4 : le 2 0 = false) by (apply le_false; lra).
    assert (L5 : lt PI 2 = false) by (apply Bool.not_true_iff_false; rewrite lt_iff; lra).
    unfold merge_wrapped, last_index. cbn [length Nat.ltb Nat.leb fold_left fst snd]. rewrite L1, L2. cbn [Nat.eqb Nat.sub last snd Nat.add firstn fold_left]. rewrite L4.
    cbn [fold_left fst snd]. rewrite L5. cbn [snd]. unfold format. cbn [filter fst snd]. rewrite L1, L2, L3, L4. reflexivity.
  - intros (y & i & (k & Ek) & [<-|[]] & Hy). cbn in Hy. assert (-1 < k < 0)%Z; [|lia]. split; apply lt_IZR; apply Rmult_lt_reg_l with (2 * PI); lra.
Qed.

Lemma least_is l m : In m l -> (forall y, In y l -> m <= y) -> least l = Some m.
Proof. intros I H. destruct (@least_spec l) as (m' & -> & I' & H'); [intros ->; exact I|]. f_equal. apply Rle_antisym; [apply H', I|apply H, I']. Qed.
Lemma greatest_is l m : In m l -> (forall y, In y l -> y <= m) -> greatest l = Some m.
Proof. intros I H. destruct (@greatest_spec l) as (m' & -> & I' & H'); [intros ->; exact I|]. f_equal. apply Rle_antisym; [apply H, I'|apply H', I]. Qed.
Ltac among := let F := fresh in intros ? F; repeat (destruct F as [<-|F]; [lra|]); destruct F.
Lemma span_right : span_rect (-1, 1) (1, 1) = Some (One (- (PI / 4)) (PI / 4)).
Proof.
  pose proof PI_RGT_0. unfold span_rect, span_between, lt. cbn [fst snd xmin xmax ymin ymax]. rdec.
  cbn [corners flat_map map app fst snd xmin xmax ymin ymax]. rewrite !Rminus_0_r, at_pp, at_mp.
  rewrite (@least_is _ (- (PI / 4))), (@greatest_is _ (PI / 4)); [|cbn; tauto|among|cbn; tauto|among]. cbn [obind]. rdec. cbn [obind fst snd]. rdec. reflexivity.
Qed.
Lemma span_left : span_rect (-1, 1) (-1, -1) = Some (Many [(3 * PI / 4, PI); (- PI, - (3 * PI / 4))]).
Proof.
  pose proof PI_RGT_0. unfold span_rect, span_between, lt. cbn [fst snd xmin xmax ymin ymax]. rdec.
  cbn [corners flat_map map app fst snd xmin xmax ymin ymax]. rewrite !Rminus_0_r, at_pm, at_mm. rewrite (@rmod_low (3 * PI / 4)), (@rmod_neg (- (3 * PI / 4))) by lra.
  rewrite (@least_is _ (- (3 * PI / 4))), (@greatest_is _ (3 * PI / 4)); [|cbn; tauto|among|cbn; tauto|among]. cbn [obind]. rdec.
  rewrite (@least_is _ (3 * PI / 4)), (@greatest_is _ (- (3 * PI / 4) + 2 * PI)); [|cbn; tauto|among|cbn; tauto|among]. cbn [obind fst snd].
  rdec. replace (- (3 * PI / 4) + 2 * PI - 2 * PI) with (- (3 * PI / 4)) by lra. reflexivity.
Qed.
(** [y] in [-1, 1] and [x] = 1 or [x] = -1: the angle 0 of [y] = 0 and [x] = 1 is not in the bounds. *)
Theorem C79_several_refuted : exists ybs xbs l x y,
  (forall yb xb, In yb ybs -> In xb xbs -> fst yb <= snd yb /\ fst xb <= snd xb /\ (0 < fst xb \/ snd xb < 0)) /\
  handle_angular atan2_on [ybs; xbs] = Some l /\
  (exists yb, In yb ybs /\ fst yb <= y <= snd yb) /\ (exists xb, In xb xbs /\ fst xb <= x <= snd xb) /\ ~ angle_in l (arctan2 y x).
Proof.
  pose proof PI_RGT_0 as P. exists [(-1, 1)], [(1, 1); (-1, -1)], [(3 * PI / 4, PI); (- PI, - (3 * PI / 4))], 1, 0. split; [|split; [|split; [|split]]].
  - intros yb xb [<-|[]] [<-|[<-|[]]]; cbn; lra.
  - unfold handle_angular. cbn [product flat_map map app mapM atan2_on]. rewrite span_right, span_left. cbn [obind]. f_equal.
    rewrite combine_unfold. cbn [normalized flat_map app]. rdec. cbn [app]. unfold sorted. cbn [fold_right]. do 5 (cbn [insert]; unfold key_le; cbn [fst snd]; rdec).
    unfold merged, merge_step, overlap, le, Rmin, Rmax. cbn [fold_left fst snd]. do 3 (rdec; cbn [fold_left fst snd andb]). cbn [rev app].
    unfold merge_wrapped, last_index, format, le, lt. cbn [length Nat.ltb Nat.leb fold_left fst snd last].
    do 8 (rdec; cbn [Nat.eqb Nat.sub Nat.add last firstn fold_left filter fst snd]). reflexivity.
  - exists (-1, 1). split; [left; reflexivity|cbn; lra].
  - exists (1, 1). split; [left; reflexivity|cbn; lra].
  - rewrite at_zp by lra.
    intros (y & i & (k & Ek) & [<-|[<-|[]]] & Hy); cbn in Hy.
    + assert (-1 < k < 0)%Z; [|lia]. split; apply lt_IZR; apply Rmult_lt_reg_l with (2 * PI); lra.
    + assert (0 < k < 1)%Z; [|lia]. split; apply lt_IZR; apply Rmult_lt_reg_l with (2 * PI); lra.
Qed.

Print Assumptions C79_one_atan2_partial.
Print Assumptions C79_one_minus_partial.
Print Assumptions C79_one_minus_refuted.
Print Assumptions C79_several_refuted.

Module Example_one.
  (** A box that crosses the negative axis. *)
  Example ex_atan2 : exists l, handle_angular atan2_on [[(-1, 1)]; [(-2, -1)]] = Some l /\ angle_in l (arctan2 0 (-1)).
  Proof.
    destruct (@C79_one_atan2_partial (-1, 1) (-2, -1)) as (l & E & H); cbn [fst snd]; try lra. exists l. split; [exact E|]. apply H; cbn; lra.
  Qed.
  (** Headings 3 and -3 are 6 apart, which is a small turn the other way. *)
  Example ex_minus : exists l, handle_angular minus_on [[(2, 3)]; [(-3, -2)]] = Some l /\ angle_in l (6 - 2 * PI) /\ ~ angle_in l 0.
  Proof.
    pose proof three_pi as P. destruct (@C79_one_minus_partial (2, 3) (-3, -2)) as (l & E & H); try (unfold proper; cbn; lra).
    exists l. split; [exact E|]. split.
    - apply H. exists 3, (-3). cbn. split; [lra|]. split; [lra|turn (-1)%Z].
    - intros F. apply H in F. destruct F as (a & c & A & C & (k & Ek)). cbn in A, C. assert (-1 < k < 0)%Z; [|lia].
      split; apply lt_IZR; apply Rmult_lt_reg_l with (2 * PI); lra.
  Qed.
End Example_one.
