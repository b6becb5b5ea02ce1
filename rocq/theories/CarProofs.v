(** Proofs for CarProps.v. *)
From Coq Require Import Ascii String Reals Lra.
From Verif Require Import Base BaseFacts PyText Dict ScanProofs LaneMap3d Angle AngleSpec AngleProofs Lane LaneSpec LaneProofs Intersection IntersectionSpec IntersectionProofs TableMap TableMapSpec TableMapProofs Car CarSpec.
Set Implicit Arguments.
Open Scope R_scope.

Lemma clip_range x lo hi : lo <= hi -> lo <= clip x lo hi <= hi.
Proof. intros H. unfold clip. split; [apply Rmin_glb; [apply Rmax_r|exact H]|apply Rmin_r]. Qed.
Lemma clip_id x lo hi : lo <= x <= hi -> clip x lo hi = x.
Proof. intros H. unfold clip. rewrite Rmax_left by lra. apply Rmin_left. lra. Qed.

(** ** The answers of a map with straight lanes *)
Lemma along_local y x1 px py : 0 < x1 -> local (Straight 0 y x1 y 3) px py = (px, py - y).
Proof.
  intros P. cbn [local]. rewrite axis_dir by (right; split; lra). destruct (Rlt_dec 0 (x1 - 0)); [|lra]. unfold dir. cbn [fst snd].
  replace (y - y) with 0 by ring. assert (Q : 0 < x1 - 0) by lra. destruct (norm_axis Q) as (N & _). rewrite N. f_equal; field; lra.
Qed.
Lemma along_length y x1 : 0 < x1 -> length_of (Straight 0 y x1 y 3) = x1.
Proof. intros P. cbn [length_of]. replace (y - y) with 0 by ring. assert (Q : 0 < x1 - 0) by lra. destruct (norm_axis Q) as (N & _). rewrite N. ring. Qed.
Lemma along_found y x1 px py : 0 < x1 ->
  get_lane_segment (along_x y x1) px py = if is_on (Straight 0 0 x1 0 3) px 0 then Some (0%nat, Straight 0 y x1 y 3) else None.
Proof.
  intros P. unfold get_lane_segment, along_x. cbn [find_segment]. unfold is_on. rewrite !along_local, !along_length by exact P. cbn [fst].
  destruct (Rle_dec (0 - COMPENSATE) px); [destruct (Rlt_dec px x1)|]; reflexivity.
Qed.
Lemma along_lateral y x1 px py : 0 < x1 -> get_lateral (along_x y x1) px py = if is_on (Straight 0 0 x1 0 3) px 0 then Some (py - y) else None.
Proof. intros P. unfold get_lateral. rewrite along_found by exact P. destruct (is_on _ _ _); [|reflexivity]. rewrite along_local by exact P. reflexivity. Qed.
Lemma along_heading y x1 px py : 0 < x1 -> get_heading (along_x y x1) px py = if is_on (Straight 0 0 x1 0 3) px 0 then Some (arctan2 0 (x1 - 0)) else None.
Proof. intros P. unfold get_heading. rewrite along_found by exact P. destruct (is_on _ _ _); [|reflexivity]. cbn [heading_at]. replace (y - y) with 0 by ring. reflexivity. Qed.

(** A mode on one lane acts like normal driving on another. *)
Lemma shifted speed accel double lanes mode name name' y y' x1 k : 0 < x1 ->
  lane_of lanes name = Some (along_x y x1) -> lane_of lanes name' = Some (along_x y' x1) ->
  (forall d v, wish speed accel double mode 3 d v = Some (d + k, 0)) -> y' = y + k ->
  forall state, car_action speed accel double lanes [mode; name] state = car_action speed accel double lanes [w "Normal"; name'] state.
Proof.
  intros P L L' W -> state. unfold car_action. destruct state as [|x [|yy [|th [|v [|z zs]]]]]; try reflexivity.
  rewrite L, L'. cbn [obind lane_width along_x seg_width]. fold (along_x y x1). fold (along_x (y + k) x1). rewrite !along_lateral, !along_heading by exact P.
  destruct (is_on _ x 0); [|reflexivity]. cbn [obind]. rewrite W. change (wish speed accel double (w "Normal") 3 (- (yy - (y + k))) v) with (Some (- (yy - (y + k)), 0)).
  cbn [obind fst snd]. replace (- (yy - y) + k) with (- (yy - (y + k))) by ring. reflexivity.
Qed.

(** ** Bends *)
Lemma bend_same y r x y' r' x' px py i s s' : 0 < r' -> y' = y + 3 -> r = r' + 3 -> x = x' + 3 ->
  get_lane_segment (bend y r x) px py = Some (i, s) -> get_lane_segment (bend y' r' x') px py = Some (i, s') ->
  snd (local s' px py) = snd (local s px py) - 3 /\ heading_at s' (fst (local s' px py)) = heading_at s (fst (local s px py)).
Proof.
  intros P -> -> -> F F'.
  assert (N : forall l j t, get_lane_segment l px py = Some (j, t) -> nth_error l j = Some t).
  { intros l j t. unfold get_lane_segment.
    assert (G : forall segs n acc, (forall j s m, acc = Some (j, s, m) -> (j < n)%nat) -> forall j t m, find_segment segs n acc px py = Some (j, t, m) ->
      (exists m', acc = Some (j, t, m')) \/ (n <= j)%nat /\ nth_error segs (j - n) = Some t).
    { induction segs as [|s0 segs IH]; intros n acc A j0 t0 m0 H; [left; exists m0; exact H|]. cbn [find_segment] in H.
      match type of H with find_segment segs (S n) ?acc' px py = _ => assert (C : acc' = acc \/ exists mm, acc' = Some (n, s0, mm)) end.
      { destruct (is_on s0 px py); [|auto]. destruct acc as [[[? ?] ?]|]; [destruct (Rlt_dec _ _)|]; eauto. }
      apply IH in H.
      - destruct H as [(m' & H)|[H1 H2]].
        + destruct C as [C|(mm & C)].
          * rewrite C in H. left. exists m'. exact H.
          * rewrite C in H. injection H as <- <- <-. right. split; [lia|]. rewrite Nat.sub_diag. reflexivity.
        + right. split; [lia|]. replace (j0 - n)%nat with (S (j0 - S n)) by lia. exact H2.
      - intros j1 s1 m1 E. destruct C as [C|(mm & C)]; rewrite C in E; [specialize (A _ _ _ E); lia|]. injection E as <- _ _. lia. }
    destruct (find_segment l 0 None px py) as [[[j0 t0] m0]|] eqn:E; [|discriminate]. cbn. intros H. injection H as <- <-.
    apply G in E; [|discriminate]. destruct E as [(m' & E)|[_ E]]; [discriminate|]. rewrite Nat.sub_0_r in E. exact E. }
  apply N in F, F'. unfold bend in F, F'. destruct i as [|[|[|i]]].
  - injection F as <-. injection F' as <-. cbn [local]. rewrite !axis_dir by (right; split; lra).
    destruct (Rlt_dec 0 (225 / 10 - 0)); [|lra]. cbn [fst snd heading_at]. split; [ring|]. f_equal; ring.
  - injection F as <-. injection F' as <-. cbn [local fst snd heading_at turn]. split; [ring|]. f_equal. field. lra.
  - injection F as <-. injection F' as <-. cbn [local]. rewrite !axis_dir by (left; split; lra).
    destruct (Rlt_dec 0 (x' - x')); [lra|]. destruct (Rlt_dec 0 (x' + 3 - (x' + 3))); [lra|]. cbn [fst snd heading_at]. split; [ring|]. f_equal; ring.
  - destruct i; discriminate.
Qed.

(** ** Traces *)
Lemma up_ceil x : IZR (ceil x) - 1 < x <= IZR (ceil x).
Proof. unfold ceil. rewrite minus_IZR. destruct (archimed (- x)) as [A B]. lra. Qed.

Section Rows.
  Variables (act : list R -> option (R * R)) (integrate : list R -> R * R -> R -> list R) (dt : R).
  Notation rows := (rows act integrate dt).
  Lemma rows_spec n : forall i init r, rows n i init = Some r ->
    length r = n /\ forall k t st, nth_error r k = Some (t, st) ->
      t = dt * INR (i + S k) /\
      exists st0 u, (match k with O => Some init | S k' => option_map snd (nth_error r k') end) = Some st0 /\ act st0 = Some u /\ no_reverse (integrate st0 u dt) = Some st.
  Proof.
    induction n as [|n IH]; intros i init r H; cbn [Car.rows] in H.
    - injection H as <-. split; [reflexivity|]. intros [|k]; discriminate.
    - destruct (act init) as [u|] eqn:A; [|discriminate]. cbn [obind] in H. destruct (no_reverse (integrate init u dt)) as [st|] eqn:N; [|discriminate]. cbn [obind] in H.
      destruct (rows n (S i) st) as [rest|] eqn:E; [|discriminate]. cbn [obind] in H. injection H as <-. apply IH in E. destruct E as [L E]. split; [cbn; congruence|].
      intros [|k] t st' H.
      + cbn in H. injection H as <- <-. split; [rewrite Nat.add_1_r, S_INR; ring|]. exists init, u. auto.
      + cbn [nth_error] in H. destruct (E k t st' H) as (T & st0 & u' & P & Q & S'). split; [rewrite T; do 2 f_equal; lia|]. exists st0, u'.
        split; [|auto]. destruct k as [|k]; exact P.
  Qed.
End Rows.
