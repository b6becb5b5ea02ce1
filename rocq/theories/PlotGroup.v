(** Grouped boxes in a tube. *)
From Coq Require Import Ascii String Lqa.
From Verif Require Import Base BaseFacts Dict PyText Guard Tree TreeSpec TreeProofs TreeProps ResetProofs Plot PlotSpec PlotGeom PlotProofs PlotMain PlotBand.
Set Implicit Arguments.
Open Scope nat_scope.

Lemma mapM_proj {A B C D} (f : A -> option B) (h : A -> C) (g : C -> option D) (pi : B -> D) l bs :
  mapM f l = Some bs -> (forall a b, In a l -> f a = Some b -> g (h a) = Some (pi b)) -> mapM g (map h l) = Some (map pi bs).
Proof.
  revert bs. induction l as [|a l IH]; cbn; intros bs H P; [injection H as <-; reflexivity|].
  destruct (f a) as [b|] eqn:E; [|discriminate]. cbn in H. destruct (mapM f l) as [r|]; [|discriminate]. cbn in H. injection H as <-. rewrite (P a b (or_introl eq_refl) E). cbn. rewrite (IH r eq_refl); [reflexivity|]. intros a' b' I. apply P. auto.
Qed.
Lemma nth_error_rev {A} (l : list A) i : i < length l -> nth_error (rev l) i = nth_error l (length l - S i).
Proof.
  intros H. destruct (nth_error (rev l) i) as [a|] eqn:E; [symmetry; apply nth_rev; exact E|]. apply nth_error_None in E. rewrite rev_length in E. lia.
Qed.
Lemma back_ok (l : list Q) i : 0 < i -> i <= length l -> back l i = nth_error l (length l - i).
Proof. intros A B. unfold back. rewrite nth_error_rev by lia. f_equal. lia. Qed.
Lemma zip_app xs ys us vs : length xs = length ys -> zip (xs ++ us) (ys ++ vs) = zip xs ys ++ zip us vs.
Proof. revert ys. induction xs as [|x xs IH]; intros [|y ys] H; try discriminate; [reflexivity|]. cbn. rewrite IH by (cbn in H; lia). reflexivity. Qed.
Lemma zip_map {A} (f g : A -> Q) l : zip (map f l) (map g l) = map (fun a => (f a, g a)) l.
Proof. induction l as [|a l IH]; [reflexivity|]. cbn. rewrite IH. reflexivity. Qed.

Lemma band_zip (bs : list box) ex ey sx sy b0 :
  zip (map (fun b => fst (fst b)) bs ++ [ex] ++ rev (map (fun b => fst (snd b)) bs) ++ [sx] ++ [fst (fst b0)])
      (map (fun b => snd (fst b)) bs ++ [ey] ++ rev (map (fun b => snd (snd b)) bs) ++ [sy] ++ [snd (fst b0)])
  = band bs (ex, ey) (sx, sy) b0.
Proof.
  unfold band. rewrite <- !map_rev. repeat rewrite zip_app by (rewrite ?map_length; reflexivity). rewrite !zip_map.
  assert (E : forall l : list box, map (fun a => (fst (fst a), snd (fst a))) l = map fst l) by (intros l; apply map_ext; intros [[? ?] ?]; reflexivity).
  assert (E' : forall l : list box, map (fun a => (fst (snd a), snd (snd a))) l = map snd l) by (intros l; apply map_ext; intros [? [? ?]]; reflexivity).
  rewrite E, E'. cbn [zip]. rewrite <- surjective_pairing. reflexivity.
Qed.

Lemma Qle_bool_true u v : (u < v)%Q -> Qle_bool u v = true.
Proof. intros H. apply Qle_bool_iff. lra. Qed.
Lemma Qle_bool_false u v : (v < u)%Q -> Qle_bool u v = false.
Proof. intros H. destruct (Qle_bool u v) eqn:E; [|reflexivity]. apply Qle_bool_iff in E. lra. Qed.

Section Combined.
  Variables (bs : list box) (line fill : word).
  Hypothesis Two : 2 <= length bs.
  Let xo := map (fun b : box => fst (fst b)) bs. Let xe := map (fun b : box => fst (snd b)) bs.
  Let yo := map (fun b : box => snd (fst b)) bs. Let ye := map (fun b : box => snd (snd b)) bs.

  Lemma four_boxes : exists b0 b1 bm bn, nth_error bs 0 = Some b0 /\ nth_error bs 1 = Some b1 /\ nth_error bs (length bs - 2) = Some bm /\ nth_error bs (length bs - 1) = Some bn.
  Proof.
    destruct (nth_error bs 0) as [b0|] eqn:E0; [|apply nth_error_None in E0; lia]. destruct (nth_error bs 1) as [b1|] eqn:E1; [|apply nth_error_None in E1; lia].
    destruct (nth_error bs (length bs - 2)) as [bm|] eqn:Em; [|apply nth_error_None in Em; lia]. destruct (nth_error bs (length bs - 1)) as [bn|] eqn:En; [|apply nth_error_None in En; lia]. exists b0, b1, bm, bn. auto.
  Qed.
  Lemma back_map (f : box -> Q) i b : 0 < i -> i <= 2 -> nth_error bs (length bs - i) = Some b -> back (map f bs) i = Some (f b).
  Proof. intros A B E. rewrite back_ok by (rewrite ?map_length; lia). rewrite map_length, nth_error_map, E. reflexivity. Qed.
  Lemma front_map (f : box -> Q) i b : nth_error bs i = Some b -> nth_error (map f bs) i = Some (f b).
  Proof. intros E. rewrite nth_error_map, E. reflexivity. Qed.

  Lemma combined_right_down : right_down bs -> exists b0 bn, nth_error bs 0 = Some b0 /\ nth_error bs (length bs - 1) = Some bn /\
    combined line fill xo xe yo ye = Some (Filled (band bs (lr bn) (ul b0) b0) line fill).
  Proof.
    intros M. destruct four_boxes as (b0 & b1 & bm & bn & E0 & E1 & Em & En). exists b0, bn. split; [exact E0|]. split; [exact En|].
    destruct (M 0 1 b0 b1 ltac:(lia) E0 E1) as (S1 & S2 & S3 & S4). destruct (M (length bs - 2) (length bs - 1) bm bn ltac:(lia) Em En) as (T1 & T2 & T3 & T4).
    unfold combined, ends_of, x_end_of, starts_of, x_start_of, grows, first_ge, first_le, xo, xe, yo, ye.
    rewrite !(@back_map _ 1 bn ltac:(lia) ltac:(lia) En), !(@back_map _ 2 bm ltac:(lia) ltac:(lia) Em), !(@front_map _ 0 b0 E0), !(@front_map _ 1 b1 E1). cbn [obind].
    rewrite (Qle_bool_true T1), (Qle_bool_true T2), (Qle_bool_false T3), (Qle_bool_false T4), (Qle_bool_false S1), (Qle_bool_true S3), (Qle_bool_true S4). cbn [andb obind fst snd]. rewrite band_zip. reflexivity.
  Qed.
  Lemma combined_left_up : left_up bs -> exists b0 bn, nth_error bs 0 = Some b0 /\ nth_error bs (length bs - 1) = Some bn /\
    combined line fill xo xe yo ye = Some (Filled (band bs (ul bn) (lr b0) b0) line fill).
  Proof.
    intros M. destruct four_boxes as (b0 & b1 & bm & bn & E0 & E1 & Em & En). exists b0, bn. split; [exact E0|]. split; [exact En|].
    destruct (M 0 1 b0 b1 ltac:(lia) E0 E1) as (S1 & S2 & S3 & S4). destruct (M (length bs - 2) (length bs - 1) bm bn ltac:(lia) Em En) as (T1 & T2 & T3 & T4).
    unfold combined, ends_of, x_end_of, starts_of, x_start_of, grows, first_ge, first_le, xo, xe, yo, ye.
    rewrite !(@back_map _ 1 bn ltac:(lia) ltac:(lia) En), !(@back_map _ 2 bm ltac:(lia) ltac:(lia) Em), !(@front_map _ 0 b0 E0), !(@front_map _ 1 b1 E1). cbn [obind].
    rewrite (Qle_bool_false T1), (Qle_bool_true T3), (Qle_bool_true T4), (Qle_bool_true S1), (Qle_bool_true S2), (Qle_bool_false S3), (Qle_bool_true S3), (Qle_bool_true S4), (Qle_bool_false S1). cbn [andb obind fst snd]. rewrite band_zip. reflexivity.
  Qed.
End Combined.

Section Group.
  Variables (x_dim y_dim : nat) (line fill : word).

  (** The boxes of a group, projected. *)
  Lemma boxes_of seg m : Forall (has_dims x_dim y_dim) seg -> length seg = 2 * m -> exists bs : list box, length bs = m /\
    (forall j b, nth_error bs j = Some b -> exists lo hi, box_at seg j lo hi /\ nth_error lo x_dim = Some (fst (fst b)) /\ nth_error hi x_dim = Some (fst (snd b)) /\ nth_error lo y_dim = Some (snd (fst b)) /\ nth_error hi y_dim = Some (snd (snd b))) /\
    column seg x_dim (range_by 0 (2 * m) 2) = Some (map (fun b => fst (fst b)) bs) /\ column seg x_dim (range_by 1 (2 * m + 1) 2) = Some (map (fun b => fst (snd b)) bs) /\
    column seg y_dim (range_by 0 (2 * m) 2) = Some (map (fun b => snd (fst b)) bs) /\ column seg y_dim (range_by 1 (2 * m + 1) 2) = Some (map (fun b => snd (snd b)) bs).
  Proof.
    intros F L. set (f := fun j => do x0 <- cell seg (0 + j * 2) x_dim; do y0 <- cell seg (0 + j * 2) y_dim; do x1 <- cell seg (1 + j * 2) x_dim; do y1 <- cell seg (1 + j * 2) y_dim; Some (((x0, y0), (x1, y1)) : box)).
    destruct (@mapM_ok _ _ f (seq 0 m)) as [bs E].
    { intros j Hj. apply in_seq in Hj. unfold f. destruct (@cell_ok x_dim y_dim seg (0 + j * 2) F) as (r & x & y & _ & _ & _ & -> & ->); [lia|]. destruct (@cell_ok x_dim y_dim seg (1 + j * 2) F) as (r' & x' & y' & _ & _ & _ & -> & ->); [lia|]. discriminate. }
    assert (Fv : forall j b, f j = Some b -> cell seg (0 + j * 2) x_dim = Some (fst (fst b)) /\ cell seg (0 + j * 2) y_dim = Some (snd (fst b)) /\ cell seg (1 + j * 2) x_dim = Some (fst (snd b)) /\ cell seg (1 + j * 2) y_dim = Some (snd (snd b))).
    { intros j b. unfold f. destruct (cell seg (0 + j * 2) x_dim); [|discriminate]. destruct (cell seg (0 + j * 2) y_dim); [|discriminate]. destruct (cell seg (1 + j * 2) x_dim); [|discriminate]. destruct (cell seg (1 + j * 2) y_dim); [|discriminate]. cbn. intros [= <-]. cbn. auto. }
    exists bs. assert (Lb : length bs = m) by (apply mapM_length in E; rewrite seq_length in E; exact E). split; [exact Lb|]. split.
    - intros j b Hj. assert (j < m) by (rewrite <- Lb; apply nth_error_Some; congruence).
      assert (S : nth_error (seq 0 m) j = Some j) by (rewrite nth_error_nth' with (d := 0) by (rewrite seq_length; lia); rewrite seq_nth by lia; reflexivity).
      destruct (mapM_nth _ _ _ E S) as (b' & B & Ef). rewrite Hj in B. injection B as <-. destruct (Fv j b Ef) as (A1 & A2 & A3 & A4). unfold cell in *.
      destruct (nth_error seg (0 + j * 2)) as [lo|] eqn:El; [|discriminate]. destruct (nth_error seg (1 + j * 2)) as [hi|] eqn:Eh; [|discriminate]. cbn [obind] in *.
      exists lo, hi. split; [|auto]. split; [replace (2 * j) with (0 + j * 2) by lia; exact El|replace (2 * j + 1) with (1 + j * 2) by lia; exact Eh].
    - assert (R0 : range_by 0 (2 * m) 2 = map (fun i => 0 + i * 2) (seq 0 m)). { unfold range_by. f_equal. f_equal. replace (2 * m - 0 + (2 - 1)) with (1 + m * 2) by lia. rewrite Nat.div_add by lia. reflexivity. }
      assert (R1 : range_by 1 (2 * m + 1) 2 = map (fun i => 1 + i * 2) (seq 0 m)). { unfold range_by. f_equal. f_equal. replace (2 * m + 1 - 1 + (2 - 1)) with (1 + m * 2) by lia. rewrite Nat.div_add by lia. reflexivity. }
      rewrite R0, R1. unfold column. repeat split; (eapply mapM_proj; [exact E|]; intros j b _ Ef; apply (Fv j b Ef)).
  Qed.

  Lemma group_covers seg m : Forall (has_dims x_dim y_dim) seg -> length seg = 2 * m -> 0 < m -> falling seg x_dim y_dim ->
    (forall j lo hi x0 x1 y0 y1, box_at seg j lo hi -> nth_error lo x_dim = Some x0 -> nth_error hi x_dim = Some x1 -> nth_error lo y_dim = Some y0 -> nth_error hi y_dim = Some y1 -> (x0 <= x1 /\ y0 <= y1)%Q) ->
    exists path, group x_dim y_dim line fill seg = Some (Filled path line fill) /\
      forall j lo hi p, box_at seg j lo hi -> inside x_dim y_dim lo hi p -> filled path p.
  Proof.
    intros F L Hm Fa Or. unfold group. destruct (Nat.leb_spec (length seg) 2) as [H|H].
    - destruct (@rectangle_ok x_dim y_dim line fill seg 0 F) as (lo & hi & x0 & x1 & y0 & y1 & Rl & Rh & X0 & X1 & Y0 & Y1 & ->); [lia|]. eexists. split; [reflexivity|].
      intros j lo' hi' p B (x0' & x1' & y0' & y1' & X0' & X1' & Y0' & Y1' & In_). pose proof B as [B1 B2]. assert (2 * j + 1 < length seg) by (apply nth_error_Some; congruence). assert (j = 0) as -> by lia. change (2 * 0) with 0 in B1. change (2 * 0 + 1) with (0 + 1) in B2.
      rewrite Rl in B1. rewrite Rh in B2. injection B1 as <-. injection B2 as <-. destruct (Or 0 lo hi _ _ _ _ B X0 X1 Y0 Y1) as [Ox Oy]. apply (filled_rectangle p Ox Oy). rewrite X0 in X0'. rewrite X1 in X1'. rewrite Y0 in Y0'. rewrite Y1 in Y1'. congruence.
    - destruct (@boxes_of seg m F L) as (bs & Lb & Bs & C1 & C2 & C3 & C4). rewrite L. rewrite C1, C2, C3, C4. cbn [obind].
      assert (Ex : exists b0 bn path, nth_error bs 0 = Some b0 /\ nth_error bs (length bs - 1) = Some bn /\
        combined line fill (map (fun b => fst (fst b)) bs) (map (fun b => fst (snd b)) bs) (map (fun b => snd (fst b)) bs) (map (fun b => snd (snd b)) bs) = Some (Filled path line fill) /\
        forall j b p, nth_error bs j = Some b -> in_box b p -> filled path p).
      { destruct Fa as [Fa|Fa].
        - assert (M : right_down bs). { intros i j b c Hij Eb Ec. destruct (Bs i b Eb) as (lo & hi & B & A1 & A2 & A3 & A4). destruct (Bs j c Ec) as (lo' & hi' & B' & A1' & A2' & A3' & A4'). exact (Fa i j _ _ _ _ _ _ _ _ _ _ _ _ Hij B B' A1 A2 A3 A4 A1' A2' A3' A4'). }
          destruct (@combined_right_down bs line fill ltac:(lia) M) as (b0 & bn & E0 & En & E). exists b0, bn. eexists. split; [exact E0|]. split; [exact En|]. split; [exact E|]. intros j b p. apply band_right_down; assumption.
        - assert (M : left_up bs). { intros i j b c Hij Eb Ec. destruct (Bs i b Eb) as (lo & hi & B & A1 & A2 & A3 & A4). destruct (Bs j c Ec) as (lo' & hi' & B' & A1' & A2' & A3' & A4'). exact (Fa i j _ _ _ _ _ _ _ _ _ _ _ _ Hij B B' A1 A2 A3 A4 A1' A2' A3' A4'). }
          destruct (@combined_left_up bs line fill ltac:(lia) M) as (b0 & bn & E0 & En & E). exists b0, bn. eexists. split; [exact E0|]. split; [exact En|]. split; [exact E|]. intros j b p. apply band_left_up; assumption. }
      destruct Ex as (b0 & bn & path & _ & _ & -> & Cov). exists path. split; [reflexivity|]. intros j lo hi p B (x0 & x1 & y0 & y1 & X0 & X1 & Y0 & Y1 & In_).
      assert (Hj : j < length bs) by (destruct B as [_ B2]; assert (2 * j + 1 < length seg) by (apply nth_error_Some; congruence); lia).
      destruct (nth_error bs j) as [b|] eqn:Eb; [|apply nth_error_None in Eb; lia]. apply (Cov j b p Eb). destruct (Bs j b Eb) as (lo' & hi' & [B1 B2] & A1 & A2 & A3 & A4). destruct B as [B3 B4]. rewrite B3 in B1. rewrite B4 in B2. injection B1 as <-. injection B2 as <-.
      rewrite X0 in A1. rewrite X1 in A2. rewrite Y0 in A3. rewrite Y1 in A4. injection A1 as ->. injection A2 as ->. injection A3 as ->. injection A4 as ->. exact In_.
  Qed.

  Lemma nth_seg {A} (l : list A) i n j a : nth_error (firstn n (skipn i l)) j = Some a -> nth_error l (i + j) = Some a.
  Proof.
    revert l n j. induction i as [|i IH]; intros l n j H.
    - cbn [skipn] in H. cbn [Nat.add]. revert l n H. induction j as [|j IHj]; intros [|x l] [|n] H; try discriminate; [exact H|]. cbn in *. eapply IHj. exact H.
    - destruct l as [|x l]; [cbn in H; destruct n; destruct j; discriminate|]. cbn [skipn] in H. cbn [Nat.add nth_error]. eapply IH. exact H.
  Qed.
  Lemma nth_seg_r {A} (l : list A) i n j : j < n -> nth_error (firstn n (skipn i l)) j = nth_error l (i + j).
  Proof.
    revert l n j. induction i as [|i IH]; intros l n j H.
    - cbn [skipn]. cbn [Nat.add]. revert l n H. induction j as [|j IHj]; intros [|x l] [|n] H; try lia; try reflexivity. cbn. apply IHj. lia.
    - destruct l as [|x l]; [cbn [skipn]; rewrite firstn_nil; destruct j; reflexivity|]. cbn [skipn Nat.add nth_error]. apply IH. exact H.
  Qed.

  Lemma grouped k tr m : 2 <= k -> Forall (has_dims x_dim y_dim) tr -> length tr = 2 * m -> falling tr x_dim y_dim -> still x_dim y_dim tr <> Some true ->
    (forall j lo hi x0 x1 y0 y1, box_at tr j lo hi -> nth_error lo x_dim = Some x0 -> nth_error hi x_dim = Some x1 -> nth_error lo y_dim = Some y0 -> nth_error hi y_dim = Some y1 -> (x0 <= x1 /\ y0 <= y1)%Q) ->
    exists l, tube_shapes x_dim y_dim line fill (Some k) tr = Some l /\
      forall j lo hi p, box_at tr j lo hi -> inside x_dim y_dim lo hi p -> exists path, In (Filled path line fill) l /\ filled path p.
  Proof.
    intros Hk F L Fa St Or. unfold tube_shapes. destruct (@still_ok x_dim y_dim tr F) as [[|] Es]; [congruence|]. rewrite Es. cbn [obind]. rewrite (proj2 (Nat.leb_gt k 1)) by lia.
    assert (Sg : forall g, g * (k * 2) < length tr -> exists mm, let seg := firstn (k * 2) (skipn (g * (k * 2)) tr) in Forall (has_dims x_dim y_dim) seg /\ length seg = 2 * mm /\ 0 < mm /\ falling seg x_dim y_dim /\
      (forall j lo hi x0 x1 y0 y1, box_at seg j lo hi -> nth_error lo x_dim = Some x0 -> nth_error hi x_dim = Some x1 -> nth_error lo y_dim = Some y0 -> nth_error hi y_dim = Some y1 -> (x0 <= x1 /\ y0 <= y1)%Q)).
    { intros g Hg. exists (Nat.min k (m - g * k)). cbn zeta.
      assert (Bt : forall j lo hi, box_at (firstn (k * 2) (skipn (g * (k * 2)) tr)) j lo hi -> box_at tr (g * k + j) lo hi).
      { intros j lo hi [B1 B2]. apply nth_seg in B1. apply nth_seg in B2. split; [replace (2 * (g * k + j)) with (g * (k * 2) + 2 * j) by lia; exact B1|replace (2 * (g * k + j) + 1) with (g * (k * 2) + (2 * j + 1)) by lia; exact B2]. }
      split; [|split; [|split; [|split]]].
      - apply Forall_forall. intros r Hr. rewrite Forall_forall in F. apply F. apply In_nth_error in Hr. destruct Hr as [j Hr]. apply nth_seg in Hr. eapply nth_error_In; exact Hr.
      - rewrite firstn_length, skipn_length. lia.
      - nia.
      - destruct Fa as [Fa|Fa]; [left|right]; intros i j lo hi lo' hi' x0 x1 y0 y1 x0' x1' y0' y1' Hij B B'; apply (Fa (g * k + i) (g * k + j) lo hi lo' hi'); [lia|apply Bt; exact B|apply Bt; exact B'|lia|apply Bt; exact B|apply Bt; exact B'].
      - intros j lo hi x0 x1 y0 y1 B. apply (Or (g * k + j)). apply Bt. exact B. }
    destruct (@mapM_ok _ _ (fun i => group x_dim y_dim line fill (firstn (k * 2) (skipn i tr))) (range_by 0 (length tr) (k * 2))) as [l E].
    { intros i Hi. apply range_by_In in Hi; [|lia]. destruct Hi as (g & -> & Hg). cbn [Nat.add] in *. destruct (Sg g Hg) as (mm & S1 & S2 & S3 & S4 & S5). destruct (@group_covers _ mm S1 S2 S3 S4 S5) as (path & -> & _). discriminate. }
    exists l. split; [exact E|]. intros j lo hi p B In_. assert (Hj : 2 * j + 1 < length tr) by (destruct B as [_ B2]; apply nth_error_Some; congruence).
    assert (Hg : j / k * (k * 2) < length tr) by (assert (k * (j / k) <= j) by (apply Nat.mul_div_le; lia); nia). destruct (Sg (j / k) Hg) as (mm & S1 & S2 & S3 & S4 & S5).
    destruct (@group_covers _ mm S1 S2 S3 S4 S5) as (path & Eg & Cov). exists path. split.
    - apply (mapM_In _ _ E). exists (j / k * (k * 2)). split; [|exact Eg]. apply range_by_In; [lia|]. exists (j / k). split; [lia|exact Hg].
    - apply (Cov (j mod k) lo hi p); [|exact In_]. assert (Dm : j = k * (j / k) + j mod k) by (apply Nat.div_mod; lia). assert (Lm : j mod k < k) by (apply Nat.mod_upper_bound; lia). destruct B as [B1 B2]. split; rewrite nth_seg_r by lia.
      + rewrite <- B1. f_equal. nia.
      + rewrite <- B2. f_equal. nia.
  Qed.
End Group.
