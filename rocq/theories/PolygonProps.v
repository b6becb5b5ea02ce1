(** Properties C03, C04 and C67: polygons and rectangles.

    [hull] is the convex hull of a list of points and [in_rect] the points of a turned rectangle (PolygonSpec.v). *)
From Coq Require Import Reals Lra Psatz List Bool.
From Verif Require Import Angle AngleProofs Polygon PolygonSpec PolygonProofs.
Import ListNotations.
Open Scope R_scope.

(** C03: "not intersecting" means that the hulls share no point; "will not intersect" that they share none at any time
    while the polygons move by their displacements. *)
Theorem C03_separation_sound : forall a b da db i w,
  are_polygons_intersecting a b da db = Some (i, w) ->
  (i = false -> forall p, ~ (hull a p /\ hull b p)) /\
  (w = false -> forall p q t, 0 <= t <= 1 -> hull a p -> hull b q ->
     (fst p + t * fst da, snd p + t * snd da) <> (fst q + t * fst db, snd q + t * snd db)).
Proof.
  intros a b da db i w H. destruct (sat_good _ _ _ _ _ H) as [A B]. cbn [fst snd] in *. split.
  - intros Hi p [Pa Pb]. apply (A Hi p p Pa Pb). destruct p. cbn. f_equal; ring.
  - intros Hw p q t Ht Pa Pb E. apply (B Hw t Ht p q Pa Pb). destruct p, q. cbn in *. injection E as E1 E2. f_equal; lra.
Qed.
(** Two unit squares, the first moving towards the second: apart now, but not during the move. *)
Definition square (x : R) : list pt := [(x, 0); (x + 1, 0); (x + 1, 1); (x, 1); (x, 0)].
Lemma unit_h a : a = 1 \/ a = -1 -> norm 0 a = 1.
Proof. intros [->| ->]; unfold norm; [replace (0 * 0 + 1 * 1) with 1 by ring|replace (0 * 0 + -1 * -1) with 1 by ring]; apply sqrt_1. Qed.
Lemma unit_v a : a = 1 \/ a = -1 -> norm a 0 = 1.
Proof. intros [->| ->]; unfold norm; [replace (1 * 1 + 0 * 0) with 1 by ring|replace (-1 * -1 + 0 * 0) with 1 by ring]; apply sqrt_1. Qed.
Ltac ifs := repeat match goal with |- context [if Rlt_dec ?a ?b then _ else _] =>
  lazymatch a with context [Rlt_dec] => fail | _ => lazymatch b with context [Rlt_dec] => fail | _ =>
    destruct (Rlt_dec a b); try (exfalso; lra) end end end.
Lemma project_square x : project_polygon (square x) (-1 / 1, 0 / 1) = Some (- (x + 1), - x).
Proof. unfold project_polygon, square. cbn [fold_left project_step]. unfold dotp. cbn [fst snd]. ifs. f_equal. f_equal; lra. Qed.
Example separation_case : exists w, are_polygons_intersecting (square 0) (square 3) (1, 0) (0, 0) = Some (false, w).
Proof.
  assert (E : exists i w, are_polygons_intersecting (square 0) (square 3) (1, 0) (0, 0) = Some (i, w)).
  { assert (N : forall x ax, exists m, project_polygon (square x) ax = Some m).
    { intros. unfold project_polygon, square. cbn [fold_left project_step]. eexists. reflexivity. }
    assert (S : forall fl e, exists fl', edge_step (square 0) (square 3) (1, 0) (0, 0) fl e = Some fl').
    { intros fl [p1 p2]. cbn [edge_step]. destruct (Req_EM_T _ 0); [eexists; reflexivity|]. destruct (N 0 ((- snd p2 + snd p1) / norm (- snd p2 + snd p1) (fst p2 - fst p1), (fst p2 - fst p1) / norm (- snd p2 + snd p1) (fst p2 - fst p1))) as [[m0 m1] ->].
      destruct (N 3 ((- snd p2 + snd p1) / norm (- snd p2 + snd p1) (fst p2 - fst p1), (fst p2 - fst p1) / norm (- snd p2 + snd p1) (fst p2 - fst p1))) as [[m2 m3] ->]. eexists. reflexivity. }
    assert (L : forall es fl, exists fl', edge_loop (square 0) (square 3) (1, 0) (0, 0) es fl = Some fl').
    { induction es as [|e r IH]; intros fl; cbn [edge_loop]; [eexists; reflexivity|]. destruct (S fl e) as [fl' ->]. destruct (_ && _); [eexists; reflexivity|apply IH]. }
    unfold are_polygons_intersecting. destruct (L (edges (square 0)) (true, true)) as [fl ->]. destruct (L (edges (square 3)) fl) as [[i w] ->]. eauto. }
  destruct E as (i & w & E). exists w. rewrite E. f_equal. f_equal. destruct i; [exfalso|reflexivity].
  (* the right edge separates the squares *)
  revert E. unfold are_polygons_intersecting.
  assert (K : forall es fl, fst fl = false -> forall fl', edge_loop (square 0) (square 3) (1, 0) (0, 0) es fl = Some fl' -> fst fl' = false).
  { assert (S : forall e fl fl', fst fl = false -> edge_step (square 0) (square 3) (1, 0) (0, 0) fl e = Some fl' -> fst fl' = false).
    { intros [p1 p2] fl fl' Hf. cbn [edge_step]. destruct (Req_EM_T _ 0); [congruence|]. destruct (project_polygon _ _) as [[? ?]|]; [|discriminate]. destruct (project_polygon _ _) as [[? ?]|]; [|discriminate].
      intros H. injection H as <-. cbn [fst]. destruct (Rlt_dec _ _); auto. }
    induction es as [|e r IH]; intros fl Hf fl' H; cbn [edge_loop] in H; [congruence|]. destruct (edge_step _ _ _ _ fl e) as [fl1|] eqn:E1; [|discriminate].
    pose proof (S _ _ _ Hf E1). destruct (_ && _); [congruence|exact (IH _ H0 _ H)]. }
  assert (T : forall fl fl', edge_step (square 0) (square 3) (1, 0) (0, 0) fl ((0 + 1, 0), (0 + 1, 1)) = Some fl' -> fst fl' = false).
  { intros fl fl'. cbn [edge_step fst snd]. replace (- (1) + 0) with (-1) by ring. replace (0 + 1 - (0 + 1)) with 0 by ring. rewrite (unit_v (-1)) by auto.
    destruct (Req_EM_T 1 0); [lra|]. rewrite !project_square. intros H. injection H as <-. cbn [fst].
    match goal with |- (if Rlt_dec 0 ?d then _ else _) = _ => destruct (Rlt_dec 0 d) as [D|D]; [reflexivity|exfalso; apply D] end.
    unfold interval_distance. repeat destruct (Rlt_dec _ _); lra. }
  assert (Q : forall es fl fl', In ((0 + 1, 0), (0 + 1, 1)) es -> edge_loop (square 0) (square 3) (1, 0) (0, 0) es fl = Some fl' -> fst fl' = false).
  { induction es as [|e r IH]; intros fl fl' Hin H; [destruct Hin|]. cbn [edge_loop] in H.
    destruct (edge_step _ _ _ _ fl e) as [fl1|] eqn:E1; [|discriminate]. destruct (negb (fst fl1) && negb (snd fl1)) eqn:B1.
    - apply andb_true_iff in B1. destruct B1 as [B1 _]. apply negb_true_iff in B1. congruence.
    - destruct Hin as [->|Hin]; [exact (K _ _ (T _ _ E1) _ H)|exact (IH _ _ Hin H)]. }
  destruct (edge_loop (square 0) (square 3) (1, 0) (0, 0) (edges (square 0)) (true, true)) as [fl|] eqn:E1; [|discriminate]. intros E.
  assert (F : fst fl = false). { refine (Q _ _ _ _ E1). unfold square. cbn [edges In]. right. left. reflexivity. }
  pose proof (K _ _ F _ E) as X. discriminate X.
Qed.

(** C04: the test accepts the points of the rectangle turned the other way ... *)
Theorem C04_opposite_angle_partial : forall p center length width angle,
  point_in_rotated_rectangle p center length width angle = true <-> in_rect center length width (- angle) p.
Proof. exact rotated_iff. Qed.
(** ... which holds the corners when the rectangle is not turned. *)
Theorem C04_corners_partial : forall p center length width m c, 0 <= length -> 0 <= width ->
  In p (rect_corners center length width 0 m c) -> point_in_rotated_rectangle p center length width 0 = true.
Proof. intros p center l w m c Hl Hw H. apply rotated_iff. rewrite Ropp_0. exact (rect_corners_in _ _ _ _ _ _ _ Hl Hw H). Qed.
(** The points asked for: the corners at [(+-length/2, +-width/2)] from the centre, turned by the angle, and with
    midpoints and centre those at all [(s length/2, t width/2)] for [s] and [t] in -1, 0, 1. *)
Definition turned_point (center : pt) (length width angle s t : R) : pt :=
  (fst center + (s * length / 2 * cos angle - t * width / 2 * sin angle), snd center + (s * length / 2 * sin angle + t * width / 2 * cos angle)).
Theorem C04_corner_points : forall p center length width angle,
  (In p (rect_corners center length width angle false false) <->
   exists s t, (s = -1 \/ s = 1) /\ (t = -1 \/ t = 1) /\ p = turned_point center length width angle s t) /\
  (In p (rect_corners center length width angle true true) <->
   exists s t, (s = -1 \/ s = 0 \/ s = 1) /\ (t = -1 \/ t = 0 \/ t = 1) /\ p = turned_point center length width angle s t).
Proof.
  intros p center l w a. unfold rect_corners, turned_point, rotate. cbn [map app In fst snd]. split; split; intros H.
  - destruct H as [<-|[<-|[<-|[<-|[]]]]].
    + exists (-1), (-1). repeat split; auto. f_equal; field.
    + exists (-1), 1. repeat split; auto. f_equal; field.
    + exists 1, 1. repeat split; auto. f_equal; field.
    + exists 1, (-1). repeat split; auto. f_equal; field.
  - destruct H as (s & t & [->| ->] & [->| ->] & ->); [left|do 1 right; left|do 3 right; left|do 2 right; left]; f_equal; field.
  - destruct H as [<-|[<-|[<-|[<-|[<-|[<-|[<-|[<-|[<-|[]]]]]]]]]].
    + exists (-1), (-1). repeat split; auto. f_equal; field.
    + exists (-1), 1. repeat split; auto. f_equal; field.
    + exists 1, 1. repeat split; auto. f_equal; field.
    + exists 1, (-1). repeat split; auto. f_equal; field.
    + exists 0, 0. repeat split; auto. f_equal; field.
    + exists (-1), 0. repeat split; auto. f_equal; field.
    + exists 1, 0. repeat split; auto. f_equal; field.
    + exists 0, (-1). repeat split; auto. f_equal; field.
    + exists 0, 1. repeat split; auto. f_equal; field.
  - destruct H as (s & t & [->|[->| ->]] & [->|[->| ->]] & ->).
    + left; f_equal; field.
    + do 5 right; left; f_equal; field.
    + do 1 right; left; f_equal; field.
    + do 7 right; left; f_equal; field.
    + do 4 right; left; f_equal; field.
    + do 8 right; left; f_equal; field.
    + do 3 right; left; f_equal; field.
    + do 6 right; left; f_equal; field.
    + do 2 right; left; f_equal; field.
Qed.
(** Otherwise it may reject them: 4 by 2, turned by 45 degrees. *)
Theorem C04_refuted : exists p center length width angle,
  0 < length /\ 0 < width /\ In p (rect_corners center length width angle false false) /\
  point_in_rotated_rectangle p center length width angle = false.
Proof.
  exists (1 / sqrt 2, 3 / sqrt 2), (0, 0), 4, 2, (PI / 4). split; [lra|]. split; [lra|].
  assert (S : 0 < sqrt 2) by (apply sqrt_lt_R0; lra). assert (SS : sqrt 2 * sqrt 2 = 2) by (apply sqrt_sqrt; lra). split.
  - unfold rect_corners. cbn [map app]. right. right. left. unfold rotate. cbn [fst snd]. rewrite cos_PI4, sin_PI4. f_equal; field; lra.
  - apply not_true_iff_false. unfold point_in_rotated_rectangle. rewrite point_in_rectangle_iff. unfold rotate. cbn [fst snd]. rewrite cos_PI4, sin_PI4.
    intros [_ H]. replace (1 / sqrt 2 * (1 / sqrt 2 - 0) + 1 / sqrt 2 * (3 / sqrt 2 - 0)) with (4 / (sqrt 2 * sqrt 2)) in H by (field; lra). rewrite SS in H. lra.
Qed.

(** C67: for rectangles that are not turned, "intersect" is never wrong ... *)
Theorem C67_intersect_right_partial : forall a b,
  r_angle a = 0 -> r_angle b = 0 -> 0 <= r_length a -> 0 <= r_width a -> 0 <= r_length b -> 0 <= r_width b ->
  rotated_rectangles_intersect a b = true ->
  exists p, in_rect (r_center a) (r_length a) (r_width a) 0 p /\ in_rect (r_center b) (r_length b) (r_width b) 0 p.
Proof.
  intros a b Ea Eb L1 W1 L2 W2 H. unfold rotated_rectangles_intersect, has_corner_inside in H. apply orb_true_iff in H. rewrite !existsb_exists, Ea, Eb in H.
  destruct H as [(p & Hp & Hi)|(p & Hp & Hi)]; exists p; apply rotated_iff in Hi; rewrite Ropp_0 in Hi; (split; [|]); try exact Hi; eapply rect_corners_in; eauto.
Qed.
(** In general it holds exactly if one of the nine points of one rectangle (corners, middles of the sides and centre) is
    in the other one turned the opposite way. *)
Definition nine_points (a : rect) (p : pt) : Prop :=
  exists s t, (s = -1 \/ s = 0 \/ s = 1) /\ (t = -1 \/ t = 0 \/ t = 1) /\ p = turned_point (r_center a) (r_length a) (r_width a) (r_angle a) s t.
Theorem C67_points : forall a b, rotated_rectangles_intersect a b = true <->
  exists p, (nine_points a p /\ in_rect (r_center b) (r_length b) (r_width b) (- r_angle b) p) \/
            (nine_points b p /\ in_rect (r_center a) (r_length a) (r_width a) (- r_angle a) p).
Proof.
  intros a b. unfold rotated_rectangles_intersect, has_corner_inside, nine_points. rewrite orb_true_iff, !existsb_exists. split.
  - intros [(p & Hp & Hi)|(p & Hp & Hi)]; exists p; [left|right]; (split; [apply C04_corner_points; exact Hp|apply rotated_iff; exact Hi]).
  - intros (p & [[Hp Hi]|[Hp Hi]]); [left|right]; exists p; (split; [apply C04_corner_points; exact Hp|apply rotated_iff; exact Hi]).
Qed.
(** ... but two crossing rectangles are missed. *)
Theorem C67_crossing_refuted : exists a b p,
  r_angle a = 0 /\ r_angle b = 0 /\
  in_rect (r_center a) (r_length a) (r_width a) 0 p /\ in_rect (r_center b) (r_length b) (r_width b) 0 p /\
  rotated_rectangles_intersect a b = false.
Proof.
  exists (mk_rect (0, 0) 10 1 0), (mk_rect (3, 1) 1 10 0), (3, 0). cbn [r_angle r_center r_length r_width]. split; [reflexivity|]. split; [reflexivity|].
  split; [exists 3, 0; rewrite cos_0, sin_0; cbn; repeat split; try lra; f_equal; ring|].
  split; [exists 0, (-1); rewrite cos_0, sin_0; cbn; repeat split; try lra; f_equal; ring|].
  apply not_true_iff_false. unfold rotated_rectangles_intersect, has_corner_inside. cbn [r_angle r_center r_length r_width].
  rewrite orb_true_iff, !existsb_exists. intros [(p & Hp & Hi)|(p & Hp & Hi)];
  unfold rect_corners in Hp; cbn [map app] in Hp; unfold rotate in Hp; cbn [fst snd] in Hp; rewrite cos_0, sin_0 in Hp;
  unfold point_in_rotated_rectangle in Hi; rewrite point_in_rectangle_iff in Hi; unfold rotate in Hi; cbn [fst snd] in Hi; rewrite cos_0, sin_0 in Hi;
  repeat (destruct Hp as [<-|Hp]; [cbn [fst snd] in Hi; lra|]); exact Hp.
Qed.
Example untouched : 0 <= r_length (mk_rect (0, 0) 10 1 0) /\ rotated_rectangles_intersect (mk_rect (0, 0) 10 1 0) (mk_rect (4, 0) 10 1 0) = true.
Proof.
  split; [cbn; lra|]. unfold rotated_rectangles_intersect, has_corner_inside. apply orb_true_iff. left. apply existsb_exists. exists (0, 0). split.
  - unfold rect_corners. cbn [r_angle r_center r_length r_width map app]. do 4 right. left. unfold rotate. cbn [fst snd]. f_equal; ring.
  - apply rotated_iff. cbn [r_angle r_center r_length r_width]. rewrite Ropp_0. exists (-4), 0. rewrite cos_0, sin_0. cbn. repeat split; try lra. f_equal; ring.
Qed.

Print Assumptions C03_separation_sound.
Print Assumptions C04_opposite_angle_partial.
Print Assumptions C04_corners_partial.
Print Assumptions C04_corner_points.
Print Assumptions C04_refuted.
Print Assumptions C67_intersect_right_partial.
Print Assumptions C67_points.
Print Assumptions C67_crossing_refuted.
