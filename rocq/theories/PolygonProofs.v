(** Proofs about rectangles and polygons. *)
From Coq Require Import Reals Lra Lia Psatz List Bool.
From Verif Require Import Angle AngleProofs Polygon PolygonSpec.
Import ListNotations.
Open Scope R_scope.

Lemma project_fold axis : forall P acc mn mx, fold_left (project_step axis) P acc = Some (mn, mx) ->
  (forall p, In p P -> mn <= dotp p axis <= mx) /\ (forall m M, acc = Some (m, M) -> mn <= m /\ M <= mx).
Proof.
  induction P as [|p r IH]; intros acc mn mx H; cbn [fold_left] in H.
  - split; [intros p []|]. intros m M ->. injection H as -> ->. lra.
  - destruct (IH _ _ _ H) as [A B]. split.
    + intros q [<-|Hq]; [|exact (A q Hq)]. unfold project_step in B. destruct acc as [[m M]|].
      * destruct (B _ _ eq_refl). destruct (Rlt_dec _ m), (Rlt_dec M _); lra.
      * destruct (B _ _ eq_refl). lra.
    + intros m M ->. unfold project_step in B. destruct (B _ _ eq_refl). destruct (Rlt_dec _ m), (Rlt_dec M _); lra.
Qed.
Lemma project_hull P axis mn mx q : project_polygon P axis = Some (mn, mx) -> hull P q -> mn <= dotp q axis <= mx.
Proof.
  intros H Hq. induction Hq as [p Hp|p q t Hp IHp Hq IHq Ht]; [exact (proj1 (project_fold _ _ _ _ _ H) p Hp)|].
  unfold dotp in *. cbn [fst snd].
  replace (((1 - t) * fst p + t * fst q) * fst axis + ((1 - t) * snd p + t * snd q) * snd axis)
    with ((1 - t) * (fst p * fst axis + snd p * snd axis) + t * (fst q * fst axis + snd q * snd axis)) by ring. nra.
Qed.

Lemma distance_apart a0 a1 b0 b1 x y : 0 < interval_distance a0 a1 b0 b1 -> a0 <= x <= a1 -> b0 <= y <= b1 -> x <> y.
Proof. unfold interval_distance. destruct (Rlt_dec a0 b0); lra. Qed.

Definition separated (a b : list pt) (d : pt) : Prop :=
  forall p q, hull a p -> hull b q -> (fst p + fst d, snd p + snd d) <> q.

Section Sat.
  Variables (a b : list pt) (da db : pt).
  Notation moved t := (t * (fst da - fst db), t * (snd da - snd db)).
  Definition good (fl : bool * bool) : Prop :=
    (fst fl = false -> separated a b (0, 0)) /\ (snd fl = false -> forall t, 0 <= t <= 1 -> separated a b (moved t)).

  Lemma edge_step_good fl e fl' : good fl -> edge_step a b da db fl e = Some fl' -> good fl'.
  Proof.
    intros [G1 G2] H. destruct e as [p1 p2]. cbn [edge_step] in H.
    set (n := norm _ _) in H. destruct (Req_EM_T n 0) as [Z|Z]; [injection H as <-; split; assumption|].
    set (normal := (_ / n, _ / n)) in H.
    destruct (project_polygon a normal) as [[min_a max_a]|] eqn:Ea; [|discriminate].
    destruct (project_polygon b normal) as [[min_b max_b]|] eqn:Eb; [|discriminate]. injection H as <-. split; cbn [fst snd].
    - destruct (Rlt_dec 0 _) as [D|D]; [|exact G1]. intros _ p q Hp Hq E.
      pose proof (project_hull _ _ _ _ _ Ea Hp). pose proof (project_hull _ _ _ _ _ Eb Hq).
      apply (distance_apart _ _ _ _ _ _ D H H0). rewrite <- E. unfold dotp. cbn [fst snd]. ring.
    - set (v := dotp normal _). destruct (Rlt_dec 0 _) as [D|D]; [|exact G2]. intros _ t Ht p q Hp Hq E.
      pose proof (project_hull _ _ _ _ _ Ea Hp) as A. pose proof (project_hull _ _ _ _ _ Eb Hq) as B.
      assert (V : dotp q normal = dotp p normal + t * v). { rewrite <- E. unfold v, dotp. cbn [fst snd]. ring. }
      refine (distance_apart _ _ _ _ (dotp p normal + t * v) (dotp q normal) D _ B _); [|rewrite V; reflexivity].
      destruct (Rlt_dec v 0); nra.
  Qed.
  Lemma edge_loop_good : forall es fl fl', good fl -> edge_loop a b da db es fl = Some fl' -> good fl'.
  Proof.
    induction es as [|e r IH]; intros fl fl' G H; cbn [edge_loop] in H; [injection H as <-; exact G|].
    destruct (edge_step a b da db fl e) as [fl1|] eqn:E; [|discriminate]. pose proof (edge_step_good _ _ _ G E) as G1.
    destruct (_ && _); [injection H as <-; exact G1|exact (IH _ _ G1 H)].
  Qed.
  Lemma sat_good fl : are_polygons_intersecting a b da db = Some fl -> good fl.
  Proof.
    unfold are_polygons_intersecting. destruct (edge_loop a b da db (edges a) (true, true)) as [fl1|] eqn:E; [|discriminate]. intros H.
    refine (edge_loop_good _ _ _ _ H). refine (edge_loop_good _ _ _ _ E). split; discriminate.
  Qed.
End Sat.

(** ** Rectangles *)
Lemma point_in_rectangle_iff p mn mx : point_in_rectangle p mn mx = true <-> fst mn <= fst p <= fst mx /\ snd mn <= snd p <= snd mx.
Proof. unfold point_in_rectangle. repeat destruct (Rle_dec _ _); split; intros; try discriminate; auto; lra. Qed.

Lemma rotated_iff p center l w a : point_in_rotated_rectangle p center l w a = true <-> in_rect center l w (- a) p.
Proof.
  unfold point_in_rotated_rectangle. rewrite point_in_rectangle_iff. unfold rotate, in_rect. rewrite cos_neg, sin_antisym. cbn [fst snd].
  pose proof (sin2_cos2 a) as U. unfold Rsqr in U. set (c := cos a) in *. set (s := sin a) in *. split.
  - intros [H1 H2]. exists (c * (fst p - fst center) + - s * (snd p - snd center)), (s * (fst p - fst center) + c * (snd p - snd center)).
    split; [lra|]. split; [lra|]. destruct p as [px py]. cbn [fst snd] in *. set (x := px - fst center) in *. set (y := py - snd center) in *.
    f_equal.
    + transitivity (fst center + x * (s * s + c * c)); [rewrite U; unfold x; ring|ring].
    + transitivity (snd center + y * (s * s + c * c)); [rewrite U; unfold y; ring|ring].
  - intros (u & v & Hu & Hv & ->). cbn [fst snd].
    replace (c * (fst center + (u * c - v * - s) - fst center) + - s * (snd center + (u * - s + v * c) - snd center)) with (u * (s * s + c * c)) by ring.
    replace (s * (fst center + (u * c - v * - s) - fst center) + c * (snd center + (u * - s + v * c) - snd center)) with (v * (s * s + c * c)) by ring.
    rewrite U. lra.
Qed.

Lemma rect_corners_in center l w a m c p : 0 <= l -> 0 <= w -> In p (rect_corners center l w a m c) -> in_rect center l w a p.
Proof.
  intros Hl Hw H. unfold rect_corners in H. apply in_map_iff in H. destruct H as ([u v] & <- & H).
  exists u, v. unfold rotate. cbn [fst snd].
  assert (- (l / 2) <= u <= l / 2 /\ - (w / 2) <= v <= w / 2).
  { rewrite !in_app_iff in H. destruct m, c; cbn in H; repeat destruct H as [H|H]; try contradiction; injection H as <- <-; lra. }
  repeat split; try lra. f_equal; ring.
Qed.
