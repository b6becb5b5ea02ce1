(** C13: the intervals of single positions. *)
From Coq Require Import Reals List Lra.
From Verif Require Import Base Angle Lane LaneSpec LaneProofs LaneProps.
Import ListNotations.
Open Scope R_scope.

(** C13.  For a box that is one position both intervals are exactly its coordinate, on straight and on circular segments. *)
Theorem C13_position_longitudinal : forall s start x y, longitudinal_set s start x x y y = (fst (local s x y) + start, fst (local s x y) + start).
Proof.
  intros [sx sy ex ey wd|cx cy r ph0 ph1 cw wd] start x y; cbn [longitudinal_set local fst snd].
  - unfold Rmin, Rmax. repeat destruct (Rle_dec _ _); reflexivity.
  - set (a := arctan2 (y - cy) (x - cx)). assert (Em : min4 a a a a = a) by (unfold min4, Rmin; repeat destruct (Rle_dec _ _); reflexivity). assert (EM : max4 a a a a = a) by (unfold max4, Rmax; repeat destruct (Rle_dec _ _); reflexivity).
    rewrite Em, EM. unfold Rmin, Rmax. repeat destruct (Rle_dec _ _); reflexivity.
Qed.
Theorem C13_position_lateral : forall s x y, lateral_set s x x y y = (snd (local s x y), snd (local s x y)).
Proof.
  intros s x y. pose proof (@lateral_set_sound s x x y y x y ltac:(lra) ltac:(lra)) as H. assert (E : fst (lateral_set s x x y y) = snd (lateral_set s x x y y)).
  { destruct s as [sx sy ex ey wd|cx cy r ph0 ph1 cw wd]; cbn [lateral_set fst snd].
    - unfold Rmin, Rmax. repeat destruct (Rle_dec _ _); reflexivity.
    - assert (N : forall a, Rmax a (Rmax 0 (- a)) = Rabs a) by (intros a; unfold Rmax, Rabs; destruct (Rcase_abs a); repeat destruct (Rle_dec _ _); lra).
      replace (cx - x) with (- (x - cx)) by ring. replace (cy - y) with (- (y - cy)) by ring. rewrite !N. rewrite (Rmax_left (Rabs (x - cx)) (Rabs (x - cx))), (Rmax_left (Rabs (y - cy)) (Rabs (y - cy))) by lra. unfold Rmin, Rmax. repeat destruct (Rle_dec _ _); reflexivity. }
  destruct (lateral_set s x x y y) as [l h]. cbn [fst snd] in *. subst h. f_equal; lra.
Qed.
(** C13.  So the interval of a position on a lane is exactly its coordinate. *)
Theorem C13_position : forall lane lat x y c, (if lat : bool then get_lateral lane x y else get_longitudinal lane x y) = Some c -> coord_interval lane lat (x, x) (y, y) = Some (c, c).
Proof.
  assert (A : forall lane n a, add_lengths lane n a = a + add_lengths lane n 0). { induction lane as [|s lane IH]; intros [|n] a; cbn [add_lengths]; try lra. rewrite IH, (IH n (0 + length_of s)). lra. }
  intros lane lat x y c H. unfold coord_interval. cbn [fst snd]. unfold get_longitudinal, get_lateral in H. destruct (get_lane_segment lane x y) as [[i s]|]; [|destruct lat; discriminate].
  destruct lat; injection H as <-; rewrite ?C13_position_lateral, ?C13_position_longitudinal; cbn [fst snd]; rewrite ?Rmin_left, ?Rmax_left by lra; [reflexivity|]. rewrite (A lane i (fst (local s x y))). reflexivity.
Qed.
(** A position on a lane with a joint. *)
Example position_case : coord_interval [east; south] false (5, 5) (4, 4) = Some (5, 5).
Proof. apply (C13_position _ false). exact only_segment. Qed.
Print Assumptions C13_position_longitudinal.
Print Assumptions C13_position_lateral.
Print Assumptions C13_position.
