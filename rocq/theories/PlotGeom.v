(** Filled regions: rectangles and bands between two chains. *)
From Coq Require Import Ascii String Lqa.
From Verif Require Import Base Dict PyText Tree TreeSpec Plot PlotSpec.
Set Implicit Arguments.
Open Scope nat_scope.

Lemma right_of_cases p a : (fst a <= fst p)%Q /\ right_of p a = 0%Z \/ (fst p < fst a)%Q /\ right_of p a = 1%Z.
Proof.
  unfold right_of. destruct (Qle_bool (fst a) (fst p)) eqn:E.
  - left. apply Qle_bool_iff in E. auto.
  - right. split; [|reflexivity]. apply Qnot_le_lt. intros H. apply Qle_bool_iff in H. congruence.
Qed.
Lemma right_of_eq p a b : (fst a == fst b)%Q -> right_of p a = right_of p b.
Proof. intros E. destruct (right_of_cases p a) as [[H ->]|[H ->]], (right_of_cases p b) as [[G ->]|[G ->]]; try reflexivity; lra. Qed.
Lemma turn_cases p e : (height_at p e <= snd p)%Q /\ turn p e = 0%Z \/
  (snd p < height_at p e)%Q /\ turn p e = (right_of p (fst e) - right_of p (snd e))%Z.
Proof.
  unfold turn. destruct (Qle_bool (height_at p e) (snd p)) eqn:E.
  - left. apply Qle_bool_iff in E. auto.
  - right. split; [|reflexivity]. apply Qnot_le_lt. intros H. apply Qle_bool_iff in H. congruence.
Qed.
Lemma turn_vertical p a b : (fst a == fst b)%Q -> turn p (a, b) = 0%Z.
Proof.
  intros E. destruct (turn_cases p (a, b)) as [[_ H]|[_ H]]; rewrite H; [reflexivity|]. cbn [fst snd]. rewrite (@right_of_eq p a b E). apply Z.sub_diag.
Qed.
Lemma height_flat p a b : (snd a == snd b)%Q -> (height_at p (a, b) == snd a)%Q.
Proof.
  intros E. unfold height_at. cbn [fst snd]. setoid_replace (snd b - snd a)%Q with 0%Q by lra. unfold Qdiv. rewrite Qmult_0_l. lra.
Qed.

(** A point between two values is at some fraction of the way. *)
Lemma fraction u v q : (u <= q)%Q -> (q <= v)%Q -> exists s, (0 <= s /\ s <= 1 /\ q == u + s * (v - u))%Q.
Proof.
  intros H1 H2. destruct (Qlt_le_dec u v) as [L|L].
  - exists ((q - u) / (v - u))%Q. split; [|split].
    + apply Qle_shift_div_l; lra.
    + apply Qle_shift_div_r; lra.
    + field. lra.
  - exists 0%Q. repeat split; lra.
Qed.
Lemma fraction_r u v q : (u <= q)%Q -> (q <= v)%Q -> exists s, (0 <= s /\ s <= 1 /\ q == v + s * (u - v))%Q.
Proof. intros H1 H2. destruct (@fraction u v q H1 H2) as (s & A & B & C). exists (1 - s)%Q. repeat split; lra. Qed.
Lemma between u v s : (0 <= s)%Q -> (s <= 1)%Q -> (u <= v)%Q -> (u <= u + s * (v - u) /\ u + s * (v - u) <= v)%Q.
Proof. intros. split; nra. Qed.

Definition corners (x0 x1 y0 y1 : Q) : list pt := zip [x0; x1; x1; x0; x0] [y0; y0; y1; y1; y0].
Theorem filled_rectangle x0 x1 y0 y1 p : (x0 <= x1)%Q -> (y0 <= y1)%Q ->
  filled (corners x0 x1 y0 y1) p <-> (x0 <= fst p /\ fst p <= x1 /\ y0 <= snd p /\ snd p <= y1)%Q.
Proof.
  intros Hx Hy. destruct p as [px py]. cbn [fst snd].
  assert (W : winding (px, py) (corners x0 x1 y0 y1) =
              (turn (px, py) ((x0, y0), (x1, y0)) + turn (px, py) ((x1, y1), (x0, y1)))%Z).
  { unfold winding, corners, edges. cbn [zip combine app map fold_right]. rewrite (turn_vertical (px, py) (x1, y0) (x1, y1)), (turn_vertical (px, py) (x0, y1) (x0, y0)), (turn_vertical (px, py) (x0, y0) (x0, y0)) by reflexivity. lia. }
  assert (H1 := @height_flat (px, py) (x0, y0) (x1, y0) ltac:(reflexivity)).
  assert (H3 := @height_flat (px, py) (x1, y1) (x0, y1) ltac:(reflexivity)). cbn [fst snd] in H1, H3.
  split.
  - intros [H|H].
    + unfold edges, corners in H. cbn [zip combine app] in H. rewrite !Exists_cons, Exists_nil in H.
      destruct H as [H|[H|[H|[H|[H|[]]]]]]; destruct H as (s & S0 & S1 & Ex & Ey); cbn [fst snd] in *;
        assert (A : (0 <= 1 - s)%Q) by lra; assert (B : (1 - s <= 1)%Q) by lra;
        pose proof (@between x0 x1 s S0 S1 Hx); pose proof (@between y0 y1 s S0 S1 Hy);
        pose proof (@between x0 x1 (1 - s)%Q A B Hx); pose proof (@between y0 y1 (1 - s)%Q A B Hy); repeat split; lra.
    + rewrite W in H. destruct (turn_cases (px, py) ((x0, y0), (x1, y0))) as [[L1 E1]|[L1 E1]], (turn_cases (px, py) ((x1, y1), (x0, y1))) as [[L3 E3]|[L3 E3]];
        rewrite E1, E3 in H; cbn [fst snd] in *; rewrite H1 in L1; rewrite H3 in L3; rewrite ?(@right_of_eq (px, py) (x0, y0) (x0, y1)), ?(@right_of_eq (px, py) (x1, y0) (x1, y1)) in H by reflexivity; try lia; [|lra].
      destruct (right_of_cases (px, py) (x1, y1)) as [[A Ea]|[A Ea]], (right_of_cases (px, py) (x0, y1)) as [[B Eb]|[B Eb]]; rewrite Ea, Eb in H; cbn [fst snd] in *; try lia; repeat split; lra.
  - intros (A & B & C & D).
    destruct (Qlt_le_dec px x1) as [L|L].
    + destruct (Qlt_le_dec py y1) as [M|M].
      * right. rewrite W. destruct (turn_cases (px, py) ((x0, y0), (x1, y0))) as [[L1 E1]|[L1 E1]]; cbn [fst snd] in *; rewrite H1 in L1; [|lra].
        destruct (turn_cases (px, py) ((x1, y1), (x0, y1))) as [[L3 E3]|[L3 E3]]; cbn [fst snd] in *; rewrite H3 in L3; [lra|].
        rewrite E1, E3. destruct (right_of_cases (px, py) (x1, y1)) as [[A1 Ea]|[A1 Ea]], (right_of_cases (px, py) (x0, y1)) as [[B1 Eb]|[B1 Eb]]; cbn [fst snd] in *; try lra. rewrite Ea, Eb. discriminate.
      * left. unfold edges, corners. cbn. do 2 apply Exists_cons_tl. apply Exists_cons_hd. destruct (@fraction_r x0 x1 px A B) as (s & S0 & S1 & E). exists s. cbn [fst snd]. repeat split; lra.
    + left. unfold edges, corners. cbn. apply Exists_cons_tl. apply Exists_cons_hd. destruct (@fraction y0 y1 py C D) as (s & S0 & S1 & E). exists s. cbn [fst snd]. repeat split; lra.
Qed.
