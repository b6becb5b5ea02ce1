(** Facts about rounding. *)
From Verif Require Import Base Round.
From Coq Require Import Qround Qabs Lqa.
Set Implicit Arguments.
Open Scope nat_scope.

Lemma rhe_close x : (Qabs (inject_Z (round_half_even x) - x) <= 1 # 2)%Q.
Proof.
  unfold round_half_even. pose proof (Qfloor_le x) as H1. pose proof (Qlt_floor x) as H2.
  rewrite inject_Z_plus in H2. change (inject_Z 1) with 1%Q in H2.
  destruct (Qcompare_spec (x - inject_Z (Qfloor x)) (1 # 2)) as [H|H|H].
  - destruct (Z.even (Qfloor x)); apply Qabs_case; intros; rewrite ?inject_Z_plus; change (inject_Z 1) with 1%Q; lra.
  - apply Qabs_case; intros; lra.
  - apply Qabs_case; intros; rewrite ?inject_Z_plus in *; change (inject_Z 1) with 1%Q in *; lra.
Qed.

Lemma rhe_Z z : round_half_even (inject_Z z) = z.
Proof.
  unfold round_half_even. rewrite Qfloor_Z. destruct (Qcompare_spec (inject_Z z - inject_Z z) (1 # 2)) as [H|H|H]; [lra|reflexivity|lra].
Qed.

Lemma rhe_mono x y : (x <= y)%Q -> (round_half_even x <= round_half_even y)%Z.
Proof.
  intros H. unfold round_half_even. pose proof (Qfloor_resp_le _ _ H) as Hf.
  pose proof (Qfloor_le x) as X1. pose proof (Qlt_floor x) as X2. pose proof (Qfloor_le y) as Y1. pose proof (Qlt_floor y) as Y2.
  rewrite inject_Z_plus in X2, Y2. change (inject_Z 1) with 1%Q in *.
  destruct (Z.eq_dec (Qfloor x) (Qfloor y)) as [E|E].
  - rewrite <- E in *. destruct (Qcompare_spec (x - inject_Z (Qfloor x)) (1 # 2)), (Qcompare_spec (y - inject_Z (Qfloor x)) (1 # 2));
      try destruct (Z.even _); try lia; exfalso; lra.
  - destruct (Qcompare_spec (x - inject_Z (Qfloor x)) (1 # 2)), (Qcompare_spec (y - inject_Z (Qfloor y)) (1 # 2));
      try destruct (Z.even _); try destruct (Z.even _); lia.
Qed.

Lemma rhe_comp x y : (x == y)%Q -> round_half_even x = round_half_even y.
Proof. intros H. apply Z.le_antisymm; apply rhe_mono; rewrite H; apply Qle_refl. Qed.

Lemma pow10_pos n : (0 < pow10 n)%Q.
Proof. unfold pow10. change 0%Q with (inject_Z 0). rewrite <- Zlt_Qlt. apply Z.pow_pos_nonneg; lia. Qed.

Lemma py_round_close n x : (Qabs (py_round n x - x) <= (1 # 2) / pow10 n)%Q.
Proof.
  unfold py_round. pose proof (pow10_pos n) as P. pose proof (rhe_close (x * pow10 n)) as H.
  assert (E : (inject_Z (round_half_even (x * pow10 n)) / pow10 n - x == (inject_Z (round_half_even (x * pow10 n)) - x * pow10 n) / pow10 n)%Q) by (field; lra).
  rewrite E. unfold Qdiv. rewrite Qabs_Qmult. rewrite (Qabs_pos (/ pow10 n)) by (apply Qlt_le_weak, Qinv_lt_0_compat; exact P).
  apply Qmult_le_compat_r; [exact H|apply Qlt_le_weak, Qinv_lt_0_compat; exact P].
Qed.

Lemma py_round_mono n x y : (x <= y)%Q -> (py_round n x <= py_round n y)%Q.
Proof.
  intros H. unfold py_round. pose proof (pow10_pos n) as P. unfold Qdiv. apply Qmult_le_compat_r; [|apply Qlt_le_weak, Qinv_lt_0_compat; exact P].
  rewrite <- Zle_Qle. apply rhe_mono. apply Qmult_le_compat_r; [exact H|lra].
Qed.

Lemma py_round_comp n x y : (x == y)%Q -> py_round n x = py_round n y.
Proof. intros H. unfold py_round. f_equal. f_equal. apply rhe_comp. rewrite H. reflexivity. Qed.

(** A number with at most [n] decimals is not changed. *)
Lemma py_round_decimal n z : (py_round n (inject_Z z / pow10 n) == inject_Z z / pow10 n)%Q.
Proof.
  unfold py_round. pose proof (pow10_pos n) as P.
  assert (E : (inject_Z z / pow10 n * pow10 n == inject_Z z)%Q) by (field; lra).
  rewrite (rhe_comp E), rhe_Z. reflexivity.
Qed.

Lemma py_round_idem n x : py_round n (py_round n x) = py_round n x.
Proof.
  unfold py_round at 1. unfold py_round at 2. f_equal. f_equal. unfold py_round.
  set (z := round_half_even (x * pow10 n)). pose proof (pow10_pos n) as P.
  assert (E : (inject_Z z / pow10 n * pow10 n == inject_Z z)%Q) by (field; lra).
  rewrite (rhe_comp E), rhe_Z. reflexivity.
Qed.
