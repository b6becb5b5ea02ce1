(** Proofs for MixMonoContProps.v. *)
From Coq Require Import Reals Qreals Qround Qabs Lia Lra.
From Verif Require Import Base BaseFacts Round RoundProofs MixMonoCont MixMonoContSpec MixMonoContProofs.
Set Implicit Arguments.
Open Scope R_scope.

Lemma flat2_nth {A B} (p q : A -> B) (l : list A) k : nth_error (flat_map (fun a => [p a; q a]) l) (2 * k) = option_map p (nth_error l k) /\
  nth_error (flat_map (fun a => [p a; q a]) l) (2 * k + 1) = option_map q (nth_error l k).
Proof.
  revert k. induction l as [|a l IH]; intros k.
  - cbn [flat_map]. destruct (2 * k)%nat, (2 * k + 1)%nat, k; auto.
  - destruct k as [|k]; [cbn; auto|]. destruct (IH k) as [A1 A2].
    replace (2 * S k)%nat with (S (S (2 * k))) by lia. replace (S (S (2 * k)) + 1)%nat with (S (S (2 * k + 1))) by lia.
    cbn [flat_map app nth_error]. auto.
Qed.
Lemma flat2_len {A B} (p q : A -> B) (l : list A) : length (flat_map (fun a => [p a; q a]) l) = (2 * length l)%nat.
Proof. induction l as [|a l IH]; [reflexivity|]. cbn [flat_map app length]. rewrite IH. lia. Qed.
Lemma nth_error_seq k n : (k < n)%nat -> nth_error (seq 0 n) k = Some k.
Proof. intros H. rewrite nth_error_nth' with (d := 0%nat) by (rewrite seq_length; exact H). rewrite seq_nth by exact H. reflexivity. Qed.

Lemma rhull_nth g (a b : list R * list R) n i : length (fst a) = n -> length (snd a) = n -> length (fst b) = n -> length (snd b) = n -> (i < n)%nat ->
  nth i (rhull g a b) 0 = g (g (g (nth i (fst a) 0) (nth i (fst b) 0)) (nth i (snd a) 0)) (nth i (snd b) 0).
Proof.
  intros A1 A2 B1 B2 Hi. unfold rhull.
  rewrite (zipw_nth g _ _ 0 0 0) by (rewrite ?zipw_length; lia). f_equal.
  rewrite (zipw_nth g _ _ 0 0 0) by (rewrite ?zipw_length; lia). f_equal.
  apply zipw_nth; lia.
Qed.
Lemma rhull_len g (a b : list R * list R) n : length (fst a) = n -> length (snd a) = n -> length (fst b) = n -> length (snd b) = n -> length (rhull g a b) = n.
Proof. intros. unfold rhull. rewrite !zipw_length. lia. Qed.

Lemma hull_low a b n i v : length (fst a) = n -> length (snd a) = n -> length (fst b) = n -> length (snd b) = n -> (i < n)%nat ->
  nth i (fst a) 0 <= v \/ nth i (fst b) 0 <= v -> nth i (rhull Rmin a b) 0 <= v.
Proof. intros A1 A2 B1 B2 Hi H. rewrite (@rhull_nth _ a b n) by assumption. unfold Rmin. repeat destruct Rle_dec; lra. Qed.
Lemma hull_high a b n i v : length (fst a) = n -> length (snd a) = n -> length (fst b) = n -> length (snd b) = n -> (i < n)%nat ->
  v <= nth i (snd a) 0 \/ v <= nth i (snd b) 0 -> v <= nth i (rhull Rmax a b) 0.
Proof. intros A1 A2 B1 B2 Hi H. rewrite (@rhull_nth _ a b n) by assumption. unfold Rmax. repeat destruct Rle_dec; lra. Qed.

Section Main.
  Variables (n m : nat) (f : list R -> list R -> list R) (d : list R -> list R -> list R -> list R -> list R).
  Variables (w what : list R) (dt : Q) (solve : (list R * list R -> list R * list R) -> list R * list R -> R -> list R * list R).
  Variables (lo hi : list R).
  Hypothesis Dec : decomposes n m f d.
  Hypothesis Lw : length w = m.
  Hypothesis Dt : (0 < dt)%Q.
  Hypothesis Ex : exact n solve (embedded d w what) (lo, hi).
  Let y t := solve (embedded d w what) (lo, hi) t.
  Let row := cont_row d w what dt solve (lo, hi).

  Lemma row_state k : snd (row k) = y (INR k * Q2R dt).
  Proof. destruct k as [|k]; [|reflexivity]. cbn. rewrite Rmult_0_l. symmetry. apply (proj1 Ex). Qed.
  Lemma row_time k : (Qabs (fst (row k) - inject_Z (Z.of_nat k) * dt) <= (1 # 2) / pow10 10)%Q.
  Proof.
    destruct k as [|k].
    - unfold row. cbn [cont_row fst]. setoid_replace (0 - inject_Z (Z.of_nat 0) * dt)%Q with 0%Q by (cbn; ring). discriminate.
    - unfold row. cbn [cont_row fst]. setoid_replace (py_round 10 (inject_Z (Z.of_nat k) * dt) + dt - inject_Z (Z.of_nat (S k)) * dt)%Q with (py_round 10 (inject_Z (Z.of_nat k) * dt) - inject_Z (Z.of_nat k) * dt)%Q;
        [apply py_round_close|]. rewrite Nat2Z.inj_succ, <- Z.add_1_r, inject_Z_plus. ring.
  Qed.
  Lemma dtR : 0 < Q2R dt. Proof. replace 0 with (Q2R 0) by (unfold Q2R; cbn; lra). apply Qlt_Rlt, Dt. Qed.
  Lemma ylen1 t : length (fst (y t)) = n. Proof. apply Ex. Qed.
  Lemma ylen2 t : length (snd (y t)) = n. Proof. apply Ex. Qed.

  Lemma run_between s t : run_of n f w what lo hi s -> 0 <= t -> within (fst (y t)) (snd (y t)) (s t).
  Proof.
    intros [H0 (dist & Hd & Ms)] Ht. destruct Ex as (E0 & E1 & E2).
    apply (@compare n m f d w what (fun t => fst (y t)) (fun t => snd (y t)) s dist Dec Lw E1 E2 Ms Hd); [|exact Ht].
    unfold y. rewrite E0. exact H0.
  Qed.

  Lemma in_hull t k s : run_of n f w what lo hi s -> 0 <= t ->
    (forall i, (i < n)%nat -> (nth i (fst (y (INR k * Q2R dt))) 0 <= nth i (fst (y t)) 0 \/ nth i (fst (y (INR (S k) * Q2R dt))) 0 <= nth i (fst (y t)) 0) /\
       (nth i (snd (y t)) 0 <= nth i (snd (y (INR k * Q2R dt))) 0 \/ nth i (snd (y t)) 0 <= nth i (snd (y (INR (S k) * Q2R dt))) 0)) ->
    within (rhull Rmin (snd (row k)) (snd (row (S k)))) (rhull Rmax (snd (row k)) (snd (row (S k)))) (s t).
  Proof.
    intros R Ht H. destruct (run_between R Ht) as [[Ll Hl] [Lh Hh]]. rewrite ylen1 in Ll. rewrite !row_state.
    split; apply rle_nth; rewrite ?(@rhull_len _ (y (INR k * Q2R dt)) (y (INR (S k) * Q2R dt)) n) by (apply ylen1 || apply ylen2); auto; intros i Hi.
    - apply hull_low with (n := n); try (apply ylen1 || apply ylen2); auto. destruct (H i Hi) as [[A|A] _]; specialize (Hl i); [left|right]; lra.
    - rewrite <- Ll in Hi. apply hull_high with (n := n); try (apply ylen1 || apply ylen2); auto. destruct (H i Hi) as [_ [A|A]]; specialize (Hh i); [left|right]; lra.
  Qed.

  Lemma tube_is rest T : length lo = n -> length hi = n ->
    compute_reachtube_mixmono_cont d w what dt solve ((lo, hi) :: rest) T = Some (cont_rows row (Z.to_nat (Qceiling (T / dt)))).
  Proof. intros H1 H2. unfold compute_reachtube_mixmono_cont. cbn [nth_error obind fst snd]. rewrite H1, H2, Nat.eqb_refl. reflexivity. Qed.

  Lemma step_is N k : (k < N)%nat -> nth_error (cont_rows row N) (2 * k) = Some (fst (row k), rhull Rmin (snd (row k)) (snd (row (S k)))) /\
    nth_error (cont_rows row N) (2 * k + 1) = Some (fst (row (S k)), rhull Rmax (snd (row k)) (snd (row (S k)))).
  Proof.
    intros H. unfold cont_rows. destruct (flat2_nth (fun i => (fst (row i), rhull Rmin (snd (row i)) (snd (row (S i))))) (fun i => (fst (row (S i)), rhull Rmax (snd (row i)) (snd (row (S i))))) (seq 0 N) k) as [A B].
    rewrite A, B, nth_error_seq by exact H. auto.
  Qed.

  Lemma step_has N k t s : (k < N)%nat -> run_of n f w what lo hi s -> 0 <= t ->
    (forall i, (i < n)%nat -> (nth i (fst (y (INR k * Q2R dt))) 0 <= nth i (fst (y t)) 0 \/ nth i (fst (y (INR (S k) * Q2R dt))) 0 <= nth i (fst (y t)) 0) /\
       (nth i (snd (y t)) 0 <= nth i (snd (y (INR k * Q2R dt))) 0 \/ nth i (snd (y t)) 0 <= nth i (snd (y (INR (S k) * Q2R dt))) 0)) ->
    cont_step (cont_rows row N) k (s t).
  Proof. intros Hk R Ht H. destruct (step_is Hk) as [A B]. exists (fst (row k), rhull Rmin (snd (row k)) (snd (row (S k)))), (fst (row (S k)), rhull Rmax (snd (row k)) (snd (row (S k)))). split; [exact A|]. split; [exact B|]. cbn [snd]. apply in_hull; assumption. Qed.

  Lemma sampled N k s : (k < N)%nat -> run_of n f w what lo hi s ->
    cont_step (cont_rows row N) k (s (INR k * Q2R dt)) /\ cont_step (cont_rows row N) k (s (INR (S k) * Q2R dt)).
  Proof.
    intros Hk R. pose proof dtR as D. split; (apply step_has; [exact Hk|exact R|apply Rmult_le_pos; [apply pos_INR|lra]|]); intros i _; split; lra.
  Qed.

  Lemma between N k s t : (k < N)%nat -> run_of n f w what lo hi s -> INR k * Q2R dt <= t <= INR (S k) * Q2R dt ->
    one_way (fun u => fst (y u)) (INR k * Q2R dt) (INR (S k) * Q2R dt) -> one_way (fun u => snd (y u)) (INR k * Q2R dt) (INR (S k) * Q2R dt) ->
    cont_step (cont_rows row N) k (s t).
  Proof.
    intros Hk R Ht O1 O2. pose proof dtR as D. pose proof (pos_INR k) as P.
    assert (0 <= INR k * Q2R dt) by (apply Rmult_le_pos; lra).
    apply step_has; [exact Hk|exact R|lra|]. intros i _. split.
    - destruct (O1 i) as [H1|H1]; [left|right]; apply H1; lra.
    - destruct (O2 i) as [H2|H2]; [right|left]; apply H2; lra.
  Qed.
End Main.
