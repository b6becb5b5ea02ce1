(** Lemmas about time stamps. *)
From Coq Require Import Qround Lqa.
From Verif Require Import Base BaseFacts TimeGrid.
Set Implicit Arguments.
Open Scope nat_scope.

Lemma zround_int z : zround (inject_Z z) = z.
Proof.
  unfold zround. assert (F : Qfloor (inject_Z z + (1 # 2)) = z).
  { assert (A := Qfloor_le (inject_Z z + (1 # 2))). assert (B := Qlt_floor (inject_Z z + (1 # 2))).
    set (f := Qfloor (inject_Z z + (1 # 2))) in *. rewrite inject_Z_plus in B. change (inject_Z 1) with 1%Q in B.
    assert (H1 : (inject_Z f < inject_Z (z + 1))%Q) by (rewrite inject_Z_plus; change (inject_Z 1) with 1%Q; lra).
    assert (H2 : (inject_Z (z - 1) < inject_Z f)%Q) by (replace (z - 1)%Z with (z + (-1))%Z by lia; rewrite inject_Z_plus; change (inject_Z (-1)) with (-1)%Q; lra).
    rewrite <- Zlt_Qlt in H1, H2. lia. }
  rewrite F. destruct (Qeq_bool (inject_Z z + (1 # 2)) (inject_Z z)) eqn:E; [|reflexivity]. apply Qeq_bool_iff in E. exfalso. lra.
Qed.
Lemma zround_comp p q : (p == q)%Q -> zround p = zround q.
Proof.
  intros E. unfold zround. assert (E' : (p + (1 # 2) == q + (1 # 2))%Q) by (rewrite E; reflexivity).
  rewrite (Qfloor_comp _ _ E'). generalize (Qfloor (q + (1 # 2))). intros f.
  assert (Qeq_bool (p + (1 # 2)) (inject_Z f) = Qeq_bool (q + (1 # 2)) (inject_Z f)) as ->; [|reflexivity].
  apply eq_true_iff_eq. rewrite !Qeq_bool_iff, E'. reflexivity.
Qed.
Lemma zround_near q : (- (1 # 2) <= inject_Z (zround q) - q <= 1 # 2)%Q.
Proof.
  unfold zround. assert (A := Qfloor_le (q + (1 # 2))). assert (B := Qlt_floor (q + (1 # 2))).
  set (f := Qfloor (q + (1 # 2))) in *. rewrite inject_Z_plus in B. change (inject_Z 1) with 1%Q in B.
  destruct (Qeq_bool (q + (1 # 2)) (inject_Z f)) eqn:E; cbn [andb].
  - apply Qeq_bool_iff in E. destruct (Z.odd f).
    + replace (f - 1)%Z with (f + (-1))%Z by lia. rewrite inject_Z_plus. change (inject_Z (-1)) with (-1)%Q. lra.
    + lra.
  - lra.
Qed.

Lemma pow10_pos d : (0 <= d)%Z -> (0 < pow10 d)%Q.
Proof. intros H. unfold pow10. change 0%Q with (inject_Z 0). rewrite <- Zlt_Qlt. apply Z.pow_pos_nonneg; lia. Qed.

(** A multiple of 10^-d. *)
Definition on_grid (d : Z) (q : Q) : Prop := exists z, (q * pow10 d == inject_Z z)%Q.

Lemma rnd_comp d p q : (p == q)%Q -> (rnd d p == rnd d q)%Q.
Proof. intros E. unfold rnd. rewrite (@zround_comp (p * pow10 d) (q * pow10 d)); [reflexivity|]. rewrite E. reflexivity. Qed.
Lemma rnd_grid d q : (0 <= d)%Z -> on_grid d q -> (rnd d q == q)%Q.
Proof.
  intros Hd [z E]. unfold rnd. rewrite (zround_comp E), zround_int. rewrite <- E. field. assert (P := pow10_pos Hd). lra.
Qed.
Lemma rnd_near d q : (0 <= d)%Z -> (- (1 # 2) / pow10 d <= rnd d q - q <= (1 # 2) / pow10 d)%Q.
Proof.
  intros Hd. assert (P := pow10_pos Hd). assert (N := zround_near (q * pow10 d)). unfold rnd.
  assert (E : (inject_Z (zround (q * pow10 d)) / pow10 d - q == (inject_Z (zround (q * pow10 d)) - q * pow10 d) / pow10 d)%Q) by (field; lra).
  rewrite E. split.
  - apply Qle_shift_div_l; [exact P|]. assert (F : (- (1 # 2) / pow10 d * pow10 d == - (1 # 2))%Q) by (field; lra). rewrite F. lra.
  - apply Qle_shift_div_r; [exact P|]. assert (F : ((1 # 2) / pow10 d * pow10 d == (1 # 2))%Q) by (field; lra). rewrite F. lra.
Qed.
Lemma grid_mult d q z : on_grid d q -> on_grid d (inject_Z z * q).
Proof.
  intros [y E]. exists (z * y)%Z. rewrite inject_Z_mult. rewrite <- E. ring.
Qed.
Lemma grid_comp d p q : (p == q)%Q -> on_grid d p -> on_grid d q.
Proof. intros E [z H]. exists z. rewrite <- E. exact H. Qed.
Lemma grid_finer q : on_grid 8 q -> on_grid 10 q.
Proof.
  intros [z E]. exists (z * 100)%Z. rewrite inject_Z_mult, <- E. change (pow10 10) with (pow10 8 * inject_Z 100)%Q. ring.
Qed.

Lemma qn_S i : (qn (S i) == qn i + 1)%Q.
Proof. unfold qn. rewrite Nat2Z.inj_succ, <- Z.add_1_r, inject_Z_plus. reflexivity. Qed.
Lemma qn_plus i j : (qn (i + j) == qn i + qn j)%Q.
Proof. unfold qn. rewrite Nat2Z.inj_add, inject_Z_plus. reflexivity. Qed.
Lemma qn_nonneg i : (0 <= qn i)%Q.
Proof. unfold qn. change 0%Q with (inject_Z 0). rewrite <- Zle_Qle. lia. Qed.
Lemma qn_le i j : i <= j -> (qn i <= qn j)%Q.
Proof. intros H. unfold qn. rewrite <- Zle_Qle. lia. Qed.
Lemma qn_lt i j : i < j -> (qn i + 1 <= qn j)%Q.
Proof. intros H. rewrite <- qn_S. apply qn_le. lia. Qed.

(** [ceil q = n] when n - 1 < q <= n. *)
Lemma ceil_is q n : (q <= qn n)%Q -> (qn n < q + 1)%Q -> ceil q = n.
Proof.
  intros H1 H2. unfold ceil. assert (A := Qle_ceiling q). assert (B := Qceiling_lt q). set (c := Qceiling q) in *.
  unfold qn in *. replace (c - 1)%Z with (c + (-1))%Z in B by lia. rewrite inject_Z_plus in B. change (inject_Z (-1)) with (-1)%Q in B.
  assert (K1 : (inject_Z c < inject_Z (Z.of_nat n + 1))%Q) by (rewrite inject_Z_plus; change (inject_Z 1) with 1%Q; lra).
  assert (K2 : (inject_Z (Z.of_nat n) < inject_Z (c + 1))%Q) by (rewrite inject_Z_plus; change (inject_Z 1) with 1%Q; lra).
  rewrite <- Zlt_Qlt in K1, K2. assert (c = Z.of_nat n) by lia. subst c. rewrite H. apply Nat2Z.id.
Qed.
Lemma div_mult x dt : (0 < dt)%Q -> (x * dt / dt == x)%Q.
Proof. intros H. field. lra. Qed.
Lemma ceil_horizon T dt k : (0 < dt)%Q -> (T == qn k * dt)%Q -> ceil (T / dt) = k /\ ceil ((T + dt / 2) / dt) = S k.
Proof.
  intros P E. assert (D : (T / dt == qn k)%Q) by (rewrite E; apply div_mult, P).
  assert (D2 : ((T + dt / 2) / dt == qn k + (1 # 2))%Q) by (rewrite E; field; lra).
  split; apply ceil_is; rewrite ?D, ?D2, ?qn_S; lra.
Qed.

(** Rows stamped [dt * (i0+1)], [dt * (i0+2)], ... *)
Definition stamped {S} (dt : Q) (i0 n : nat) (tr : list (Q * S)) : Prop := Forall2 (fun i r => (fst r == qn i * dt)%Q) (seq i0 n) tr.

Lemma base_stamped S (flow : S -> Q -> S) y0 T dt k : (0 < dt)%Q -> (T == qn k * dt)%Q -> on_grid 8 dt ->
  stamped dt 0 (k + 1) (base_trace flow y0 T dt).
Proof.
  intros P E G. unfold base_trace, base_times, stamped. rewrite (proj2 (@ceil_horizon T dt k P E)), Nat.add_1_r.
  generalize (Datatypes.S k) 0. induction n as [|n IH]; intros i; simpl; constructor; [|apply IH].
  apply rnd_grid; [lia|]. apply grid_mult, G.
Qed.
Lemma car_rows_stamped S (step : S -> S) dt : forall n s i, stamped dt (i + 1) n (car_rows step dt s n i).
Proof.
  unfold stamped. induction n as [|n IH]; intros s i; cbn [seq car_rows]; constructor; [simpl; ring|].
  replace (Datatypes.S (i + 1)) with ((i + 1) + 1) by lia. apply IH.
Qed.
Lemma origin_rows_stamped S (step : S -> S) dt : on_grid 10 dt -> forall n s i, stamped dt (i + 1) n (origin_rows step dt s n i).
Proof.
  intros G. unfold stamped. induction n as [|n IH]; intros s i; cbn [seq origin_rows]; constructor.
  - cbn [fst]. rewrite rnd_grid by (try lia; apply grid_mult, G). rewrite Nat.add_1_r, qn_S. ring.
  - replace (Datatypes.S (i + 1)) with ((i + 1) + 1) by lia. apply IH.
Qed.
Lemma stamped_cons S dt k (y0 : S) rows : stamped dt 1 k rows -> stamped dt 0 (k + 1) ((0%Q, y0) :: rows).
Proof.
  intros H. unfold stamped. rewrite Nat.add_1_r. cbn [seq]. constructor; [|exact H]. cbn [fst]. change (qn 0) with 0%Q. ring.
Qed.
Lemma sign_rows_stamped S (y0 : S) dt : forall n i, stamped dt (i + 1) n (map (fun i => (qn i * dt + dt, y0)%Q) (seq i n)).
Proof.
  unfold stamped. induction n as [|n IH]; intros i; cbn [seq map]; constructor.
  - cbn [fst]. rewrite Nat.add_1_r, qn_S. ring.
  - replace (Datatypes.S (i + 1)) with ((Datatypes.S i) + 1) by lia. apply IH.
Qed.

Lemma stamped_len S dt i n (tr : list (Q * S)) : stamped dt i n tr -> length tr = n.
Proof. intros H. apply Forall2_len in H. rewrite seq_length in H. lia. Qed.
Lemma stamped_app S dt i n m (a b : list (Q * S)) : stamped dt i n a -> stamped dt (i + n) m b -> stamped dt i (n + m) (a ++ b).
Proof. intros H1 H2. unfold stamped. rewrite seq_app. apply Forall2_app; assumption. Qed.

(** ** The quadrotor *)
Section Quad.
  Variable S : Type.
  Variables (limit dt : Q) (m : nat).
  Hypothesis Pdt : (0 < dt)%Q.
  Hypothesis Gdt : on_grid 4 dt.
  Hypothesis Hm : 0 < m.
  Hypothesis Hlim : (limit == qn m * dt)%Q.

  Lemma grid_diff i j : on_grid 4 (qn i * dt - qn j * dt).
  Proof.
    apply (@grid_comp 4 (inject_Z (Z.of_nat i - Z.of_nat j) * dt)%Q); [|apply grid_mult, Gdt].
    unfold Z.sub. rewrite inject_Z_plus, inject_Z_opp. unfold qn. ring.
  Qed.
  Lemma mul_lt i j : i < j -> (qn i * dt + dt <= qn j * dt)%Q.
  Proof. intros H. assert (K := qn_lt H). assert (L : ((qn i + 1) * dt <= qn j * dt)%Q) by (apply Qmult_le_compat_r; [exact K|lra]). lra. Qed.

  Lemma model_rows_stamped (step : nat -> S -> S) arrived b bound : (bound == qn b * dt)%Q ->
    forall n fuel t df s i, i + n = b -> n < fuel -> (t == qn i * dt)%Q ->
    exists rows, model_rows step arrived bound dt fuel t df s i = Some rows /\ stamped dt (i + 1) n rows.
  Proof.
    intros Eb. induction n as [|n IH]; intros fuel t df s i Hi Hf Et.
    - assert (i = b) by lia. subst i. exists []. split; [|constructor].
      destruct fuel as [|fuel]; [lia|]. cbn [model_rows].
      destruct (negb (Qle_bool bound t) || negb df) eqn:C; [|reflexivity].
      assert (R : (rnd 4 (t + dt - bound - dt) == 0)%Q).
      { rewrite (@rnd_comp 4 _ (qn b * dt - qn b * dt)) by (rewrite Et, Eb; ring). rewrite rnd_grid by (try lia; apply grid_diff). ring. }
      assert (Qle_bool 0 (rnd 4 (t + dt - bound - dt)) = true) as -> by (apply Qle_bool_iff; rewrite R; apply Qle_refl). reflexivity.
    - destruct fuel as [|fuel]; [lia|]. cbn [model_rows]. assert (L := @mul_lt i b ltac:(lia)).
      assert (Qle_bool bound t = false) as ->.
      { destruct (Qle_bool bound t) eqn:K; [|reflexivity]. apply Qle_bool_iff in K. rewrite Et, Eb in K. lra. }
      cbn [negb orb].
      assert (R : (rnd 4 (t + dt - bound - dt) < 0)%Q).
      { rewrite (@rnd_comp 4 _ (qn i * dt - qn b * dt)) by (rewrite Et, Eb; ring). rewrite rnd_grid by (try lia; apply grid_diff). lra. }
      destruct (Qle_bool 0 _) eqn:K; [apply Qle_bool_iff in K; lra|].
      destruct (IH fuel (t + dt)%Q (arrived i) (step i s) (i + 1)) as [rows [E St]]; [lia|lia|rewrite Nat.add_1_r, qn_S, Et; ring|].
      rewrite E. cbn [obind]. eexists. split; [reflexivity|]. unfold stamped. cbn [seq]. constructor.
      + cbn [fst]. rewrite Nat.add_1_r, qn_S, Et. ring.
      + replace (Datatypes.S (i + 1)) with (i + 1 + 1) by lia. exact St.
  Qed.

  Lemma run_model_stamped (step : nat -> S -> S) arrived b bound fuel s : (bound == qn b * dt)%Q -> b < fuel ->
    exists tr, run_model step arrived bound dt fuel s = Some tr /\ stamped dt 0 (b + 1) tr.
  Proof.
    intros Eb Hf. unfold run_model. destruct (@model_rows_stamped step arrived b bound Eb b fuel 0%Q false s 0) as [rows [E St]]; [lia|lia|change (qn 0) with 0%Q; ring|].
    rewrite E. cbn [obind]. eexists. split; [reflexivity|]. apply stamped_cons, St.
  Qed.

  Lemma shift_stamped (tr : list (Q * S)) tend e : (tend == qn e * dt)%Q -> forall n i, stamped dt i n tr ->
    stamped dt (e + i) n (map (fun p => (rnd 4 (fst p + tend), snd p)) tr).
  Proof.
    intros Ee. unfold stamped. induction tr as [|p tr IH]; intros n i H; destruct n as [|n]; cbn [seq map] in *; inversion H; subst; constructor.
    - cbn [fst]. rewrite (@rnd_comp 4 _ (inject_Z (Z.of_nat (e + i)) * dt)).
      + rewrite rnd_grid by (try lia; apply grid_mult, Gdt). reflexivity.
      + rewrite H3, Ee. fold (qn (e + i)). rewrite qn_plus. ring.
    - replace (Datatypes.S (e + i)) with (e + Datatypes.S i) by lia. apply IH. assumption.
  Qed.
  Lemma stamped_last (tr : list (Q * S)) i n : stamped dt i (Datatypes.S n) tr -> exists p, nth_error (rev tr) 0 = Some p /\ (fst p == qn (i + n) * dt)%Q.
  Proof.
    intros H. unfold stamped in H. rewrite seq_S in H. apply Forall2_app_inv_l in H. destruct H as [a [b [_ [H ->]]]].
    inversion H as [|? p ? b' Hp Hb]; subst. inversion Hb; subst. exists p. rewrite rev_app_distr. split; [reflexivity|exact Hp].
  Qed.

  Lemma quad_rows_stamped (step : nat -> nat -> S -> S) arrived T k : (T == qn k * dt)%Q ->
    forall fuel n e tend s j, e + n = k -> n < fuel -> m < fuel - n -> (tend == qn e * dt)%Q ->
    exists tr, quad_rows step arrived fuel limit T dt tend s j = Some tr /\
      stamped dt (if Nat.eqb e 0 then 0 else e + 1) (match n with 0 => 0 | _ => if Nat.eqb e 0 then n + 1 else n end) tr.
  Proof.
    intros ET. induction fuel as [|fuel IH]; intros n e tend s j He Hf Hm' Ee; [lia|]. cbn [quad_rows].
    destruct n as [|n].
    - assert (Qle_bool T tend = true) as -> by (apply Qle_bool_iff; rewrite ET, Ee; replace k with e by lia; apply Qle_refl).
      eexists. split; [reflexivity|constructor].
    - assert (L := @mul_lt e k ltac:(lia)).
      destruct (Qle_bool T tend) eqn:C; [apply Qle_bool_iff in C; rewrite ET, Ee in C; lra|].
      assert (Eb : ((if Qle_bool limit (T - tend) then limit else T - tend) == qn (Nat.min m (k - e)) * dt)%Q).
      { assert (D : (T - tend == qn (k - e) * dt)%Q).
        { rewrite ET, Ee. assert (Z : (qn k == qn e + qn (k - e))%Q) by (rewrite <- qn_plus; replace (e + (k - e)) with k by lia; reflexivity). rewrite Z. ring. }
        destruct (Qle_bool limit (T - tend)) eqn:Q1.
        - apply Qle_bool_iff in Q1. rewrite Hlim, D in Q1. rewrite Hlim.
          destruct (Nat.le_gt_cases m (k - e)) as [G|G]; [rewrite Nat.min_l by exact G; reflexivity|].
          assert (G' := mul_lt G). lra.
        - rewrite D. destruct (Nat.le_gt_cases (k - e) m) as [G|G]; [rewrite Nat.min_r by exact G; reflexivity|].
          exfalso. assert (G' := mul_lt G). assert (Qle_bool limit (T - tend) = true); [|congruence]. apply Qle_bool_iff. rewrite Hlim, D. lra. }
      set (b := Nat.min m (k - e)) in *. assert (Hb : 0 < b) by (unfold b; lia).
      destruct (@run_model_stamped (step j) (arrived j) b _ fuel s Eb) as [tr [Er St]]; [unfold b; lia|]. rewrite Er. cbn [obind].
      assert (Sh := shift_stamped Ee St). set (tr' := map _ tr) in *. rewrite Nat.add_0_r in Sh. rewrite Nat.add_1_r in Sh.
      destruct (stamped_last Sh) as [p [Ep Hp]]. rewrite Ep. cbn [obind].
      assert (exists f rest, tr' = f :: rest /\ (fst f == qn e * dt)%Q /\ stamped dt (e + 1) b rest) as [f [rest [Etr [Hf1 Hrest]]]].
      { unfold stamped in Sh. cbn [seq] in Sh. inversion Sh; subst. eexists; eexists. split; [reflexivity|]. split; [assumption|]. unfold stamped. rewrite Nat.add_1_r. assumption. }
      rewrite Etr. cbn [nth_error obind].
      destruct (IH (k - (e + b)) (e + b) (fst p) (snd p) (j + 1)) as [tr2 [E2 St2]]; [unfold b; lia|unfold b in *; lia|unfold b in *; lia|exact Hp|].
      rewrite E2. cbn [obind]. eexists. split; [reflexivity|].
      assert (Nat.eqb (e + b) 0 = false) as Z by (apply Nat.eqb_neq; lia). rewrite Z in St2.
      assert (Ff : (rnd 4 (fst f) == qn e * dt)%Q).
      { rewrite (rnd_comp 4 Hf1). apply rnd_grid; [lia|]. apply grid_mult, Gdt. }
      assert (St2' : stamped dt (e + b + 1) (k - (e + b)) tr2) by (destruct (k - (e + b)); exact St2).
      destruct (Nat.eqb e 0) eqn:E0.
      + apply Nat.eqb_eq in E0. subst e. destruct (Qeq_bool (rnd 4 (fst f)) 0) eqn:Q0.
        * replace (Datatypes.S n + 1) with (1 + b + (k - (0 + b))) by lia. apply (@stamped_app S dt 0 (1 + b)).
          -- unfold stamped. cbn [plus seq]. constructor; [exact Hf1|exact Hrest].
          -- replace (0 + (1 + b)) with (0 + b + 1) by lia. exact St2'.
        * exfalso. assert (Qeq_bool (rnd 4 (fst f)) 0 = true); [|congruence]. apply Qeq_bool_iff. rewrite Ff. change (qn 0) with 0%Q. ring.
      + apply Nat.eqb_neq in E0. destruct (Qeq_bool (rnd 4 (fst f)) 0) eqn:Q0.
        * exfalso. apply Qeq_bool_iff in Q0. rewrite Ff in Q0. assert (L0 := @mul_lt 0 e ltac:(lia)). change (qn 0) with 0%Q in L0. lra.
        * cbn [tl]. replace (Datatypes.S n) with (b + (k - (e + b))) by lia. apply stamped_app; [exact Hrest|].
          replace (e + 1 + b) with (e + b + 1) by lia. exact St2'.
  Qed.
End Quad.
