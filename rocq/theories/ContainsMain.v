(** Proofs about contains: what collect_ranges gathers. *)
From Verif Require Import Base BaseFacts Dict Round RoundProofs Tree TreeProofs Contains ContainsSpec ContainsProofs.
From Coq Require Import Qabs Qminmax Lqa.
Set Implicit Arguments.
Open Scope nat_scope.

Notation QN n := (inject_Z (Z.of_nat n)).
Lemma QN_S n : (QN (S n) == QN n + 1)%Q.
Proof. rewrite Nat2Z.inj_succ. unfold Z.succ. rewrite inject_Z_plus. reflexivity. Qed.
Lemma inject_Z_minus a b : (inject_Z (a - b) == inject_Z a - inject_Z b)%Q.
Proof. unfold Z.sub. rewrite inject_Z_plus, inject_Z_opp. reflexivity. Qed.
Lemma QN_le a b : (QN a <= QN b)%Q <-> a <= b.
Proof. rewrite <- Zle_Qle. lia. Qed.

Lemma qmin_fold : forall l x, (exists y, In y (x :: l) /\ (fold_left Qmin l x == y)%Q) /\ (forall y, In y (x :: l) -> (fold_left Qmin l x <= y)%Q).
Proof.
  induction l as [|a l IH]; intros x; cbn [fold_left].
  - split; [exists x; split; [left; reflexivity|reflexivity]|]. intros y [<-|[]]. apply Qle_refl.
  - destruct (IH (Qmin x a)) as [(y & I & E) M]. split.
    + destruct I as [<-|I]; [|exists y; split; [right; right; exact I|exact E]]. destruct (Q.min_spec x a) as [[_ X]|[_ X]]; [exists x|exists a]; (split; [cbn; auto|rewrite E; exact X]).
    + pose proof (M (Qmin x a) (or_introl eq_refl)) as M0. intros z [<-|[<-|I']].
      * pose proof (Q.le_min_l x a). lra.
      * pose proof (Q.le_min_r x a). lra.
      * apply M. right. exact I'.
Qed.

Section Main.
  Variable h : Q.
  Hypothesis h_pos : (0 < h)%Q.
  Hypothesis h_round : (py_round 10 h == h)%Q.
  Variables (a0 : nat) (ag' : list nat).
  Notation ag := (a0 :: ag').
  Variable cont : nat.
  Hypothesis cont_pos : 0 < cont.

  Lemma rhe_steps (x step : Q) (k : Z) : (step == h)%Q -> (x == inject_Z k * h)%Q -> round_half_even (x / step) = k.
  Proof. intros E X. rewrite (@rhe_comp (x / step) (inject_Z k)); [apply rhe_Z|]. rewrite X, E. field. intros Hz. clear -h_pos Hz. lra. Qed.
  Lemma steps_inj s s' k k' : steps_after h s s' k -> steps_after h s s' k' -> k = k'.
  Proof.
    unfold steps_after. intros A B. assert (E : (inject_Z (Z.of_nat k) * h == inject_Z (Z.of_nat k') * h)%Q) by lra.
    apply Qmult_inj_r in E; [|intros Hz; clear -h_pos Hz; lra]. apply Nat2Z.inj. apply (proj1 (inject_Z_injective _ _)). exact E.
  Qed.

  Lemma bias_eq mins step start mo : (step == h)%Q -> (mins == start + QN mo * h)%Q -> forall ss ks, Forall2 (fun s k => steps_after h start s k) ss ks ->
    map (fun s => round_half_even ((s - mins) / step)) ss = map (fun k => (Z.of_nat k - Z.of_nat mo)%Z) ks.
  Proof.
    intros St M ss ks F. induction F as [|s k ss ks Hs F IH]; [reflexivity|]. cbn [map]. rewrite IH. f_equal. apply rhe_steps; [exact St|]. unfold steps_after in Hs. rewrite Hs, M, inject_Z_minus. ring.
  Qed.

  (** ** The node's own part *)
  Lemma cur_spec len tr g : cur_of cont (2 * len) tr = Some g -> length g = len /\
    forall i j s, cell g i j = Some s <-> i < len /\ j < cont /\ exists l u, entry_at tr (2 * i) j = Some l /\ entry_at tr (2 * i + 1) j = Some u /\ s = closed l u.
  Proof.
    unfold cur_of. replace ((2 * len + 1) / 2) with len by (rewrite Nat.add_comm, Nat.mul_comm, Nat.div_add by lia; reflexivity). intros H.
    destruct (cell_mapM (fun i j => do l <- entry_at tr (2 * i) j; do u <- entry_at tr (2 * i + 1) j; Some (closed l u)) _ _ H) as [L C]. split; [exact L|]. intros i j s. rewrite C.
    destruct (entry_at tr (2 * i) j) as [l|]; cbn [obind]; [destruct (entry_at tr (2 * i + 1) j) as [u|]; cbn [obind]|]; (split; intros (A & B & D); (split; [exact A|split; [exact B|]])).
    - injection D as <-. eauto.
    - destruct D as (l' & u' & X & Y & ->). injection X as <-. injection Y as <-. reflexivity.
    - discriminate.
    - destruct D as (l' & u' & _ & Y & _). discriminate.
    - discriminate.
    - destruct D as (l' & u' & Y & _ & _). discriminate.
  Qed.
  Definition okg (g : grid) : Prop := forall i j s, cell g i j = Some s -> ok s.
  Definition full (g : grid) (L : nat) : Prop :=
    length g = L /\ (forall i j, i < L -> j < cont -> exists s, cell g i j = Some s) /\ (forall i j s, cell g i j = Some s -> i < L /\ j < cont).

  Definition own (n : cnode) (len : nat) (cur : list grid) : Prop :=
    Forall2 (fun a g => exists tr, dget Nat.eqb a (c_trace n) = Some tr /\ length tr = 2 * len /\ cur_of cont (2 * len) tr = Some g) ag cur.
  Lemma covers_own n len : covers h ag cont n len -> exists tr0 cur, dget Nat.eqb a0 (c_trace n) = Some tr0 /\ length tr0 = 2 * len /\
    mapM (fun a => do tr <- dget Nat.eqb a (c_trace n); cur_of cont (length tr0) tr) ag = Some cur /\ own n len cur /\ Forall (fun g => full g len /\ okg g) cur.
  Proof.
    intros C. destruct (C a0 (or_introl eq_refl)) as (tr0 & T0 & L0 & _). exists tr0. rewrite L0.
    assert (G : forall l, (forall a, In a l -> In a ag) -> exists cur, mapM (fun a => do tr <- dget Nat.eqb a (c_trace n); cur_of cont (2 * len) tr) l = Some cur /\
      Forall2 (fun a g => exists tr, dget Nat.eqb a (c_trace n) = Some tr /\ length tr = 2 * len /\ cur_of cont (2 * len) tr = Some g) l cur /\ Forall (fun g => full g len /\ okg g) cur).
    { induction l as [|a l IH]; intros Hl; [exists []; repeat constructor|]. destruct (IH (fun x Hx => Hl x (or_intror Hx))) as (cur & M & F & O).
      destruct (C a (Hl a (or_introl eq_refl))) as (tr & T & L & R). cbn [mapM]. rewrite T. cbn [obind].
      destruct (@total_mapM (fun i j => do l <- entry_at tr (2 * i) j; do u <- entry_at tr (2 * i + 1) j; Some (closed l u)) len cont) as (g & Hg).
      { intros i j Li Lj. destruct (R i Li) as (lo & hi & E1 & E2 & L1 & L2 & _). unfold entry_at. rewrite E1, E2. cbn [obind].
        destruct (nth_error lo j) as [x|] eqn:Ex; [|apply nth_error_None in Ex; lia]. destruct (nth_error hi j) as [y|] eqn:Ey; [|apply nth_error_None in Ey; lia]. eexists. reflexivity. }
      assert (Eg : cur_of cont (2 * len) tr = Some g).
      { unfold cur_of. replace ((2 * len + 1) / 2) with len by (rewrite Nat.add_comm, Nat.mul_comm, Nat.div_add by lia; reflexivity). exact Hg. }
      rewrite Eg. cbn [obind]. rewrite M. cbn [obind]. exists (g :: cur). split; [reflexivity|]. split; [constructor; [exists tr; auto|exact F]|]. constructor; [|exact O].
      destruct (cell_mapM _ _ _ Hg) as [Lg Cg]. split; [split; [exact Lg|split]|].
      - intros i j Li Lj. destruct (R i Li) as (lo & hi & E1 & E2 & L1 & L2 & _).
        destruct (nth_error lo j) as [x|] eqn:Ex; [|apply nth_error_None in Ex; lia]. destruct (nth_error hi j) as [y|] eqn:Ey; [|apply nth_error_None in Ey; lia].
        exists (closed x y). apply Cg. split; [exact Li|]. split; [exact Lj|]. unfold entry_at. rewrite E1, E2. cbn [obind]. rewrite Ex, Ey. reflexivity.
      - intros i j s E. apply Cg in E. tauto.
      - intros i j s E. apply (proj2 (cur_spec _ _ Eg)) in E. destruct E as (_ & _ & l0 & u0 & _ & _ & ->). apply ok_closed. }
    destruct (G ag (fun _ H => H)) as (cur & M & F & O). exists cur. auto.
  Qed.
  Lemma covers_times n len tr0 : 0 < len -> covers h ag cont n len -> dget Nat.eqb a0 (c_trace n) = Some tr0 ->
    exists last prev, entry_at tr0 (length tr0 - 1) 0 = Some last /\ (length tr0 <? 2) = false /\ entry_at tr0 (length tr0 - 2) 0 = Some prev /\
      (last == c_start n + QN len * h)%Q /\ (last - prev == h)%Q.
  Proof.
    intros Lp C T. destruct (C a0 (or_introl eq_refl)) as (tr & T' & L & R). rewrite T in T'. injection T' as <-. destruct (R (len - 1)) as (lo & hi & E1 & E2 & L1 & L2 & Q1 & Q2); [lia|].
    replace (length tr0 - 1) with (2 * (len - 1) + 1) by lia. replace (length tr0 - 2) with (2 * (len - 1)) by lia. unfold entry_at. rewrite E1, E2. cbn [obind].
    destruct lo as [|x lo]; [cbn in L1; lia|]. destruct hi as [|y hi]; [cbn in L2; lia|]. exists y, x. cbn [nth_error nth] in *. replace (S (len - 1)) with len in Q2 by lia.
    assert (QL : (QN len == QN (len - 1) + 1)%Q) by (rewrite <- QN_S; replace (S (len - 1)) with len by lia; reflexivity).
    repeat split; [apply Nat.ltb_ge; lia|exact Q2|]. rewrite Q1, Q2, QL. ring.
  Qed.

  (** ** Joining the children *)
  Definition has (gs : list grid) (p i j : nat) (x : Q) : Prop := exists g s, nth_error gs p = Some g /\ cell g i j = Some s /\ mem x s.
  Lemma parts_nth p i j : forall children bias lens xs, parts p i j children bias lens = Some xs ->
    forall k s, nth_error xs k = Some s -> exists c b l, nth_error children k = Some c /\ nth_error bias k = Some b /\ nth_error lens k = Some l /\ part p i j c b l = Some s.
  Proof.
    induction children as [|c cs IH]; intros bias lens xs H k s Hk; cbn [parts] in H; [injection H as <-; destruct k; discriminate|].
    destruct bias as [|b bs]; [injection H as <-; destruct k; discriminate|]. destruct lens as [|l ls]; [injection H as <-; destruct k; discriminate|].
    destruct (part p i j c b l) as [x|] eqn:E; [|discriminate]. cbn [obind] in H. destruct (parts p i j cs bs ls) as [xs'|] eqn:E2; [|discriminate]. cbn [obind] in H. injection H as <-.
    destruct k as [|k]; cbn in Hk; [injection Hk as <-; exists c, b, l; auto|]. exact (IH _ _ _ E2 _ _ Hk).
  Qed.
  Lemma parts_nth_inv p i j : forall children bias lens xs, parts p i j children bias lens = Some xs ->
    forall k c b l, nth_error children k = Some c -> nth_error bias k = Some b -> nth_error lens k = Some l -> exists s, nth_error xs k = Some s /\ part p i j c b l = Some s.
  Proof.
    induction children as [|c0 cs IH]; intros bias lens xs H k c b l H1 H2 H3; [destruct k; discriminate|]. destruct bias as [|b0 bs]; [destruct k; discriminate|]. destruct lens as [|l0 ls]; [destruct k; discriminate|].
    cbn [parts] in H. destruct (part p i j c0 b0 l0) as [x|] eqn:E; [|discriminate]. cbn [obind] in H. destruct (parts p i j cs bs ls) as [xs'|] eqn:E2; [|discriminate]. cbn [obind] in H. injection H as <-.
    destruct k as [|k]; cbn in *; [injection H1 as <-; injection H2 as <-; injection H3 as <-; eauto|]. exact (IH _ _ _ E2 _ _ _ _ H1 H2 H3).
  Qed.
  Lemma parts_total p i j : forall children bias lens,
    (forall k c b l, nth_error children k = Some c -> nth_error bias k = Some b -> nth_error lens k = Some l -> exists s, part p i j c b l = Some s) ->
    exists xs, parts p i j children bias lens = Some xs.
  Proof.
    induction children as [|c cs IH]; intros [|b bs] [|l ls] H; try (eexists; reflexivity). cbn [parts]. destruct (H 0 c b l) as (s & ->); auto. cbn [obind].
    destruct (IH bs ls) as (xs & ->); [intros k; apply (H (S k))|]. eexists. reflexivity.
  Qed.

  Variable n : cnode.
  Variable len : nat.
  Hypothesis len_pos : 0 < len.
  Hypothesis n_covers : covers h ag cont n len.

  Section Join.
    Variable tr0 : list vec.
    Variable cur : list grid.
    Variable children : list (list grid).
    Variable starts : list Q.
    Variable offs : list nat.
    Hypothesis T0 : dget Nat.eqb a0 (c_trace n) = Some tr0.
    Hypothesis cur_full : Forall (fun g => full g len /\ okg g) cur.
    Hypothesis cur_len : length cur = length ag.
    Hypothesis chs : Forall (fun c => Forall okg c) children.
    Hypothesis offs_ok : Forall2 (fun s k => steps_after h (c_start n) s k) starts offs.
    Hypothesis nonempty : starts <> [].
    Hypothesis early : exists k, In k offs /\ k < len.
    Hypothesis same_len : length children = length starts.

    Lemma min_off mins : qmin_list starts = Some mins -> exists mo, In mo offs /\ (forall k, In k offs -> mo <= k) /\ (mins == c_start n + QN mo * h)%Q.
    Proof.
      intros H. destruct starts as [|s r] eqn:Es; [contradiction|]. cbn in H. injection H as <-. destruct (qmin_fold r s) as [(y & I & E) M].
      rewrite <- Es in *. apply In_nth_error in I. destruct I as (q & Hq). destruct (Forall2_nth_l _ offs_ok Hq) as (mo & Hmo & Hs). exists mo. split; [eapply nth_error_In; exact Hmo|]. unfold steps_after in Hs. split; [|rewrite E; exact Hs].
      intros k Hk. apply In_nth_error in Hk. destruct Hk as (q' & Hq'). destruct (Forall2_nth_r _ offs_ok Hq') as (y' & Hy' & Hs'). unfold steps_after in Hs'. specialize (M y' (nth_error_In _ _ Hy')). rewrite E, Hs, Hs' in M.
      assert (X : (QN mo * h <= QN k * h)%Q) by lra. apply Qmult_le_r in X; [|exact h_pos]. apply QN_le in X. exact X.
    Qed.

    Definition lens := map (fun c : list grid => length (hd [] c)) children.
    (** The rows of the children, relative to the earliest one. *)
    Definition biasof (mo : nat) := map (fun k => (Z.of_nat k - Z.of_nat mo)%Z) offs.
    Lemma comb_sound mo p k i j s x : (forall o, In o offs -> mo <= o) -> combined cont children (biasof mo) lens p = Some k -> cell k i j = Some s ->
      ok s /\ (mem x s -> exists q c o i', nth_error children q = Some c /\ nth_error offs q = Some o /\ mo + i = o + i' /\ has c p i' j x).
    Proof.
      intros Mo H E. destruct (cell_mapM (fun i j => do xs <- parts p i j children (biasof mo) lens; reduce xs) _ _ H) as [_ C]. apply C in E. destruct E as (_ & _ & E).
      destruct (parts p i j children (biasof mo) lens) as [xs|] eqn:Ep; [|discriminate]. cbn [obind] in E. destruct xs as [|x0 xs]; [discriminate|]. cbn in E. injection E as <-.
      assert (Each : forall s, In s (x0 :: xs) -> ok s /\ (mem x s -> exists q c o i', nth_error children q = Some c /\ nth_error offs q = Some o /\ mo + i = o + i' /\ has c p i' j x)).
      { intros s I. apply In_nth_error in I. destruct I as (q & Hq). destruct (parts_nth _ _ _ _ _ _ Ep _ Hq) as (c & b & l & H1 & H2 & H3 & H4). unfold part in H4.
        unfold biasof in H2. rewrite nth_error_map in H2. destruct (nth_error offs q) as [o|] eqn:Eo; [|discriminate]. cbn in H2. injection H2 as <-.
        destruct ((0 <=? Z.of_nat i - (Z.of_nat o - Z.of_nat mo))%Z && (Z.of_nat i - (Z.of_nat o - Z.of_nat mo) <? Z.of_nat l)%Z) eqn:Eb.
        - apply andb_prop in Eb. destruct Eb as [Eb _]. apply Z.leb_le in Eb. destruct (nth_error c p) as [g|] eqn:Eg; [|discriminate]. cbn [obind] in H4. split.
          + pose proof chs as CH. rewrite Forall_forall in CH. specialize (CH c (nth_error_In _ _ H1)). rewrite Forall_forall in CH. eapply CH; [eapply nth_error_In; exact Eg|exact H4].
          + intros Mx. exists q, c, o, (Z.to_nat (Z.of_nat i - (Z.of_nat o - Z.of_nat mo))). repeat split; auto; [pose proof (Mo o (nth_error_In _ _ Eo)); lia|]. exists g, s. auto.
        - injection H4 as <-. split; [constructor|]. intros (y & [] & _). }
      assert (Ok0 : ok x0) by (apply Each; left; reflexivity). assert (Oks : Forall ok xs) by (apply Forall_forall; intros y Hy; apply Each; right; exact Hy).
      split; [apply ok_folds; assumption|]. rewrite mem_folds by assumption. intros [M|(y & Iy & M)]; [apply (Each x0 (or_introl eq_refl)); exact M|apply (Each y (or_intror Iy)); exact M].
    Qed.

    (** The pieces of a successful join. *)
    Lemma join_parts R : join ag cont tr0 cur children starts = Some R ->
      exists mo, (forall o, In o offs -> mo <= o) /\ In mo offs /\ mo < len /\ forall p g, nth_error R p = Some g -> exists c k o,
        nth_error cur p = Some c /\ combined cont children (biasof mo) lens p = Some k /\ overlap cont c k (Z.of_nat (len - mo)) = Some o /\
        g = firstn mo c ++ o ++ skipn (len - mo) k.
    Proof.
      intros J. unfold join in J. destruct (covers_times len_pos n_covers T0) as (last & prev & E1 & E2 & E3 & E4 & E5). rewrite E1, E2, E3 in J. cbn [obind] in J.
      destruct (qmin_list starts) as [mins|] eqn:Em; [|discriminate]. cbn [obind] in J. destruct (min_off Em) as (mo & M1 & M2 & M3).
      assert (St : (py_round 10 (last - prev) == h)%Q) by (rewrite (py_round_comp 10 E5); exact h_round).
      destruct (Qeq_bool (py_round 10 (last - prev)) 0) eqn:Ez; [discriminate|].
      assert (Bi : map (fun s => round_half_even ((s - mins) / py_round 10 (last - prev))) starts = biasof mo).
      { unfold biasof. apply bias_eq with (start := c_start n); assumption. }
      assert (Ov : round_half_even ((last - mins) / py_round 10 (last - prev)) = Z.of_nat (len - mo)).
      { destruct early as (k & Ik & Lk). pose proof (M2 k Ik). apply rhe_steps; [exact St|]. rewrite E4, M3, Nat2Z.inj_sub, inject_Z_minus by lia. ring. }
      rewrite Bi, Ov in J. fold lens in J. destruct (mapM (combined cont children (biasof mo) lens) (seq 0 (length ag))) as [comb|] eqn:Ec; [|discriminate]. cbn [obind] in J.
      destruct (mapM (fun p => do c <- nth_error cur p; do k <- nth_error comb p; overlap cont c k (Z.of_nat (len - mo))) (seq 0 (length ag))) as [over|] eqn:Eo; [|discriminate]. cbn [obind] in J.
      destruct early as (k0 & Ik & Lk). pose proof (M2 k0 Ik). exists mo. split; [exact M2|]. split; [exact M1|]. split; [lia|]. intros p g Hg.
      apply (mapM_seq_get _ _ J) in Hg. destruct Hg as [Lp Hg]. destruct (nth_error cur p) as [c|] eqn:Ecur; [|discriminate]. destruct (nth_error over p) as [o|] eqn:Eover; [|discriminate].
      destruct (nth_error comb p) as [k|] eqn:Ecomb; [|discriminate]. cbn [obind] in Hg. injection Hg as <-.
      apply (mapM_seq_get _ _ Ec) in Ecomb. destruct Ecomb as [_ Ecomb]. assert (Ecomb' := proj2 (mapM_seq_get _ _ Ec p k) (conj Lp Ecomb)).
      apply (mapM_seq_get _ _ Eo) in Eover. destruct Eover as [_ Eover]. rewrite Ecur, Ecomb' in Eover. cbn [obind] in Eover.
      exists c, k, o. repeat split; auto. pose proof cur_full as CF. rewrite Forall_forall in CF. destruct (CF c (nth_error_In _ _ Ecur)) as [(Lc & _) _].
      unfold slice_to, slice_from. destruct (0 <=? - Z.of_nat (len - mo))%Z eqn:Eneg; [apply Z.leb_le in Eneg; lia|]. assert (Epos : (0 <=? Z.of_nat (len - mo))%Z = true) by (apply Z.leb_le; lia). rewrite Epos, Nat2Z.id, Lc.
      replace (Z.to_nat (Z.of_nat len + - Z.of_nat (len - mo))) with mo by lia. reflexivity.
    Qed.

    Lemma overlap_spec c k o mo : mo < len -> length c = len -> overlap cont c k (Z.of_nat (len - mo)) = Some o -> length o = len - mo /\
      forall m j s, cell o m j = Some s <-> m < len - mo /\ j < cont /\ exists a b, cell c (mo + m) j = Some a /\ cell k m j = Some b /\ s = union a b.
    Proof.
      intros Lm Lc H. unfold overlap in H. rewrite Nat2Z.id, Lc in H.
      destruct (cell_mapM (fun m j => if (Z.of_nat len <? Z.of_nat (len - mo))%Z then None else do x <- cell c (len - (len - mo) + m) j; do y <- cell k m j; Some (union x y)) _ _ H) as [Lo C]. split; [exact Lo|]. intros m j s. rewrite C.
      assert (E : (Z.of_nat len <? Z.of_nat (len - mo))%Z = false) by (apply Z.ltb_ge; lia). rewrite E. replace (len - (len - mo) + m) with (mo + m) by lia.
      split; intros (A & B & D); (split; [exact A|split; [exact B|]]).
      - destruct (cell c (mo + m) j) as [a|]; [|discriminate]. destruct (cell k m j) as [b|]; [|discriminate]. cbn in D. injection D as <-. eauto.
      - destruct D as (a & b & -> & -> & ->). reflexivity.
    Qed.

    Lemma join_sound R : join ag cont tr0 cur children starts = Some R -> Forall okg R /\ forall p i j x, has R p i j x ->
      has cur p i j x \/ exists q c o i', nth_error children q = Some c /\ nth_error offs q = Some o /\ i = o + i' /\ has c p i' j x.
    Proof.
      intros J. destruct (join_parts J) as (mo & M1 & M2 & M3 & P).
      assert (Each : forall p g i j s, nth_error R p = Some g -> cell g i j = Some s -> ok s /\ forall x, mem x s ->
        has cur p i j x \/ exists q c o i', nth_error children q = Some c /\ nth_error offs q = Some o /\ i = o + i' /\ has c p i' j x).
      { intros p g i j s Hg Hs. destruct (P p g Hg) as (c & k & o & Hc & Hk & Ho & ->). pose proof cur_full as CF. rewrite Forall_forall in CF. destruct (CF c (nth_error_In _ _ Hc)) as [(Lc & Fc & _) Oc].
        destruct (@overlap_spec c k o mo M3 Lc Ho) as [Lo Co]. rewrite (@cell_glue c o k mo (len - mo)) in Hs by (rewrite ?Lc; lia).
        destruct (i <? mo) eqn:E1.
        - split; [eapply Oc; exact Hs|]. intros x Mx. left. exists c, s. auto.
        - apply Nat.ltb_ge in E1. rewrite Lc in Hs. destruct (i <? len) eqn:E2.
          + apply Nat.ltb_lt in E2. apply Co in Hs. destruct Hs as (_ & _ & a & b & Ha & Hb & ->). replace (mo + (i - mo)) with i in Ha by lia. assert (Oa := Oc _ _ _ Ha).
            assert (Ob : ok b) by exact (proj1 (@comb_sound mo p k (i - mo) j b 0%Q M1 Hk Hb)). split; [apply ok_union; assumption|]. intros x. rewrite mem_union by assumption. intros [Mx|Mx]; [left; exists c, a; auto|].
            right. destruct (proj2 (@comb_sound mo p k (i - mo) j b x M1 Hk Hb) Mx) as (q & cc & oo & i' & X1 & X2 & X3 & X4). exists q, cc, oo, i'. repeat split; auto. lia.
          + split; [exact (proj1 (@comb_sound mo p k (i - mo) j s 0%Q M1 Hk Hs))|]. intros x Mx. right. destruct (proj2 (@comb_sound mo p k (i - mo) j s x M1 Hk Hs) Mx) as (q & cc & oo & i' & X1 & X2 & X3 & X4). exists q, cc, oo, i'. repeat split; auto. lia. }
      split.
      - apply Forall_forall. intros g Ig. apply In_nth_error in Ig. destruct Ig as (p & Hp). intros i j s Hs. eapply Each; eassumption.
      - intros p i j x (g & s & Hg & Hs & Mx). exact (proj2 (Each p g i j s Hg Hs) x Mx).
    Qed.

    (** With every child running to the same row, nothing is lost. *)
    Variable W : nat.
    Hypothesis len_W : len <= W.
    Hypothesis child_full : Forall2 (fun c k => k <= W /\ length c = length ag /\ Forall (fun g => full g (W - k)) c) children offs.

    Lemma child_nth q c o : nth_error children q = Some c -> nth_error offs q = Some o -> o <= W /\ length c = length ag /\ Forall (fun g => full g (W - o)) c /\ nth_error lens q = Some (W - o).
    Proof.
      intros Hc Ho. destruct (Forall2_nth_l _ child_full Hc) as (o' & Ho' & A & B & D). rewrite Ho in Ho'. injection Ho' as <-. repeat split; auto. unfold lens. rewrite nth_error_map, Hc. cbn. f_equal.
      destruct c as [|g c]; [cbn in B; lia|]. apply Forall_cons_iff in D. destruct D as [(D & _) _]. exact D.
    Qed.
    Lemma lens_max mo : In mo offs -> (forall o, In o offs -> mo <= o) -> list_max lens = W - mo.
    Proof.
      intros I M. apply In_nth_error in I. destruct I as (q & Hq). assert (exists c, nth_error children q = Some c) as (c & Hc).
      { destruct (nth_error children q) eqn:E; [eauto|]. apply nth_error_None in E. assert (q < length offs) by (apply nth_error_Some; rewrite Hq; discriminate). pose proof (Forall2_len child_full). lia. }
      destruct (child_nth _ Hc Hq) as (A & B & D & L). apply Nat.le_antisymm.
      - apply list_max_le. apply Forall_forall. intros l Il. apply In_nth_error in Il. destruct Il as (q' & Hl). assert (exists c', nth_error children q' = Some c') as (c' & Hc').
        { unfold lens in Hl. rewrite nth_error_map in Hl. destruct (nth_error children q') eqn:E; [eauto|discriminate]. }
        destruct (Forall2_nth_l _ child_full Hc') as (o' & Ho' & _). destruct (child_nth _ Hc' Ho') as (_ & _ & _ & L'). rewrite Hl in L'. injection L' as ->. pose proof (M o' (nth_error_In _ _ Ho')). lia.
      - apply list_max_ge. eapply nth_error_In. exact L.
    Qed.
    Lemma comb_total mo p : In mo offs -> (forall o, In o offs -> mo <= o) -> p < length ag -> exists k, combined cont children (biasof mo) lens p = Some k /\ full k (W - mo) /\
      forall q c o i j x, nth_error children q = Some c -> nth_error offs q = Some o -> has c p i j x -> i < W - o -> exists s, cell k (o + i - mo) j = Some s /\ mem x s.
    Proof.
      intros I M Lp.
      assert (Part : forall i j q c b l, nth_error children q = Some c -> nth_error (biasof mo) q = Some b -> nth_error lens q = Some l -> j < cont -> exists s, part p i j c b l = Some s /\ ok s).
      { intros i j q c b l Hc Hb Hl Lj. unfold biasof in Hb. rewrite nth_error_map in Hb. destruct (nth_error offs q) as [o|] eqn:Eo; [|discriminate]. cbn in Hb. injection Hb as <-.
        destruct (child_nth _ Hc Eo) as (A & B & D & L). rewrite Hl in L. injection L as ->. unfold part.
        destruct ((0 <=? Z.of_nat i - (Z.of_nat o - Z.of_nat mo))%Z && (Z.of_nat i - (Z.of_nat o - Z.of_nat mo) <? Z.of_nat (W - o))%Z) eqn:Eb; [|eexists; split; [reflexivity|constructor]].
        apply andb_prop in Eb. destruct Eb as [Ea Eb]. apply Z.leb_le in Ea. apply Z.ltb_lt in Eb. destruct (nth_error c p) as [g|] eqn:Eg; [|apply nth_error_None in Eg; rewrite B in Eg; lia]. cbn [obind].
        rewrite Forall_forall in D. destruct (D g (nth_error_In _ _ Eg)) as (_ & F & _). destruct (F (Z.to_nat (Z.of_nat i - (Z.of_nat o - Z.of_nat mo))) j) as (s & Hs); [lia|exact Lj|]. exists s. split; [exact Hs|].
        pose proof chs as CH. rewrite Forall_forall in CH. specialize (CH c (nth_error_In _ _ Hc)). rewrite Forall_forall in CH. eapply CH; [eapply nth_error_In; exact Eg|exact Hs]. }
      assert (NE : children <> []) by (intros E; rewrite E in same_len; cbn in same_len; destruct starts; [contradiction|discriminate]).
      assert (Cell : forall i j, j < cont -> exists xs x0 r, parts p i j children (biasof mo) lens = Some xs /\ xs = x0 :: r /\ Forall ok xs).
      { intros i j Lj. destruct (@parts_total p i j children (biasof mo) lens) as (xs & Hx); [intros k c b l H1 H2 H3; destruct (Part i j k c b l H1 H2 H3 Lj) as (s & Hs & _); eauto|].
        assert (Ok : Forall ok xs).
        { apply Forall_forall. intros s Is. apply In_nth_error in Is. destruct Is as (q & Hq). destruct (parts_nth _ _ _ _ _ _ Hx _ Hq) as (c & b & l & H1 & H2 & H3 & H4). destruct (Part i j q c b l H1 H2 H3 Lj) as (s' & Hs & O). rewrite H4 in Hs. injection Hs as <-. exact O. }
        destruct xs as [|x0 r]; [|exists (x0 :: r), x0, r; auto]. exfalso. destruct children as [|c cs] eqn:Ec; [contradiction|]. rewrite <- Ec in *.
        assert (H1 : nth_error children 0 = Some c) by (rewrite Ec; reflexivity). destruct (Forall2_nth_l _ child_full H1) as (o & Ho & _). destruct (child_nth _ H1 Ho) as (_ & _ & _ & L).
        destruct (@parts_nth_inv _ _ _ _ _ _ _ Hx 0 c (Z.of_nat o - Z.of_nat mo)%Z (W - o)) as (s & Hs & _); [exact H1|unfold biasof; rewrite nth_error_map, Ho; reflexivity|exact L|]. discriminate. }
      destruct (@total_mapM (fun i j => do xs <- parts p i j children (biasof mo) lens; reduce xs) (list_max lens) cont) as (k & Hk).
      { intros i j _ Lj. destruct (Cell i j Lj) as (xs & x0 & r & E & -> & _). rewrite E. eexists. reflexivity. }
      exists k. split; [exact Hk|]. destruct (cell_mapM _ _ _ Hk) as [Lk Ck]. rewrite (lens_max I M) in *. split.
      - split; [exact Lk|]. split; [|intros i j s Hs; apply Ck in Hs; tauto]. intros i j Li Lj. destruct (Cell i j Lj) as (xs & x0 & r & E & -> & _). eexists. apply Ck. split; [exact Li|]. split; [exact Lj|]. rewrite E. reflexivity.
      - intros q c o i j x Hc Ho (g & s & Hg & Hs & Mx) Li. destruct (child_nth _ Hc Ho) as (A & B & D & L). pose proof (M o (nth_error_In _ _ Ho)) as Mo.
        rewrite Forall_forall in D. destruct (D g (nth_error_In _ _ Hg)) as (Lg & _ & Fg). destruct (Fg _ _ _ Hs) as [_ Lj].
        destruct (Cell (o + i - mo) j Lj) as (xs & x0 & r & E & -> & Ok). exists (fold_left union r x0). apply Forall_cons_iff in Ok. destruct Ok as [Ok0 Okr]. split.
        + apply Ck. split; [lia|]. split; [exact Lj|]. rewrite E. reflexivity.
        + destruct (@parts_nth_inv _ _ _ _ _ _ _ E q c (Z.of_nat o - Z.of_nat mo)%Z (W - o)) as (s' & Hs' & Hp); [exact Hc|unfold biasof; rewrite nth_error_map, Ho; reflexivity|exact L|].
          unfold part in Hp. replace (Z.of_nat (o + i - mo) - (Z.of_nat o - Z.of_nat mo))%Z with (Z.of_nat i) in Hp by lia.
          assert (Eb : ((0 <=? Z.of_nat i)%Z && (Z.of_nat i <? Z.of_nat (W - o))%Z) = true) by (apply andb_true_intro; split; [apply Z.leb_le|apply Z.ltb_lt]; lia).
          rewrite Eb, Hg, Nat2Z.id in Hp. cbn [obind] in Hp. rewrite Hs in Hp. injection Hp as <-. rewrite mem_folds by assumption.
          destruct q as [|q]; cbn in Hs'; [injection Hs' as ->; left; exact Mx|right; exists s; split; [eapply nth_error_In; exact Hs'|exact Mx]].
    Qed.

    Lemma join_complete : exists R, join ag cont tr0 cur children starts = Some R /\ length R = length ag /\ Forall (fun g => full g W) R /\
      (forall p i j x, has cur p i j x -> has R p i j x) /\
      (forall q c o p i j x, nth_error children q = Some c -> nth_error offs q = Some o -> has c p i j x -> has R p (o + i) j x).
    Proof.
      destruct (covers_times len_pos n_covers T0) as (last & prev & E1 & E2 & E3 & E4 & E5).
      assert (exists mins, qmin_list starts = Some mins) as (mins & Em) by (destruct starts; [contradiction|eexists; reflexivity]). destruct (min_off Em) as (mo & M1 & M2 & M3).
      assert (St : (py_round 10 (last - prev) == h)%Q) by (rewrite (py_round_comp 10 E5); exact h_round).
      assert (Ez : Qeq_bool (py_round 10 (last - prev)) 0 = false) by (destruct (Qeq_bool _ 0) eqn:E; [apply Qeq_bool_iff in E; lra|reflexivity]).
      assert (Lmo : mo < len) by (destruct early as (k & Ik & Lk); pose proof (M2 k Ik); lia).
      assert (Bi : map (fun s => round_half_even ((s - mins) / py_round 10 (last - prev))) starts = biasof mo).
      { unfold biasof. apply bias_eq with (start := c_start n); assumption. }
      assert (Ov : round_half_even ((last - mins) / py_round 10 (last - prev)) = Z.of_nat (len - mo)).
      { apply rhe_steps; [exact St|]. rewrite E4, M3, Nat2Z.inj_sub, inject_Z_minus by lia. ring. }
      assert (Comb : exists comb, mapM (combined cont children (biasof mo) lens) (seq 0 (length ag)) = Some comb).
      { apply mapM_seq_total. intros p Lp. destruct (comb_total M1 M2 Lp) as (k & Hk & _). eauto. }
      destruct Comb as (comb & Ec).
      assert (Cur : forall p, p < length ag -> exists c, nth_error cur p = Some c /\ full c len /\ okg c).
      { intros p Lp. destruct (nth_error cur p) as [c|] eqn:E; [|apply nth_error_None in E; lia]. exists c. split; [reflexivity|]. pose proof cur_full as CF. rewrite Forall_forall in CF. apply CF. eapply nth_error_In. exact E. }
      assert (Over : exists over, mapM (fun p => do c <- nth_error cur p; do k <- nth_error comb p; overlap cont c k (Z.of_nat (len - mo))) (seq 0 (length ag)) = Some over).
      { apply mapM_seq_total. intros p Lp. destruct (Cur p Lp) as (c & Hc & (Lc & Fc & _) & _). destruct (comb_total M1 M2 Lp) as (k & Hk & (Lk & Fk & _) & _).
        rewrite Hc, (proj2 (mapM_seq_get _ _ Ec p k) (conj Lp Hk)). cbn [obind]. unfold overlap. rewrite Nat2Z.id, Lc.
        apply (@total_mapM (fun m j => if (Z.of_nat len <? Z.of_nat (len - mo))%Z then None else do x <- cell c (len - (len - mo) + m) j; do y <- cell k m j; Some (union x y))).
        intros m j Lm Lj. assert (E : (Z.of_nat len <? Z.of_nat (len - mo))%Z = false) by (apply Z.ltb_ge; lia). rewrite E. destruct (Fc (len - (len - mo) + m) j) as (s & ->); [lia|exact Lj|]. destruct (Fk m j) as (s' & ->); [lia|exact Lj|]. eexists. reflexivity. }
      destruct Over as (over & Eo).
      assert (Res : exists R, join ag cont tr0 cur children starts = Some R /\ length R = length ag).
      { unfold join. rewrite E1, E2, E3. cbn [obind]. rewrite Em. cbn [obind]. rewrite Ez, Bi, Ov. fold lens. rewrite Ec. cbn [obind]. rewrite Eo. cbn [obind].
        match goal with |- exists R, mapM ?f _ = Some R /\ _ => destruct (@mapM_seq_total _ f (length ag)) as (R & HR) end.
        - intros p Lp. destruct (Cur p Lp) as (c & -> & _). destruct (comb_total M1 M2 Lp) as (k & Hk & _). rewrite (proj2 (mapM_seq_get _ _ Ec p k) (conj Lp Hk)).
          destruct (nth_error over p) as [o|] eqn:E; [|apply nth_error_None in E; rewrite (mapM_seq_len _ _ Eo) in E; lia]. eexists. reflexivity.
        - exists R. split; [exact HR|]. apply (mapM_seq_len _ _ HR). }
      destruct Res as (R & J & LR). exists R. split; [exact J|]. split; [exact LR|]. destruct (join_parts J) as (mo' & N1 & N2 & N3 & P). assert (mo' = mo) as -> by (pose proof (N1 mo M1); pose proof (M2 mo' N2); lia).
      assert (Shape : forall p g, nth_error R p = Some g -> exists c k, nth_error cur p = Some c /\ combined cont children (biasof mo) lens p = Some k /\ full c len /\ okg c /\ full k (W - mo) /\ okg k /\ length g = W /\
        forall i j, cell g i j = if i <? mo then cell c i j else if i <? len then (do a <- cell c i j; do b <- cell k (i - mo) j; Some (union a b)) else cell k (i - mo) j).
      { intros p g Hg. destruct (P p g Hg) as (c & k & o & Hc & Hk & Ho & ->). assert (Lp : p < length ag) by (rewrite <- cur_len; apply nth_error_Some; rewrite Hc; discriminate).
        destruct (Cur p Lp) as (c' & Hc' & Fc & Oc). rewrite Hc in Hc'. injection Hc' as <-. destruct (comb_total M1 M2 Lp) as (k' & Hk' & Fk & _). rewrite Hk in Hk'. injection Hk' as <-.
        assert (Ok : okg k) by (intros i j s Hs; exact (proj1 (@comb_sound mo p k i j s 0%Q M2 Hk Hs))).
        pose proof Fc as (Lc & Fc1 & Fc2). pose proof Fk as (Lk & Fk1 & Fk2). destruct (@overlap_spec c k o mo Lmo Lc Ho) as [Lo Co]. exists c, k. repeat (split; [assumption|]). split.
        - rewrite !app_length, firstn_length, skipn_length. lia.
        - intros i j. rewrite (@cell_glue c o k mo (len - mo)) by (rewrite ?Lc; lia). rewrite Lc. destruct (i <? mo) eqn:X1; [reflexivity|]. apply Nat.ltb_ge in X1. destruct (i <? len) eqn:X2; [|reflexivity]. apply Nat.ltb_lt in X2.
          destruct (cell c i j) as [a|] eqn:Ea; cbn [obind].
          + destruct (Fc2 _ _ _ Ea) as [_ Lj]. destruct (Fk1 (i - mo) j) as (b & Eb); [lia|exact Lj|]. rewrite Eb. cbn [obind]. apply Co. split; [lia|]. split; [exact Lj|]. exists a, b. replace (mo + (i - mo)) with i by lia. auto.
          + destruct (cell o (i - mo) j) as [s|] eqn:Es; [|reflexivity]. apply Co in Es. destruct Es as (_ & _ & a & b & Ha & _). replace (mo + (i - mo)) with i in Ha by lia. congruence. }
      split; [|split].
      - apply Forall_forall. intros g Ig. apply In_nth_error in Ig. destruct Ig as (p & Hp). destruct (Shape p g Hp) as (c & k & _ & _ & (Lc & Fc1 & Fc2) & _ & (Lk & Fk1 & Fk2) & _ & Lg & C). split; [exact Lg|]. split.
        + intros i j Li Lj. rewrite C. destruct (i <? mo) eqn:X1; [apply Nat.ltb_lt in X1; apply Fc1; [lia|exact Lj]|]. apply Nat.ltb_ge in X1. destruct (i <? len) eqn:X2.
          * apply Nat.ltb_lt in X2. destruct (Fc1 i j X2 Lj) as (a & ->). destruct (Fk1 (i - mo) j) as (b & ->); [lia|exact Lj|]. eexists. reflexivity.
          * apply Fk1; [lia|exact Lj].
        + intros i j s Hs. rewrite C in Hs. destruct (i <? mo) eqn:X1; [destruct (Fc2 _ _ _ Hs); split; [lia|assumption]|]. apply Nat.ltb_ge in X1. destruct (i <? len) eqn:X2.
          * apply Nat.ltb_lt in X2. destruct (cell c i j) as [a|] eqn:Ea; [|discriminate]. destruct (Fc2 _ _ _ Ea). split; [lia|assumption].
          * destruct (Fk2 _ _ _ Hs). split; [lia|assumption].
      - intros p i j x (c' & s & Hc' & Hs & Mx). assert (exists g, nth_error R p = Some g) as (g & Hg).
        { destruct (nth_error R p) eqn:E; [eauto|]. apply nth_error_None in E. assert (p < length cur) by (apply nth_error_Some; rewrite Hc'; discriminate). lia. }
        destruct (Shape p g Hg) as (c & k & Hc & Hk & (Lc & Fc1 & Fc2) & Oc & (Lk & Fk1 & Fk2) & Ok & Lg & C). rewrite Hc in Hc'. injection Hc' as <-. destruct (Fc2 _ _ _ Hs) as [Li Lj].
        destruct (i <? mo) eqn:X1; [exists g, s; rewrite C, X1; auto|]. apply Nat.ltb_ge in X1. destruct (Fk1 (i - mo) j) as (b & Eb); [lia|exact Lj|].
        exists g, (union s b). split; [exact Hg|]. rewrite C. apply Nat.ltb_ge in X1. rewrite X1. apply Nat.ltb_lt in Li. rewrite Li, Hs, Eb. split; [reflexivity|]. apply mem_union; [eapply Oc; exact Hs|eapply Ok; exact Eb|left; exact Mx].
      - intros q c' o p i j x Hc' Ho Hx. pose proof (M2 o (nth_error_In _ _ Ho)) as Mo. destruct (child_nth _ Hc' Ho) as (A & B & D & _).
        assert (Lp : p < length ag) by (destruct Hx as (g0 & s0 & Hg0 & _); rewrite <- B; apply nth_error_Some; rewrite Hg0; discriminate).
        assert (Li : i < W - o) by (destruct Hx as (g0 & s0 & Hg0 & Hs0 & _); rewrite Forall_forall in D; destruct (D g0 (nth_error_In _ _ Hg0)) as (_ & _ & F); apply (F _ _ _ Hs0)).
        assert (exists g, nth_error R p = Some g) as (g & Hg) by (destruct (nth_error R p) eqn:E; [eauto|apply nth_error_None in E; lia]).
        destruct (Shape p g Hg) as (c & k & Hc & Hk & (Lc & Fc1 & Fc2) & Oc & (Lk & Fk1 & Fk2) & Ok & Lg & C). destruct (comb_total M1 M2 Lp) as (k' & Hk' & _ & Cm). rewrite Hk in Hk'. injection Hk' as <-.
        destruct (Cm q c' o i j x Hc' Ho Hx Li) as (s & Hs & Mx). destruct (Fk2 _ _ _ Hs) as [_ Lj]. exists g.
        assert (X1 : (o + i <? mo) = false) by (apply Nat.ltb_ge; lia). destruct (o + i <? len) eqn:X2.
        + assert (X2' := X2). apply Nat.ltb_lt in X2'. destruct (Fc1 (o + i) j X2' Lj) as (a & Ea). exists (union a s). split; [exact Hg|]. rewrite C, X1, X2, Ea, Hs. split; [reflexivity|]. apply mem_union; [eapply Oc; exact Ea|eapply Ok; exact Hs|right; exact Mx].
        + exists s. split; [exact Hg|]. rewrite C, X1, X2. auto.
    Qed.
  End Join.
End Main.
