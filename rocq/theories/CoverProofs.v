(** Coverage of executions by the tree of verify. *)
From Coq Require Import Ascii String.
From Verif Require Import Base BaseFacts Dict PyText Boxes Overlay OverlaySpec Scan ScanSpec ScanProofs TransProofs ScanMain ScanProps
  Round RoundProofs Step StepSpec StepProofs StepProps Scheduler SchedulerSpec CoverSpec.
From Coq Require Import Permutation Sorted Lqa.
Set Implicit Arguments.
Open Scope nat_scope.

Lemma covers_shift t tr i s : covers (map (shift_row t) tr) i s <-> covers tr i s.
Proof.
  assert (T : forall row, tl (shift_row t row) = tl row) by (intros [|x row]; reflexivity).
  unfold covers. split.
  - intros (lo & hi & E1 & E2 & H). rewrite nth_error_map in E1, E2.
    destruct (nth_error tr (2 * i)) as [lo'|]; [|discriminate]. destruct (nth_error tr (2 * i + 1)) as [hi'|]; [|discriminate].
    injection E1 as <-. injection E2 as <-. rewrite !T in H. eauto.
  - intros (lo & hi & E1 & E2 & H). exists (shift_row t lo), (shift_row t hi). rewrite !nth_error_map, E1, E2, !T. auto.
Qed.
Lemma covers_suffix tr suffix i0 i s : (forall k, nth_error suffix k = nth_error tr (2 * i0 + k)) -> covers tr (i0 + i) s -> covers suffix i s.
Proof.
  intros H (lo & hi & E1 & E2 & B). exists lo, hi. rewrite !H. replace (2 * i0 + 2 * i) with (2 * (i0 + i)) by lia.
  replace (2 * i0 + (2 * i + 1)) with (2 * (i0 + i) + 1) by lia. auto.
Qed.
Lemma covers_prefix m tr tr' i s : prefix_of (2 * (m + 1)) tr tr' -> i <= m -> covers tr i s -> covers tr' i s.
Proof. intros [L P] Hi (lo & hi & E1 & E2 & B). exists lo, hi. rewrite !P by lia. auto. Qed.
Lemma min_len_const {A} (ls : list (list A)) l n : min_len ls = Some l -> (forall x, In x ls -> length x = n) -> l = n.
Proof.
  destruct ls as [|x ls]; [discriminate|]. cbn [min_len]. intros E H. injection E as <-.
  assert (Hx := H x (or_introl eq_refl)). rewrite Hx. assert (H' : forall y, In y ls -> length y = n) by (intros y Hy; apply H; right; exact Hy).
  clear -H'. induction ls as [|y ls IH]; [reflexivity|]. cbn [fold_left]. rewrite (H' y (or_introl eq_refl)), Nat.min_id. apply IH. intros z Hz. apply H'. right. exact Hz.
Qed.

Lemma list_ext {A} (l m : list A) : (forall i, nth_error l i = nth_error m i) -> l = m.
Proof.
  revert m. induction l as [|x l IH]; intros [|y m] H; [reflexivity|specialize (H 0); discriminate|specialize (H 0); discriminate|].
  f_equal; [specialize (H 0); cbn in H; congruence|]. apply IH. intros i. apply (H (S i)).
Qed.

Section Cover.
  Variables path cond : Type.
  Variable pvar : path -> word.
  Variable agents : list (dlogic path cond).
  Variable dim : nat -> nat.
  Variable tube_of : nat -> mode -> list (vec * vec) -> Q -> option (list vec).
  Variable g_disc : list mode -> list (vec * vec) -> nat -> path -> bool.
  Variable g_hyb : list mode -> list (vec * vec) -> nat -> path -> bool.
  Variable g_cont : list mode -> list (vec * vec) -> nat -> path -> bool * bool.
  Variable g_certain : list mode -> list (vec * vec) -> nat -> cond -> bool.
  Variable g_reset : list mode -> list (vec * vec) -> nat -> list path -> option (list mode * (vec * vec)).
  Variable maph : option word -> option mode -> option mode -> option word.
  Variable inst : Type.
  Variable traj : nat -> mode -> vec -> (nat -> inst -> vec) -> Prop.
  Variable enabled : list mode -> nat -> path -> list vec -> Prop.
  Variable resets : list mode -> nat -> path -> list vec -> mode -> vec -> Prop.
  Variable dt : Q.
  Variables (horizon : Q) (N digits : nat).
  Variable max_height : option nat.
  Hypothesis Hrows : on_rows dt horizon N digits.
  Hypothesis Htubes : tubes_sound dim tube_of traj dt N.
  Hypothesis Hguards : guards_sound g_disc g_hyb g_cont enabled.
  Hypothesis Hresets : resets_sound dim g_reset enabled resets.
  Hypothesis Hone : one_variable pvar agents.
  Hypothesis Hmap : map_permits agents g_reset maph.

  Notation fill := (fill agents tube_of).
  Notation search := (search pvar agents g_disc g_hyb g_cont g_certain g_reset maph).
  Notation step := (step pvar agents tube_of g_disc g_hyb g_cont g_certain g_reset maph digits).
  Notation may_leave := (may_leave agents g_disc g_hyb g_cont).
  Notation must_leave := (must_leave agents g_disc g_hyb g_cont).
  Notation no_gap := (no_gap agents g_disc g_hyb g_cont).
  Notation patient := (patient agents g_disc g_hyb g_cont).

  Definition remain (nd : node) : Q := py_round 10 (horizon - n_start nd).
  Definition expand (nd : node) : option (list node * list (list vec) * option (dict nat (list word))) :=
    do r <- step false max_height nd (remain nd); Some (r_child r, r_trace r, r_asserts r).
  Notation skip := (skip n_height n_start max_height horizon).
  Notation unfolds := (@unfolds node (list (list vec)) (option (dict nat (list word))) skip expand).

  Definition R (i : nat) : Q := (inject_Z (Z.of_nat i) * dt)%Q.
  Lemma R_plus i j : (R (i + j) == R i + R j)%Q.
  Proof. unfold R. rewrite Nat2Z.inj_add, inject_Z_plus. ring. Qed.
  Lemma R_pos i : 0 < i -> (0 < R i)%Q.
  Proof. intros H. unfold R. apply Qmult_lt_0_compat; [change 0%Q with (inject_Z 0); rewrite <- Zlt_Qlt; lia|apply Hrows]. Qed.
  Lemma remain_row nd g : (n_start nd == R g)%Q -> g <= N -> (remain nd == R (N - g))%Q.
  Proof.
    intros E Hg. destruct Hrows as (P & EH & HR). assert (D : (horizon - n_start nd == R (N - g))%Q).
    { rewrite EH, E. assert (S := R_plus g (N - g)). replace (g + (N - g)) with N in S by lia. fold (R N). lra. }
    unfold remain. rewrite (py_round_comp 10 D). exact (proj1 (HR (N - g) ltac:(lia))).
  Qed.
  Lemma not_skipped nd g : (n_start nd == R g)%Q -> g < N -> (forall h, max_height = Some h -> n_height nd + 1 < h) -> skip nd = false.
  Proof.
    intros E Hg Hh. unfold Scheduler.skip. apply orb_false_iff. split.
    - destruct max_height as [h|]; [|reflexivity]. apply Nat.leb_gt. specialize (Hh h eq_refl). lia.
    - destruct (Qle_bool _ 0) eqn:C; [|reflexivity]. exfalso. apply Qle_bool_iff in C. fold (remain nd) in C.
      rewrite (@remain_row nd g E) in C by lia. assert (P := @R_pos (N - g) ltac:(lia)). lra.
  Qed.

  Definition tube_ok (g a : nat) (tr : list vec) : Prop :=
    tube_shape (N - g) (dim a) tr /\
    forall k row, nth_error tr (2 * k) = Some row -> exists x, nth_error row 0 = Some x /\ (x == R (g + k))%Q.
  Definition boxes_ok (a : nat) (inits : list (vec * vec)) : Prop := forall b, In b inits -> length (fst b) = dim a /\ length (snd b) = dim a.
  Definition node_inv (nd : node) (g : nat) : Prop :=
    node_ok (length agents) nd /\ g < N /\ (n_start nd == R g)%Q /\
    forall a, a < length agents ->
      (exists tr, nth_error (n_trace nd) a = Some (Some tr) /\ tube_ok g a tr) \/
      (nth_error (n_trace nd) a = Some None /\ exists inits, nth_error (n_init nd) a = Some inits /\ inits <> [] /\ boxes_ok a inits).

  Lemma fill_ok nd g trs : node_inv nd g -> fill nd (remain nd) = Some trs ->
    length trs = length agents /\
    forall a tr, nth_error trs a = Some tr -> tube_ok g a tr /\
      (nth_error (n_trace nd) a = Some (Some tr) \/
       nth_error (n_trace nd) a = Some None /\ exists m inits, nth_error (n_mode nd) a = Some m /\ nth_error (n_init nd) a = Some inits /\
         forall k b x tau j q, nth_error inits k = Some b -> in_box (fst b) (snd b) x -> traj a m x tau -> k + j < N - g -> covers tr (k + j) (tau j q)).
  Proof.
    intros (Hok & Hg & Hst & Ha) E. assert (L := fill_length _ _ _ _ E). split; [exact L|]. intros a tr Etr.
    assert (Hal : a < length agents) by (rewrite <- L; apply nth_error_Some; congruence).
    apply mapM_Forall2 in E. destruct (Forall2_nth_r _ E Etr) as (a' & Ea & H). rewrite (nth_error_seq 0 Hal) in Ea. injection Ea as <-. cbn [plus] in H.
    destruct (Ha a Hal) as [(tr' & E1 & T1)|(E1 & inits & E2 & Hne & Hb)].
    - rewrite E1 in H. cbn [obind] in H. injection H as <-. split; [exact T1|left; exact E1].
    - rewrite E1 in H. cbn [obind] in H. destruct (nth_error (n_mode nd) a) as [m|] eqn:Em; [|discriminate]. cbn [obind] in H.
      rewrite E2 in H. cbn [obind] in H.
      destruct (@Htubes a m inits (remain nd) (N - g)) as (t & Et & [Sh1 Sh2] & Tm & Cv); [lia|lia|apply remain_row; [exact Hst|lia]|exact Hne|exact Hb|].
      rewrite Et in H. cbn [obind] in H. injection H as <-. split.
      + split; [split|].
        * rewrite map_length. exact Sh1.
        * intros row Hr. apply in_map_iff in Hr. destruct Hr as (row' & <- & Hr). apply Sh2 in Hr. destruct row'; exact Hr.
        * intros k row Hk. rewrite nth_error_map in Hk. destruct (nth_error t (2 * k)) as [row'|] eqn:Ek; [|discriminate]. injection Hk as <-.
          destruct (Tm _ _ Ek) as (x & Ex & Hx). destruct row' as [|y row']; [discriminate|]. cbn in Ex |- *. injection Ex as ->.
          eexists. split; [reflexivity|]. rewrite Hx, Hst. fold (R k). rewrite R_plus. ring.
      + right. split; [exact E1|]. exists m, inits. split; [reflexivity|]. split; [exact E2|]. intros. apply covers_shift. eapply Cv; eauto.
  Qed.

  Section Node.
    Variables (nd : node) (g : nat) (trs : list (list vec)).
    Hypothesis Hinv : node_inv nd g.
    Hypothesis EF : fill nd (remain nd) = Some trs.

    Lemma trs_ok : forall a tr, nth_error trs a = Some tr -> tube_ok g a tr.
    Proof. intros a tr E. apply (proj2 (fill_ok Hinv EF)); exact E. Qed.
    Lemma trs_len tr : In tr trs -> length tr = 2 * (N - g).
    Proof. intros H. apply In_nth_error in H. destruct H as (a & E). apply (trs_ok _ E). Qed.
    Lemma trs_rect : rectangular trs.
    Proof. intros tr H. apply In_nth_error in H. destruct H as (a & E). exists (dim a). apply (trs_ok _ E). Qed.
    Lemma trs_box i : i < N - g -> exists bs, box_at trs i = Some bs /\ forall s, state_at trs i s <-> in_joint bs s.
    Proof.
      intros Hi. assert (HL : forall tr, In tr trs -> 2 * i + 1 < length tr) by (intros tr Ht; rewrite (trs_len _ Ht); lia).
      destruct (@box_at_some trs i trs_rect HL) as (bs & E). exists bs. split; [exact E|]. intros s. apply box_at_covers; [exact trs_rect|exact HL|exact E].
    Qed.

    Lemma box_dims i bs : i < N - g -> box_at trs i = Some bs -> length bs = length agents /\
      forall b bx, nth_error bs b = Some bx -> length (fst bx) = dim b /\ length (snd bx) = dim b.
    Proof.
      intros Hi E. unfold box_at in E. split; [rewrite (mapM_length _ _ E); apply (proj1 (fill_ok Hinv EF))|]. apply mapM_Forall2 in E. intros b bx Eb.
      destruct (Forall2_nth_r _ E Eb) as (tr & Et & H). destruct (trs_ok _ Et) as ((L1 & L2) & _).
      destruct (firstn_skipn_two tr i) as (lo & hi & E' & E1 & E2); [lia|]. rewrite E' in H.
      assert (Dl := L2 lo (nth_error_In _ _ E1)). assert (Dh := L2 hi (nth_error_In _ _ E2)).
      rewrite (@combine_rect_two lo hi (S (dim b)) Dl Dh) in H. cbn [obind fst snd] in H. injection H as <-. cbn [fst snd].
      destruct lo; [discriminate|]. destruct hi; [discriminate|]. cbn in *. lia.
    Qed.

    (** What a search without violation has seen. *)
    Lemma scan_facts ts : search trs (n_mode nd) = Some (inr ts) -> exists n, n <= N - g /\
      (forall i a lg p bs0 bs, i < n -> checked agents a lg -> In p (d_paths lg) -> box_at trs 0 = Some bs0 -> box_at trs i = Some bs ->
         g_disc (n_mode nd) bs0 a p = true -> g_hyb (n_mode nd) bs a p = true -> fst (g_cont (n_mode nd) bs a p) = true ->
         exists ds r, g_reset (n_mode nd) bs a [p] = Some (ds, r) /\ ds <> [] /\
           forall d, In d ds -> exists t, In t ts /\ t_agent t = a /\ t_dest t = Some d /\ has_entry t i r) /\
      (n = N - g \/ (0 < n /\ must_leave (n_mode nd) trs (n - 1)) \/
       (n < N - g /\ ~ may_leave (n_mode nd) trs n /\ exists j, j < n /\ may_leave (n_mode nd) trs j)) /\
      (forall i, S i < n -> ~ must_leave (n_mode nd) trs i) /\
      (forall i j, i < j -> j < n -> may_leave (n_mode nd) trs i -> may_leave (n_mode nd) trs j) /\
      (forall t i, In t ts -> In i (t_idx t) -> i < n /\ may_leave (n_mode nd) trs i).
    Proof.
      intros ES. destruct (search_inv _ _ _ _ _ _ _ _ _ _ ES) as (l & bs & El & Eb & EG).
      assert (l = 2 * (N - g)) by (apply (min_len_const _ El); exact trs_len). subst l.
      assert (Hg : g < N) by apply Hinv.
      replace (2 * (N - g) / 2) with (N - g) in EG by (rewrite Nat.mul_comm, Nat.div_mul by lia; reflexivity).
      assert (EB : forall i, i < N - g -> box_at trs i = Some (nth i bs [])).
      { intros i Hi. apply (boxes_of_nth Eb). rewrite Nat.mul_comm, Nat.div_mul by lia. exact Hi. }
      assert (EB0 := EB 0 ltac:(lia)).
      destruct (C16_transitions _ _ _ _ _ _ _ _ _ _ EG) as (n & Hn & (V1 & V2 & V3) & He & HS & HC).
      assert (May : forall i, i < N - g -> ~ violation agents (ge g_certain (n_mode nd) bs) i ->
        (may_leave (n_mode nd) trs i <-> fires agents (gd g_disc (n_mode nd) bs) (gh g_hyb (n_mode nd) bs) (gc g_cont (n_mode nd) bs) (ge g_certain (n_mode nd) bs) i)).
      { intros i Hi Hv. split.
        - intros (bs0 & bsi & a & lg & p & B0 & Bi & Hch & Hp & X1 & X2 & X3). rewrite EB0 in B0. rewrite (EB i Hi) in Bi. injection B0 as <-. injection Bi as <-.
          exists a, p. split; [|intros Hv'; apply Hv; exists a; exact Hv']. split; [exists lg; auto|]. unfold gd, gh, gc. auto.
        - intros (a & p & ((lg & Hch & Hp) & X1 & X2 & X3) & _). exists (nth 0 bs []), (nth i bs []), a, lg, p. unfold gd, gh, gc in *. rewrite EB0, (EB i Hi). auto 10. }
      assert (Must : forall i, i < N - g -> ~ violation agents (ge g_certain (n_mode nd) bs) i ->
        (must_leave (n_mode nd) trs i <-> surely agents (gd g_disc (n_mode nd) bs) (gh g_hyb (n_mode nd) bs) (gc g_cont (n_mode nd) bs) (ge g_certain (n_mode nd) bs) i)).
      { intros i Hi Hv. split.
        - intros (bs0 & bsi & a & lg & p & B0 & Bi & Hch & Hp & X1 & X2 & X3). rewrite EB0 in B0. rewrite (EB i Hi) in Bi. injection B0 as <-. injection Bi as <-.
          exists a, p. split; [|intros Hv'; apply Hv; exists a; exact Hv']. split; [exists lg; auto|]. unfold gd, gh, gc. auto.
        - intros (a & p & ((lg & Hch & Hp) & X1 & X2 & X3) & _). exists (nth 0 bs []), (nth i bs []), a, lg, p. unfold gd, gh, gc in *. rewrite EB0, (EB i Hi). auto 10. }
      exists n. split; [exact Hn|]. split; [|split; [|split; [|split]]].
      - intros i a lg p bs0 bsi Hi Hch Hp B0 Bi X1 X2 X3. rewrite EB0 in B0. rewrite (EB i ltac:(lia)) in Bi. injection B0 as <-. injection Bi as <-.
        assert (Hc : choice pvar agents (gd g_disc (n_mode nd) bs) (gh g_hyb (n_mode nd) bs) (gc g_cont (n_mode nd) bs) a i [p]).
        { split; [discriminate|]. split; [repeat constructor; intros []|]. split.
          - intros p' [<-|[]]. split; [exists lg; auto|]. unfold gd, gh, gc. auto.
          - intros p' ((lg' & Hch' & Hp') & _). exists p. split; [left; reflexivity|]. destruct Hch as [C1 _]. destruct Hch' as [C2 _].
            assert (lg' = lg) by congruence. subst lg'. eapply Hone; eassumption. }
        assert (Hnv : ~ violates agents (ge g_certain (n_mode nd) bs) a i) by (intros Hv; apply (V1 i Hi); exists a; exact Hv).
        destruct (HC a i [p] Hi Hc Hnv) as (c' & ds & r & HP & Er & Hne & HM).
        apply Permutation_length_1_inv in HP. subst c'. exists ds, r. unfold gr in Er. split; [exact Er|]. split; [exact Hne|].
        intros d Hd. destruct Hch as [C1 C2]. apply HM. split; [exact Hc|]. split; [exact Hnv|]. exists ds, lg. split; [exact Er|]. split; [exact Hd|].
        split; [exact C1|]. eapply Hmap; eauto.
      - destruct He as [He|[(He1 & He2)|(He1 & He2 & He3 & j & He4 & He5)]]; [left; exact He|right; left|right; right].
        + split; [exact He1|]. replace (pred n) with (n - 1) in He2 by lia. apply Must; [lia|apply V1; lia|exact He2].
        + split; [exact He1|]. split; [intros Hm; apply He3, May; assumption|]. exists j. split; [exact He4|]. apply May; [lia|apply V1; lia|exact He5].
      - intros i Hi Hm. apply (V3 i Hi). apply Must; [lia|apply V1; lia|exact Hm].
      - intros i j Hij Hj Hm. apply May; [lia|apply V1; lia|]. apply (V2 i j Hij Hj). apply May; [lia|apply V1; lia|exact Hm].
      - intros t i Ht Hi. apply In_nth_error in Hi. destruct Hi as (k & Hk).
        destruct (search_shape _ _ _ _ _ _ _ _ _ _ ES t Ht) as (_ & _ & _ & HL & _ & _).
        destruct (nth_error (t_inits t) k) as [r|] eqn:Er.
        2: { apply nth_error_None in Er. assert (k < length (t_idx t)) by (apply nth_error_Some; congruence). lia. }
        destruct (HS t i r Ht ltac:(exists k; auto)) as (Hi & c & d & _ & (Hne & _ & Hall & _) & Hnv & _). split; [exact Hi|].
        destruct c as [|p c]; [congruence|]. apply May; [lia|apply V1; exact Hi|]. exists (t_agent t), p. split; [apply Hall; left; reflexivity|exact Hnv].
    Qed.

    (** An execution that is in the node since row [h] and waits until row [h1] is seen in that row. *)
    Variables (ps : list (phase inst)) (h : nat).
    Hypothesis Hlen : length ps = length agents.
    Hypothesis Hgh : g <= h.
    Hypothesis Hentry : exists inits, In inits (n_init nd) /\ h - g < length inits.
    Hypothesis Htrack : forall a p tr, nth_error ps a = Some p -> nth_error trs a = Some tr ->
      forall h1 q, h <= h1 -> h1 < N -> covers tr (h1 - g) (ph_traj p (h1 - ph_row p) q).

    Lemma tracked_state h1 q : h <= h1 -> h1 < N -> state_at trs (h1 - g) (joint ps h1 q).
    Proof.
      intros H1 H2. unfold state_at, joint. assert (L := proj1 (fill_ok Hinv EF)). rewrite <- Hlen in L. clear Hlen Hentry.
      revert L Htrack. generalize trs ps. induction trs0 as [|tr trs' IH]; intros [|p ps'] L HT; try discriminate; cbn [map]; constructor.
      - apply (HT 0 p tr eq_refl eq_refl); assumption.
      - apply IH; [cbn in L; lia|]. intros a p' tr' E1 E2. apply (HT (S a)); assumption.
    Qed.

    Lemma seen_row ts n h1 (q : inst) : no_gap (n_mode nd) trs -> patient nd trs ->
      (n = N - g \/ (0 < n /\ must_leave (n_mode nd) trs (n - 1)) \/
       (n < N - g /\ ~ may_leave (n_mode nd) trs n /\ exists j, j < n /\ may_leave (n_mode nd) trs j)) ->
      (forall i, S i < n -> ~ must_leave (n_mode nd) trs i) -> n <= N - g ->
      search trs (n_mode nd) = Some (inr ts) ->
      h <= h1 -> h1 < N -> waits agents enabled (n_mode nd) ps h h1 -> h1 - g < n.
    Proof.
      intros Hgap Hpat He Hns Hn ES H1 H2 Hw. destruct (Nat.lt_ge_cases (h1 - g) n) as [|Hge]; [assumption|]. exfalso.
      assert (Case : 0 < n /\ must_leave (n_mode nd) trs (n - 1)).
      { destruct He as [->|[He|(Hlt & Hnm & j & Hj & Hm)]]; [lia|exact He|].
        destruct (Hgap j n Hj) as [F|(k & Hk1 & Hk2 & Hk3)]; [|exact Hm|contradiction|].
        - intros tr Ht. rewrite (trs_len _ Ht). lia.
        - assert (k = n - 1) by (destruct (Nat.eq_dec k (n - 1)); [assumption|exfalso; apply (Hns k); [lia|exact Hk3]]). subst k. split; [lia|exact Hk3]. }
      destruct Case as (Hn0 & Hmust). destruct Hentry as (inits & Hin & Hlate). assert (Hp := Hpat _ _ Hmust Hin).
      destruct Hmust as (bs0 & bs & a & lg & p & B0 & Bi & Hch & Hpp & X1 & X2 & X3).
      set (k := g + (n - 1)). assert (Hk : h <= k /\ k < h1) by (unfold k; lia).
      destruct (@trs_box (n - 1)) as (bs' & Eb & Hb); [lia|]. rewrite Bi in Eb. injection Eb as <-.
      apply (Hw k q a lg p (proj1 Hk) (proj2 Hk) Hch Hpp). apply (proj2 Hguards (n_mode nd) bs0 bs a p); try assumption.
      apply Hb. replace (n - 1) with (k - g) by (unfold k; lia). apply tracked_state; lia.
    Qed.
  End Node.

  (** The conditions on every node of the tree. *)
  Definition regular (t : tree node (list (list vec)) (option (dict nat (list word)))) : Prop :=
    forall nd r asr trs, occurs nd (Some r) asr t -> fill nd (remain nd) = Some trs ->
      no_gap (n_mode nd) trs /\ patient nd trs /\ forall ts, search trs (n_mode nd) = Some (inr ts) -> aligned ts.

  Definition alarm (t : tree node (list (list vec)) (option (dict nat (list word)))) : Prop :=
    exists nd r asr, occurs nd (Some r) (Some (Some asr)) t.

  (** The execution is followed by the node [nd], at the root of the subtree [t']. *)
  Definition follows (t t' : tree node (list (list vec)) (option (dict nat (list word)))) (nd : node) (g : nat)
    (modes : list mode) (ps : list (phase inst)) (h k : nat) : Prop :=
    unfolds nd t' /\ (forall c r a, occurs c r a t' -> occurs c r a t) /\ node_inv nd g /\ n_height nd = k /\ n_mode nd = modes /\
    length ps = length agents /\ g <= h /\ h < N /\ (exists inits, In inits (n_init nd) /\ h - g < length inits) /\
    (forall a p, nth_error ps a = Some p -> ph_row p <= h) /\
    forall trs, fill nd (remain nd) = Some trs -> forall a p tr, nth_error ps a = Some p -> nth_error trs a = Some tr ->
      forall h1 q, h <= h1 -> h1 < N -> covers tr (h1 - g) (ph_traj p (h1 - ph_row p) q).

  Lemma unfold_node t t' nd g modes ps h k : follows t t' nd g modes ps h k -> (forall H, max_height = Some H -> k + 1 < H) ->
    exists trs r cs asr ts, t' = Tree nd (Some r) (Some asr) ts /\ Forall2 unfolds cs ts /\ fill nd (remain nd) = Some trs /\
      ((exists x, asr = Some x) \/
       asr = None /\ exists tns, search trs (n_mode nd) = Some (inr tns) /\ Forall2 (is_child digits nd trs) tns cs /\
         (tns = [] -> r = trs) /\
         (tns <> [] -> exists m, (exists t, In t tns /\ In m (t_idx t)) /\ (forall t i, In t tns -> In i (t_idx t) -> i <= m) /\
                             Forall2 (prefix_of (2 * (m + 1))) trs r)).
  Proof.
    intros (U & Ho & Hinv & Hh & Hm & Hl & Hgh & HhN & He & Hr & Ht) HH. subst k. pose proof Hinv as (Hok & Hg & Hst & Hag).
    assert (Es : skip nd = false) by (eapply not_skipped; eauto). inversion U as [c Ec|c cs r asr ts Ec Ex HF]; subst; [congruence|].
    unfold expand in Ex. destruct (step false max_height nd (remain nd)) as [res|] eqn:Estep; [|discriminate]. cbn [obind] in Ex. injection Ex as <- <- <-.
    assert (Hfill : exists trs, fill nd (remain nd) = Some trs).
    { unfold Step.step in Estep. destruct (fill nd (remain nd)) as [trs|]; [eauto|discriminate]. }
    destruct Hfill as (trs & EF). exists trs, (r_trace res), (r_child res), (r_asserts res), ts. split; [reflexivity|]. split; [exact HF|]. split; [exact EF|].
    destruct (search trs (n_mode nd)) as [[[asr i]|tns]|] eqn:ES.
    - left. unfold Step.step in Estep. rewrite EF in Estep. cbn [obind] in Estep. rewrite ES in Estep. cbn [obind] in Estep. injection Estep as <-. eexists; reflexivity.
    - right. destruct (@C20_children _ _ pvar agents tube_of g_disc g_hyb g_cont g_certain g_reset maph digits false max_height nd (remain nd) trs tns) as (r' & E' & A1 & A2 & A3 & A4);
        [exact Hok|intros H EH; specialize (HH H EH); lia|eapply trs_rect; eauto|exact EF|exact ES|].
      rewrite Estep in E'. injection E' as <-. split; [exact A1|]. exists tns. auto.
    - exfalso. unfold Step.step in Estep. rewrite EF in Estep. cbn [obind] in Estep. rewrite ES in Estep. discriminate.
  Qed.

  (** The row is shown by the node. *)
  Lemma follows_shows t t' nd g modes ps h k : regular t -> follows t t' nd g modes ps h k -> (forall H, max_height = Some H -> k + 1 < H) ->
    forall h1 q, h <= h1 -> h1 < N -> waits agents enabled modes ps h h1 -> alarm t \/ shows dt t modes h1 (joint ps h1 q).
  Proof.
    intros Hreg Hf HH h1 q H1 H2 Hw. destruct (unfold_node Hf HH) as (trs & r & cs & asr & ts & Et & HF & EF & Hc).
    pose proof Hf as (U & Ho & Hinv & Hh & Hm & Hl & Hgh & HhN & He & Hr & Ht). subst t' modes.
    assert (Hocc : occurs nd (Some r) (Some asr) t) by (apply Ho; constructor).
    destruct Hc as [(x & ->)|(-> & tns & ES & HC & C1 & C2)]; [left; exists nd, r, x; exact Hocc|right].
    destruct (Hreg _ _ _ _ Hocc EF) as (G1 & G2 & _). specialize (Ht trs EF).
    destruct (scan_facts Hinv EF ES) as (n & Hn & A & B & C & D & E).
    assert (Hi : h1 - g < n) by (eapply seen_row with (h := h) (ps := ps); eauto).
    exists nd, r, (Some None), g. split; [exact Hocc|]. split; [reflexivity|]. split; [apply Hinv|]. split; [lia|].
    assert (St : state_at trs (h1 - g) (joint ps h1 q)) by (eapply tracked_state with (h := h); eauto).
    destruct tns as [|t0 tns'] eqn:Etn; [rewrite C1 by reflexivity; exact St|]. rewrite <- Etn in *.
    destruct C2 as (m & (tm & Htm & Hmi) & Hmax & HP); [rewrite Etn; discriminate|].
    assert (Him : h1 - g <= m).
    { destruct (Nat.le_gt_cases (h1 - g) m) as [|Hlt]; [assumption|]. exfalso.
      destruct (E tm m Htm Hmi) as (Hmn & Hml). assert (Hml' := D m (h1 - g) Hlt Hi Hml).
      destruct Hml' as (bs0 & bs & a & lg & p & B0 & Bi & Hch & Hp & X1 & X2 & X3).
      destruct (A _ _ _ _ _ _ Hi Hch Hp B0 Bi X1 X2 X3) as (ds & rr & Er & Hne & Hall). destruct ds as [|d ds]; [congruence|].
      destruct (Hall d (or_introl eq_refl)) as (t1 & Ht1 & _ & _ & (kk & Hkk & _)). apply nth_error_In in Hkk. specialize (Hmax _ _ Ht1 Hkk). lia. }
    clear -St HP Him. unfold state_at in *. revert St. generalize (joint ps h1 q). induction HP as [|tr tr' trs r P HF IH]; intros s St; inversion St; subst; constructor.
    - eapply covers_prefix; eauto.
    - apply IH. assumption.
  Qed.

  Lemma start_follows modes0 start ps t : 0 < N -> length agents <> 0 -> length modes0 = length agents -> length start = length agents ->
    (forall a b, nth_error start a = Some b -> length (fst b) = dim a /\ length (snd b) = dim a) ->
    let root := {| n_trace := map (fun _ => None) start; n_init := map (fun b => [b]) start; n_mode := modes0; n_start := 0; n_height := 0 |} in
    unfolds root t -> length ps = length agents ->
    (forall a p, nth_error ps a = Some p -> ph_row p = 0 /\ exists m b x, nth_error modes0 a = Some m /\
         nth_error start a = Some b /\ in_box (fst b) (snd b) x /\ traj a m x (ph_traj p)) ->
    follows t t root 0 modes0 ps 0 0.
  Proof.
    intros HN HA HL1 HL2 Hd root U HL3 Hps. assert (Hinv : node_inv root 0).
    { split; [|split; [exact HN|split]].
      - split; [|split]; cbn; rewrite ?map_length; assumption.
      - cbn [n_start root]. unfold R. change (inject_Z (Z.of_nat 0)) with 0%Q. ring.
      - intros a Ha. right. cbn [n_trace n_init root]. rewrite !nth_error_map. destruct (nth_error start a) as [b|] eqn:Eb; [|apply nth_error_None in Eb; lia].
        cbn. split; [reflexivity|]. exists [b]. split; [reflexivity|]. split; [discriminate|]. intros b' [<-|[]]. eapply Hd; eauto. }
    split; [exact U|]. split; [auto|]. split; [exact Hinv|]. split; [reflexivity|]. split; [reflexivity|]. split; [exact HL3|]. split; [lia|]. split; [exact HN|].
    split.
    { destruct start as [|b start']; [cbn in HL2; lia|]. exists [b]. split; [left; reflexivity|cbn; lia]. }
    split; [intros a p Ep; rewrite (proj1 (Hps a p Ep)); lia|].
    intros trs EF a p tr Ep Etr h1 q H1 H2. destruct (Hps a p Ep) as (Hr & m & b & x & Em & Eb & Hx & Htr). rewrite Hr, !Nat.sub_0_r.
    destruct (proj2 (fill_ok Hinv EF) a tr Etr) as (_ & [E1|(E1 & m' & inits & Em' & Ei & Hc)]).
    - cbn [n_trace root] in E1. rewrite nth_error_map, Eb in E1. discriminate.
    - cbn [n_mode n_init root] in *. rewrite nth_error_map, Eb in Ei. cbn in Ei. injection Ei as <-. assert (m' = m) by congruence. subst m'.
      apply (Hc 0 b x (ph_traj p) h1 q); [reflexivity|exact Hx|exact Htr|lia].
  Qed.

  Lemma jump_follows t t' nd g modes ps h k h' q a lg p d x tau : regular t -> follows t t' nd g modes ps h k ->
    (forall H, max_height = Some H -> k + 1 < H) ->
    h <= h' -> h' < N -> waits agents enabled modes ps h h' -> checked agents a lg -> In p (d_paths lg) ->
    enabled modes a p (joint ps h' q) -> resets modes a p (joint ps h' q) d x -> traj a d x tau ->
    alarm t \/ exists t2 nd2 g2, follows t t2 nd2 g2 (set_nth a d modes) (set_nth a (mk_phase tau h') ps) h' (S k).
  Proof.
    intros Hreg Hf HH H1 H2 Hw Hch Hp Hen Hre Htau. destruct (unfold_node Hf HH) as (trs & r & cs & asr & ts & Et & HF & EF & Hc).
    pose proof Hf as (U & Ho & Hinv & Hh & Hm & Hl & Hgh & HhN & He & Hr & Ht). subst t' modes.
    assert (Hocc : occurs nd (Some r) (Some asr) t) by (apply Ho; constructor).
    destruct Hc as [(y & ->)|(-> & tns & ES & HC & C1 & C2)]; [left; exists nd, r, y; exact Hocc|right].
    destruct (Hreg _ _ _ _ Hocc EF) as (G1 & G2 & G3). specialize (Ht trs EF). specialize (G3 _ ES).
    destruct (scan_facts Hinv EF ES) as (n & Hn & A & B & C & D & E).
    assert (Hi : h' - g < n) by (eapply seen_row with (h := h) (ps := ps); eauto).
    assert (St : state_at trs (h' - g) (joint ps h' q)) by (eapply tracked_state with (h := h); eauto).
    destruct (@trs_box nd g trs Hinv EF (h' - g)) as (bs & Eb & Hb); [lia|].
    destruct (@trs_box nd g trs Hinv EF 0) as (bs0 & Eb0 & _); [lia|].
    assert (Hin : in_joint bs (joint ps h' q)) by (apply Hb; exact St).
    destruct (proj1 Hguards (n_mode nd) bs0 bs a p _ Hin Hen) as (X1 & X2 & X3).
    destruct (A _ _ _ _ _ _ Hi Hch Hp Eb0 Eb X1 X2 X3) as (ds & rr & Er & Hne & Hall).
    destruct (proj1 Hresets _ _ _ _ _ _ _ _ _ Er Hin Hen Hre) as (Hd & Hx).
    destruct (Hall d Hd) as (tn & Htn & Ea & Ed & (kk & Hkk & Hrk)).
    destruct (G3 tn Htn) as (i0 & Hseq).
    assert (Hkl : kk < length (t_inits tn)) by (apply nth_error_Some; congruence).
    rewrite Hseq, (nth_error_seq i0 Hkl) in Hkk. injection Hkk as Hkk.
    apply In_nth_error in Htn. destruct Htn as (jj & Ejj). assert (Htn := nth_error_In _ _ Ejj).
    destruct (Forall2_nth_l jj HC Ejj) as (c & Ec & Hchild).
    destruct (Forall2_nth_l jj HF Ec) as (t2 & Et2 & U2).
    destruct Hchild as (d' & i0' & Ed' & Ei0 & (tr0 & row0 & time & T1 & T2 & T3 & T4) & Eh & Emo & Emo' & Lt & Li & Lm & Etr & Ein & Hoth).
    rewrite Ed in Ed'. injection Ed' as <-. rewrite Hseq in Ei0. rewrite (nth_error_seq i0 (k := 0)) in Ei0 by lia. injection Ei0 as <-. rewrite Nat.add_0_r in *.
    rewrite Ea in *. pose proof Hinv as ((K1 & K2 & K3) & Hg & Hst & Hag). assert (Ltr := proj1 (fill_ok Hinv EF)).
    assert (Hal : a < length agents) by (destruct Hch as [Hch _]; apply nth_error_Some; congruence).
    exists t2, c, (g + i0).
    assert (Hstart : (n_start c == R (g + i0))%Q).
    { destruct (trs_ok Hinv EF 0 T1) as (_ & Tm). destruct (Tm _ _ T2) as (z & Ez & Hz). rewrite T3 in Ez. injection Ez as <-.
      rewrite T4. destruct Hrows as (_ & _ & HR). destruct (HR (g + i0) ltac:(lia)) as [R1 R2]. fold (R (g + i0)) in R1, R2.
      rewrite (py_round_comp 10 Hz). rewrite (py_round_comp digits R1). exact R2. }
    assert (Hsuf : forall b tr, b <> a -> nth_error trs b = Some tr -> exists suffix, nth_error (n_trace c) b = Some (Some suffix) /\
      (forall k, nth_error suffix k = nth_error tr (2 * i0 + k)) /\ tube_ok (g + i0) b suffix).
    { intros b tr Hb' Etb. destruct (Hoth b tr Hb' Etb) as (suffix & lo & hi & S1 & S2 & S3 & S4 & S5). exists suffix. split; [exact S1|]. split; [exact S2|].
      destruct (trs_ok Hinv EF b Etb) as ((Sh1 & Sh2) & Tm). split; [split|].
      - assert (Q1 : forall j, j < length suffix <-> 2 * i0 + j < length tr).
        { intros j. rewrite <- !nth_error_Some, S2. reflexivity. }
        assert (length suffix = length tr - 2 * i0).
        { destruct (Nat.lt_trichotomy (length suffix) (length tr - 2 * i0)) as [L|[L|L]]; [|exact L|].
          - assert (F := proj2 (Q1 (length suffix)) ltac:(lia)). lia.
          - assert (F := proj1 (Q1 (length tr - 2 * i0)) L). lia. }
        lia.
      - intros row Hrow. apply Sh2. apply In_nth_error in Hrow. destruct Hrow as (j & Ej). rewrite S2 in Ej. eapply nth_error_In; exact Ej.
      - intros j row Ej. rewrite S2 in Ej. replace (2 * i0 + 2 * j) with (2 * (i0 + j)) in Ej by lia. destruct (Tm _ _ Ej) as (z & Ez & Hz). exists z. split; [exact Ez|].
        rewrite Hz. replace (g + (i0 + j)) with (g + i0 + j) by lia. reflexivity. }
    assert (Hboxes : boxes_ok a (t_inits tn)).
    { intros b Hb'. apply In_nth_error in Hb'. destruct Hb' as (j & Ej).
      destruct (search_inv _ _ _ _ _ _ _ _ _ _ ES) as (l & bss & El & Ebs & EG).
      assert (l = 2 * (N - g)) by (apply (min_len_const _ El); intros tr Htr; eapply trs_len; eauto). subst l.
      replace (2 * (N - g) / 2) with (N - g) in EG by (rewrite Nat.mul_comm, Nat.div_mul by lia; reflexivity).
      destruct (C16_transitions _ _ _ _ _ _ _ _ _ _ EG) as (n2 & Hn2 & _ & _ & HS & _).
      assert (j < length (t_inits tn)) by (apply nth_error_Some; congruence).
      destruct (HS tn (i0 + j) b Htn) as (Hin2 & c' & d'' & _ & _ & _ & ds' & lg' & Er' & _).
      - exists j. split; [rewrite Hseq; apply nth_error_seq; assumption|exact Ej].
      - rewrite Ea in Er'. unfold gr in Er'.
        assert (EB : box_at trs (i0 + j) = Some (nth (i0 + j) bss [])).
        { apply (boxes_of_nth Ebs). rewrite Nat.mul_comm, Nat.div_mul by lia. lia. }
        destruct (box_dims Hinv EF (i := i0 + j) ltac:(lia) EB) as (Lb & Db). eapply (proj2 Hresets); [rewrite Lb; exact Hal|exact Db|exact Er']. }
    assert (Hinv2 : node_inv c (g + i0)).
    { split; [split; [|split]; lia|]. split; [lia|]. split; [exact Hstart|]. intros b Hbl. destruct (Nat.eq_dec b a) as [->|Hba].
      - right. split; [exact Etr|]. exists (t_inits tn). split; [exact Ein|]. split; [|exact Hboxes]. intros E0. rewrite E0 in Hkl. cbn in Hkl. lia.
      - left. destruct (nth_error trs b) as [tr|] eqn:Etb; [|apply nth_error_None in Etb; lia].
        destruct (Hsuf b tr Hba Etb) as (suffix & S1 & _ & S3). exists suffix. auto. }
    assert (Hmodes : n_mode c = set_nth a d (n_mode nd)).
    { apply list_ext. intros b. destruct (Nat.eq_dec b a) as [->|Hba].
      - rewrite Emo. rewrite set_nth_same; [reflexivity|lia].
      - rewrite (Emo' b Hba). rewrite set_nth_other; [reflexivity|exact Hba]. }
    split; [exact U2|]. split.
    { intros c0 r0 a0 H0. apply Ho. apply O_below with (t := t2); [eapply nth_error_In; exact Et2|exact H0]. }
    split; [exact Hinv2|]. split; [lia|]. split; [exact Hmodes|]. split; [rewrite set_nth_len; exact Hl|]. split; [lia|]. split; [exact H2|]. split.
    { exists (t_inits tn). split; [eapply nth_error_In; exact Ein|]. lia. }
    assert (Hapl : a < length ps) by lia.
    split.
    { intros b pb Epb. destruct (Nat.eq_dec b a) as [->|Hba].
      - rewrite set_nth_same in Epb by exact Hapl. injection Epb as <-. cbn. lia.
      - rewrite set_nth_other in Epb by exact Hba. specialize (Hr _ _ Epb). lia. }
    intros trs2 EF2 b pb trb Epb Etb h1 q1 Hh1 HN1. destruct (proj2 (fill_ok Hinv2 EF2) b trb Etb) as (Tok & Hcase).
    destruct (Nat.eq_dec b a) as [->|Hba].
    - rewrite set_nth_same in Epb by exact Hapl. injection Epb as <-. cbn [ph_traj ph_row].
      destruct Hcase as [F|(_ & m & inits & Em & Ei & Hcov)]; [congruence|].
      assert (m = d). { rewrite Hmodes in Em. rewrite set_nth_same in Em by lia. congruence. } subst m.
      assert (inits = t_inits tn) by congruence. subst inits.
      replace (h1 - (g + i0)) with (kk + (h1 - h')) by lia. eapply Hcov; [exact Hrk|exact Hx|exact Htau|lia].
    - rewrite set_nth_other in Epb by exact Hba.
      assert (Hbl : b < length agents) by (rewrite <- Hl; apply nth_error_Some; congruence).
      destruct (nth_error trs b) as [tr|] eqn:Eo; [|apply nth_error_None in Eo; lia].
      destruct (Hsuf b tr Hba Eo) as (suffix & S1 & S2 & S3).
      assert (trb = suffix).
      { destruct Hcase as [F|(F & _)]; congruence. }
      subst trb. apply (@covers_suffix tr suffix i0); [exact S2|]. replace (i0 + (h1 - (g + i0))) with (h1 - g) by lia.
      eapply Ht; eauto. lia.
  Qed.

  Theorem covered modes0 start t : 0 < N -> length agents <> 0 -> length modes0 = length agents -> length start = length agents ->
    (forall a b, nth_error start a = Some b -> length (fst b) = dim a /\ length (snd b) = dim a) ->
    let root := {| n_trace := map (fun _ => None) start; n_init := map (fun b => [b]) start; n_mode := modes0; n_start := 0; n_height := 0 |} in
    unfolds root t -> regular t ->
    forall modes ps h k, execution agents traj enabled resets N modes0 start modes ps h k -> (forall H, max_height = Some H -> k + 1 < H) ->
    alarm t \/ exists t2 nd g, follows t t2 nd g modes ps h k.
  Proof.
    intros HN HA HL1 HL2 Hd root U Hreg modes ps h k HE. induction HE as [ps HL Hps|modes ps h k h' q a lg p d x tau HE IH H1 H2 Hw Hch Hp Hen Hre Htau]; intros HH.
    - right. exists t, root, 0. apply start_follows; assumption.
    - destruct IH as [Al|(t2 & nd & g & Hf)]; [intros H EH; specialize (HH H EH); lia|left; exact Al|].
      eapply jump_follows; eauto. intros H EH. specialize (HH H EH). lia.
  Qed.
End Cover.
