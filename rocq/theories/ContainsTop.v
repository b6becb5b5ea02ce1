(** Proofs about contains: whole trees. *)
From Verif Require Import Base BaseFacts Dict Round RoundProofs Tree TreeProofs Contains ContainsSpec ContainsProofs ContainsMain.
From Coq Require Import Qabs Qminmax Lqa.
Set Implicit Arguments.
Open Scope nat_scope.

Lemma collect_eq a0 ag cont n ch : collect a0 ag cont (Node n ch) =
  do tr0 <- dget Nat.eqb a0 (c_trace n);
  do cur <- mapM (fun a => do tr <- dget Nat.eqb a (c_trace n); cur_of cont (length tr0) tr) ag;
  match ch with [] => Some cur | _ => do children <- mapM (collect a0 ag cont) ch; join ag cont tr0 cur children (map (fun c => c_start (content c)) ch) end.
Proof.
  assert (G : forall l, (fix go l := match l with [] => Some [] | c :: r => do x <- collect a0 ag cont c; do xs <- go r; Some (x :: xs) end) l = mapM (collect a0 ag cont) l).
  { induction l as [|c r IH]; [reflexivity|]. cbn [mapM]. rewrite <- IH. reflexivity. }
  cbn [collect]. rewrite (G ch). reflexivity.
Qed.
Lemma choose_list {A B} (P : A -> B -> Prop) l : (forall x, In x l -> exists y, P x y) -> exists m, Forall2 P l m.
Proof.
  induction l as [|x l IH]; intros H; [exists []; constructor|]. destruct (H x (or_introl eq_refl)) as (y & Hy). destruct IH as (m & Hm); [intros z Hz; apply H; right; exact Hz|]. exists (y :: m). constructor; assumption.
Qed.
Lemma Forall2_map_l {A B C} (f : A -> B) (P : B -> C -> Prop) l m : Forall2 (fun x y => P (f x) y) l m -> Forall2 P (map f l) m.
Proof. intros F. induction F; cbn; constructor; auto. Qed.

Section Top.
  Variable h : Q.
  Hypothesis h_pos : (0 < h)%Q.
  Hypothesis h_round : (py_round 10 h == h)%Q.
  Variables (a0 : nat) (ag' : list nat).
  Notation ag := (a0 :: ag').
  Variable cont : nat.
  Hypothesis cont_pos : 0 < cont.
  Notation collect := (collect a0 ag cont).

  Lemma covers_unique n len len' : covers h ag cont n len -> covers h ag cont n len' -> len = len'.
  Proof. intros A B. destruct (A a0 (or_introl eq_refl)) as (t & T & L & _). destruct (B a0 (or_introl eq_refl)) as (t' & T' & L' & _). rewrite T in T'. injection T' as <-. lia. Qed.

  Lemma own_occurs n ch len cur p a i j x : own a0 ag' cont n len cur -> nth_error ag p = Some a -> has cur p i j x -> occurs h (Node n ch) i a j x.
  Proof.
    intros O Ha (g & s & Hg & Hs & Mx). destruct (Forall2_nth_l _ O Ha) as (g' & Hg' & tr & T & L & C). rewrite Hg in Hg'. injection Hg' as <-.
    apply (proj2 (cur_spec cont_pos _ _ C)) in Hs. destruct Hs as (Li & Lj & l & u & E1 & E2 & ->). apply mem_closed in Mx. unfold entry_at in E1, E2.
    destruct (nth_error tr (2 * i)) as [lo|] eqn:F1; [|discriminate]. destruct (nth_error tr (2 * i + 1)) as [hi|] eqn:F2; [|discriminate]. cbn [obind] in *. econstructor; eassumption.
  Qed.

  Lemma collect_sound : forall t, on_grid h ag cont t -> forall R, collect t = Some R ->
    Forall okg R /\ forall p a i j x, nth_error ag p = Some a -> has R p i j x -> occurs h t i a j x.
  Proof.
    intros t. induction t as [n ch IH] using tree_ind'. intros G R H. inversion G as [n' ch' len C Lp Ck Ce Cg]; subst.
    rewrite collect_eq in H. destruct (covers_own cont_pos C) as (tr0 & cur & T0 & L0 & M & O & F). rewrite T0 in H. cbn [obind] in H. rewrite M in H. cbn [obind] in H.
    assert (Fok : Forall okg cur) by (eapply Forall_impl; [|exact F]; cbn; tauto).
    assert (Lcur : length cur = length ag) by (symmetry; exact (Forall2_len O)).
    destruct ch as [|c0 ch0] eqn:Ech.
    - injection H as <-. split; [exact Fok|]. intros p a i j x Ha Hx. eapply own_occurs; eassumption.
    - rewrite <- Ech in *. assert (NE : ch <> []) by (rewrite Ech; discriminate). clear Ech.
      destruct (mapM collect ch) as [children|] eqn:Em; [|discriminate]. cbn [obind] in H. apply mapM_Forall2 in Em.
      destruct (choose_list _ ch Ck) as (offs & Ho). assert (Hs := Forall2_map_l (fun c => c_start (content c)) _ Ho).
      assert (Rec : forall q c x, nth_error ch q = Some c -> nth_error children q = Some x -> Forall okg x /\ forall p a i j y, nth_error ag p = Some a -> has x p i j y -> occurs h c i a j y).
      { intros q c x Hc Hx. destruct (Forall2_nth_l _ Em Hc) as (x' & Hx' & Ex). rewrite Hx in Hx'. injection Hx' as <-. rewrite Forall_forall in IH. apply (IH c (nth_error_In _ _ Hc)); [apply Cg; eapply nth_error_In; exact Hc|exact Ex]. }
      assert (Chs : Forall (fun c => Forall okg c) children).
      { apply Forall_forall. intros x Ix. apply In_nth_error in Ix. destruct Ix as (q & Hq). destruct (Forall2_nth_r _ Em Hq) as (c & Hc & _). eapply Rec; eassumption. }
      assert (Early : exists k, In k offs /\ k < len).
      { destruct (Ce NE) as (c & k & Ic & Hk & Lk). exists k. split; [|exact Lk]. apply In_nth_error in Ic. destruct Ic as (q & Hq). destruct (Forall2_nth_l _ Ho Hq) as (k' & Hk' & Sk). rewrite (steps_inj h_pos Hk Sk). eapply nth_error_In. exact Hk'. }
      destruct (@join_sound h h_pos h_round a0 ag' cont cont_pos n len Lp C tr0 cur children _ offs T0 F Lcur Chs Hs) with (R := R) as [J1 J2]; [destruct ch; [contradiction|discriminate]|exact Early|rewrite map_length; symmetry; exact (Forall2_len Em)|exact H|].
      split; [exact J1|]. intros p a i j x Ha Hx. destruct (J2 _ _ _ _ Hx) as [Own|(q & y & o & i' & Hy & Hoff & -> & Hx')]; [eapply own_occurs; eassumption|].
      destruct (Forall2_nth_r _ Em Hy) as (c & Hc & _). destruct (Forall2_nth_l _ Ho Hc) as (o' & Ho' & So). rewrite Hoff in Ho'. injection Ho' as <-.
      eapply occ_child; [eapply nth_error_In; exact Hc|exact So|]. eapply Rec; eassumption.
  Qed.

  Lemma steps_of a b : (QN a * h == QN b * h)%Q -> a = b.
  Proof.
    intros E. apply Qmult_inj_r in E; [|intros Hz; lra]. apply Nat2Z.inj. apply (proj1 (inject_Z_injective _ _)). exact E.
  Qed.
  Lemma QN_plus a b : (QN (a + b) == QN a + QN b)%Q.
  Proof. rewrite Nat2Z.inj_add, inject_Z_plus. reflexivity. Qed.

  Lemma occurs_here n ch len cur p a r j tr lo hi l u x : covers h ag cont n len -> own a0 ag' cont n len cur -> nth_error ag p = Some a ->
    dget Nat.eqb a (c_trace n) = Some tr -> nth_error tr (2 * r) = Some lo -> nth_error tr (2 * r + 1) = Some hi -> nth_error lo j = Some l -> nth_error hi j = Some u -> (l <= x <= u)%Q ->
    on_grid h ag cont (Node n ch) -> has cur p r j x.
  Proof.
    intros C O Ha T E1 E2 E3 E4 B _. destruct (Forall2_nth_l _ O Ha) as (g & Hg & tr' & T' & L & Cu). rewrite T in T'. injection T' as <-.
    destruct (C a (nth_error_In _ _ Ha)) as (tr' & T' & _ & Rows). rewrite T in T'. injection T' as <-.
    assert (Lr : 2 * r + 1 < length tr) by (apply nth_error_Some; rewrite E2; discriminate). destruct (Rows r ltac:(lia)) as (lo' & hi' & F1 & F2 & L1 & L2 & _). rewrite E1 in F1. injection F1 as <-.
    exists g, (closed l u). split; [exact Hg|]. split; [|apply mem_closed; exact B]. apply (proj2 (cur_spec cont_pos _ _ Cu)). split; [lia|]. split; [rewrite <- L1; apply nth_error_Some; rewrite E3; discriminate|].
    exists l, u. unfold entry_at. rewrite E1, E2. auto.
  Qed.

  Lemma collect_complete H : forall t, on_grid h ag cont t -> runs_to h ag cont H t -> exists R W, collect t = Some R /\
    (c_start (content t) + QN W * h == H)%Q /\ length R = length ag /\ Forall (fun g => full cont g W) R /\
    forall p a i j x, nth_error ag p = Some a -> occurs h t i a j x -> has R p i j x.
  Proof.
    intros t. induction t as [n ch IH] using tree_ind'. intros G RT. inversion G as [n' ch' len C Lp Ck Ce Cg]; subst. inversion RT as [n' ch' len' C' RE RL RC]; subst.
    rewrite <- (covers_unique C C') in *. clear C'. rewrite collect_eq. destruct (covers_own cont_pos C) as (tr0 & cur & T0 & L0 & M & O & F). rewrite T0. cbn [obind]. rewrite M. cbn [obind].
    assert (Fful : Forall (fun g => full cont g len) cur) by (eapply Forall_impl; [|exact F]; cbn; tauto).
    assert (Lcur : length cur = length ag) by (symmetry; exact (Forall2_len O)).
    destruct ch as [|c0 ch0] eqn:Ech.
    - exists cur, len. split; [reflexivity|]. split; [apply RL; reflexivity|]. split; [exact Lcur|]. split; [exact Fful|]. intros p a i j x Ha Oc.
      inversion Oc as [n' ch' a' tr r lo hi j' l u x' D1 D2 D3 D4 D5 D6|n' ch' c k i' a' j' x' D1]; subst; [eapply occurs_here; eassumption|destruct D1].
    - rewrite <- Ech in *. assert (NE : ch <> []) by (rewrite Ech; discriminate). clear RL. rewrite Forall_forall in IH.
      destruct (choose_list _ ch Ck) as (offs & Ho). assert (Hs := Forall2_map_l (fun c => c_start (content c)) _ Ho).
      assert (Rec : exists children, mapM collect ch = Some children /\ Forall2 (fun c x => exists W, (c_start (content c) + QN W * h == H)%Q /\ length x = length ag /\ Forall (fun g => full cont g W) x /\
        forall p a i j y, nth_error ag p = Some a -> occurs h c i a j y -> has x p i j y) ch children).
      { clear -IH Cg RC. induction ch as [|c r IHl]; [exists []; split; [reflexivity|constructor]|]. destruct IHl as (xs & E & Fx); [intros; apply IH; [right; assumption|assumption|assumption]|intros; apply Cg; right; assumption|intros; apply RC; right; assumption|].
        destruct (IH c (or_introl eq_refl)) as (x & W & Ex & Rest); [apply Cg; left; reflexivity|apply RC; left; reflexivity|]. exists (x :: xs). cbn [mapM]. rewrite Ex. cbn [obind]. rewrite E. split; [reflexivity|]. constructor; [exists W; exact Rest|exact Fx]. }
      destruct Rec as (children & Em & Fc). rewrite Em. cbn [obind]. assert (Em2 := Em). apply mapM_Forall2 in Em2.
      assert (Ec0 : nth_error ch 0 = Some c0) by (rewrite Ech; reflexivity). destruct (Forall2_nth_l _ Ho Ec0) as (o0 & Ho0 & S0). destruct (Forall2_nth_l _ Fc Ec0) as (x0 & Hx0 & W0 & HW0 & _).
      set (W := o0 + W0). assert (HW : (c_start n + QN W * h == H)%Q) by (unfold W; unfold steps_after in S0; rewrite QN_plus; rewrite S0 in HW0; rewrite <- HW0; ring).
      assert (LW : len <= W).
      { apply QN_le. apply (proj1 (Qmult_le_r (QN len) (QN W) h h_pos)). lra. }
      assert (CF : Forall2 (fun c k => k <= W /\ length c = length ag /\ Forall (fun g => full cont g (W - k)) c) children offs).
      { assert (Gen : forall l xs ks, Forall2 (fun c x => exists W, (c_start (content c) + QN W * h == H)%Q /\ length x = length ag /\ Forall (fun g => full cont g W) x /\
            forall p a i j y, nth_error ag p = Some a -> occurs h c i a j y -> has x p i j y) l xs -> Forall2 (fun c k => steps_after h (c_start n) (c_start (content c)) k) l ks ->
            Forall2 (fun c k => k <= W /\ length c = length ag /\ Forall (fun g => full cont g (W - k)) c) xs ks).
        { induction l as [|c l IHl]; intros xs ks F1 F2; inversion F1 as [|? x ? xs' (Wc & HWc & A & B & _) F1']; subst; inversion F2 as [|? k ? ks' Sk F2']; subst; constructor; [|apply IHl; assumption].
          assert (W = k + Wc) as ->.
          { apply steps_of. rewrite QN_plus. unfold steps_after in Sk. rewrite Sk in HWc. transitivity (H - c_start n)%Q; [rewrite <- HW; ring|rewrite <- HWc; ring]. }
          split; [lia|]. split; [exact A|]. replace (k + Wc - k) with Wc by lia. exact B. }
        eapply Gen; eassumption. }
      assert (Chs : Forall (fun c => Forall okg c) children).
      { apply Forall_forall. intros x Ix. apply In_nth_error in Ix. destruct Ix as (q & Hq). destruct (Forall2_nth_r _ Em2 Hq) as (c & Hc & Ex). apply (@collect_sound c); [apply Cg; eapply nth_error_In; exact Hc|exact Ex]. }
      assert (Early : exists k, In k offs /\ k < len).
      { destruct (Ce NE) as (c & k & Ic & Hk & Lk). exists k. split; [|exact Lk]. apply In_nth_error in Ic. destruct Ic as (q & Hq). destruct (Forall2_nth_l _ Ho Hq) as (k' & Hk' & Sk). rewrite (steps_inj h_pos Hk Sk). eapply nth_error_In. exact Hk'. }
      destruct (@join_complete h h_pos h_round a0 ag' cont cont_pos n len Lp C tr0 cur children _ offs T0 F Lcur Chs Hs) with (W := W) as (R & J & LR & FR & A1 & A2);
        [destruct ch; [contradiction|discriminate]|exact Early|rewrite map_length; symmetry; exact (Forall2_len Em2)|exact LW|exact CF|].
      exists R, W. split; [destruct ch; [contradiction|exact J]|]. split; [exact HW|]. split; [exact LR|]. split; [exact FR|]. intros p a i j x Ha Oc.
      inversion Oc as [n' ch' a' tr r lo hi j' l u x' D1 D2 D3 D4 D5 D6|n' ch' c k i' a' j' x' D1 D2 D3]; subst n'; subst; [apply A1; eapply occurs_here; eassumption|].
      apply In_nth_error in D1. destruct D1 as (q & Hq). destruct (Forall2_nth_l _ Ho Hq) as (k' & Hk' & Sk). rewrite (steps_inj h_pos D2 Sk). destruct (Forall2_nth_l _ Fc Hq) as (y & Hy & Wc & _ & _ & _ & B).
      eapply A2; [exact Hy|exact Hk'|]. eapply B; eassumption.
  Qed.

  (** ** Comparing *)
  Lemma allM_true {A} (f : A -> option bool) l : allM f l = Some true <-> forall x, In x l -> f x = Some true.
  Proof.
    induction l as [|x l IH]; cbn [allM].
    - split; [intros _ x []|reflexivity].
    - destruct (f x) as [[|]|] eqn:E; cbn [obind].
      + rewrite IH. split; [intros H y [<-|I]; auto|intros H y I; apply H; right; exact I].
      + split; [discriminate|]. intros H. rewrite (H x (or_introl eq_refl)) in E. discriminate.
      + split; [discriminate|]. intros H. rewrite (H x (or_introl eq_refl)) in E. discriminate.
  Qed.
  Lemma compare_sound tol X Y W : (0 <= tol)%Q -> compare ag cont tol X Y = Some true -> Forall okg X -> length Y = length ag -> Forall (fun g => full cont g W) Y ->
    forall p i j x, has Y p i j x -> exists y, has X p i j y /\ (Qabs (x - y) <= tol)%Q.
  Proof.
    intros Ht H OX LY FY p i j x (g & s & Hg & Hs & Mx). unfold compare in H. rewrite Forall_forall in FY.
    destruct (nth_error Y 0) as [o0|] eqn:E0; [|discriminate]. cbn [obind] in H. destruct (nth_error X 0) as [t0|] eqn:E1; [|discriminate]. cbn [obind] in H. destruct (length t0 <? length o0); [discriminate|].
    destruct (FY g (nth_error_In _ _ Hg)) as (_ & _ & F). destruct (F _ _ _ Hs) as [Li Lj]. assert (L0 : length o0 = W) by (apply (FY o0 (nth_error_In _ _ E0))).
    assert (Lp : p < length ag) by (rewrite <- LY; apply nth_error_Some; rewrite Hg; discriminate).
    rewrite allM_true in H. specialize (H p ltac:(apply in_seq; lia)). rewrite allM_true in H. specialize (H i ltac:(apply in_seq; lia)). rewrite allM_true in H. specialize (H j ltac:(apply in_seq; lia)).
    rewrite Hg in H. cbn [obind] in H. destruct (nth_error X p) as [gx|] eqn:Ex; [|discriminate]. cbn [obind] in H. rewrite Hs in H. cbn [obind] in H. destruct (cell gx i j) as [y|] eqn:Ey; [|discriminate]. cbn [obind] in H. injection H as H.
    assert (Oy : ok y) by (rewrite Forall_forall in OX; eapply OX; [eapply nth_error_In; exact Ex|exact Ey]).
    destruct (@mem_bloat tol y x Ht Oy (@within_mem _ _ _ H Mx)) as (z & Mz & Az). exists z. split; [exists gx, y; auto|exact Az].
  Qed.
  Lemma compare_refl tol X W : (0 <= tol)%Q -> Forall okg X -> length X = length ag -> Forall (fun g => full cont g W) X -> compare ag cont tol X X = Some true.
  Proof.
    intros Ht OX LX FX. rewrite Forall_forall in FX, OX. unfold compare. destruct (nth_error X 0) as [o0|] eqn:E0; [|apply nth_error_None in E0; rewrite LX in E0; cbn in E0; lia]. cbn [obind]. rewrite Nat.ltb_irrefl.
    assert (L0 : length o0 = W) by (apply (FX o0 (nth_error_In _ _ E0))). apply allM_true. intros p Ip. apply in_seq in Ip. apply allM_true. intros i Ii. apply in_seq in Ii. apply allM_true. intros j Ij. apply in_seq in Ij.
    destruct (nth_error X p) as [g|] eqn:Eg; [|apply nth_error_None in Eg; lia]. cbn [obind]. destruct (FX g (nth_error_In _ _ Eg)) as (_ & F & _). destruct (F i j) as (s & Hs); [lia|lia|]. rewrite Hs. cbn [obind]. f_equal. apply within_self; [exact Ht|].
    eapply OX; [eapply nth_error_In; exact Eg|exact Hs].
  Qed.
  (** Whatever the tree, if its ranges can be collected then it contains itself. *)
End Top.

Lemma subset_refl l : subset l l = true.
Proof. unfold subset. apply forallb_forall. intros x I. apply existsb_exists. exists x. split; [exact I|apply Nat.eqb_refl]. Qed.

Theorem contains_refl h H (a0 : nat) ag' strict tol t tr r0 : (0 < h)%Q -> (py_round 10 h == h)%Q -> (0 <= tol)%Q ->
  dget Nat.eqb a0 (c_trace (content t)) = Some tr -> nth_error tr 0 = Some r0 -> 0 < length r0 ->
  on_grid h (a0 :: ag') (length r0) t -> runs_to h (a0 :: ag') (length r0) H t -> contains strict tol (a0 :: ag') t (a0 :: ag') t = Some true.
Proof.
  intros Hh Hr Ht T R0 L0 G RT. unfold contains. rewrite subset_refl. cbn [andb]. assert ((if strict then true else true) = true) as -> by (destruct strict; reflexivity). change (nth_error (a0 :: ag') 0) with (Some a0). cbn [obind]. rewrite T. cbn [obind]. rewrite R0. cbn [obind].
  destruct (collect_complete Hh Hr L0 G RT) as (R & W & E & _ & LR & FR & _). rewrite E. cbn [obind]. eapply compare_refl; [exact L0|exact Ht| |exact LR|exact FR]. apply (collect_sound Hh Hr L0 G E).
Qed.
Theorem contains_sound h H (a0 : nat) ag' ags strict tol ta tb tr r0 : (0 < h)%Q -> (py_round 10 h == h)%Q -> (0 <= tol)%Q ->
  dget Nat.eqb a0 (c_trace (content tb)) = Some tr -> nth_error tr 0 = Some r0 -> 0 < length r0 ->
  on_grid h (a0 :: ag') (length r0) ta -> on_grid h (a0 :: ag') (length r0) tb -> runs_to h (a0 :: ag') (length r0) H tb ->
  contains strict tol ags ta (a0 :: ag') tb = Some true ->
  forall a i j x, In a (a0 :: ag') -> occurs h tb i a j x -> exists y, occurs h ta i a j y /\ (Qabs (x - y) <= tol)%Q.
Proof.
  intros Hh Hr Ht T R0 L0 Ga Gb RT C a i j x Ia Ox. unfold contains in C. destruct (if strict then _ else _); [|discriminate]. change (nth_error (a0 :: ag') 0) with (Some a0) in C. cbn [obind] in C. rewrite T in C. cbn [obind] in C. rewrite R0 in C. cbn [obind] in C.
  destruct (collect a0 (a0 :: ag') (length r0) ta) as [X|] eqn:Ea; [|discriminate]. cbn [obind] in C.
  destruct (collect_complete Hh Hr L0 Gb RT) as (R & W & E & _ & LR & FR & Oc). rewrite E in C. cbn [obind] in C. destruct (collect_sound Hh Hr L0 Ga Ea) as [OX SX].
  apply In_nth_error in Ia. destruct Ia as (p & Hp). destruct (compare_sound L0 Ht C OX LR FR (Oc _ _ _ _ _ Hp Ox)) as (y & Hy & Ay). exists y. split; [eapply SX; eassumption|exact Ay].
Qed.
