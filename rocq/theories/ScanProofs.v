(** Proofs about the tube scan. *)
From Coq Require Import Ascii String.
From Verif Require Import Base BaseFacts Dict PyText Reset ResetSpec ResetProofs Scan ScanSpec.
From Coq Require Import Permutation.
Set Implicit Arguments.
Open Scope nat_scope.

Section Proofs.
  Variables path cond : Type.
  Variable pvar : path -> word.
  Variable agents : list (dlogic path cond).
  Variable disc : nat -> path -> bool.
  Variable hyb : nat -> path -> nat -> bool.
  Variable cont : nat -> path -> nat -> bool * bool.
  Variable certain : nat -> cond -> nat -> bool.

  Notation checked := (checked agents).
  Notation violates := (violates agents certain).
  Notation violation := (violation agents certain).
  Notation may := (may agents disc hyb cont).
  Notation must := (must agents disc hyb cont).
  Notation fires := (fires agents disc hyb cont certain).
  Notation surely := (surely agents disc hyb cont certain).
  Notation choice := (choice pvar agents disc hyb cont).

  (** ** Grouping with [dappend] *)
  Section Group.
    Variables (K V : Type) (eqb : K -> K -> bool).
    Hypothesis eqb_eq : forall a b, eqb a b = true <-> a = b.
    Variables (key : V -> K) (keep : V -> bool).
    Definition group (l : list V) (d : dict K (list V)) : dict K (list V) :=
      fold_left (fun d v => if keep v then dappend eqb (key v) v d else d) l d.

    Lemma group_get l : forall d k,
      dget eqb k (group l d) =
      match dget eqb k d, filter (fun v => keep v && eqb k (key v)) l with
      | None, [] => None
      | Some x, y => Some (x ++ y)
      | None, y => Some y
      end.
    Proof.
      induction l as [|v l IH]; intros d k; simpl.
      - destruct (dget eqb k d); [rewrite app_nil_r|]; reflexivity.
      - fold (group l (if keep v then dappend eqb (key v) v d else d)). rewrite IH. destruct (keep v); simpl; [|reflexivity].
        destruct (eqb k (key v)) eqn:E.
        + apply eqb_eq in E. subst k. unfold dappend. rewrite dget_alter_same by exact eqb_eq.
          destruct (dget eqb (key v) d); [rewrite <- app_assoc|]; reflexivity.
        + unfold dappend. rewrite dget_alter_other; [reflexivity|exact eqb_eq|].
          intros <-. rewrite (proj2 (eqb_eq (key v) (key v)) eq_refl) in E. discriminate.
    Qed.

    Lemma group_nodup l : forall d, NoDup (map fst d) -> NoDup (map fst (group l d)).
    Proof.
      induction l as [|v l IH]; intros d ND; simpl; [exact ND|].
      fold (group l (if keep v then dappend eqb (key v) v d else d)). apply IH.
      destruct (keep v); [|exact ND]. apply dalter_nodup; assumption.
    Qed.

    (** Every entry lists the kept values with that key, in order, and every kept value is listed. *)
    Lemma group_spec l k vs : In (k, vs) (group l []) <-> vs = filter (fun v => keep v && eqb k (key v)) l /\ vs <> [].
    Proof.
      assert (ND : NoDup (map fst (group l []))) by (apply group_nodup; constructor).
      pose proof (group_get l [] k) as G. simpl in G. split.
      - intros H. rewrite (@In_dget _ _ eqb eqb_eq k vs _ ND H) in G.
        destruct (filter _ l); [discriminate|]. injection G as ->. split; [reflexivity|discriminate].
      - intros [-> Hne]. apply (@dget_In _ _ eqb eqb_eq). rewrite G. destruct (filter _ l); congruence.
    Qed.
  End Group.

  (** ** Combinations *)
  Lemma word_eqb_iff a b : word_eqb a b = true <-> a = b.
  Proof. split; [apply word_eqb_eq|intros ->; apply word_eqb_refl]. Qed.

  Lemma fired_spec a i gs v ps : In (v, ps) (fired pvar hyb cont a i gs) <->
    ps = filter (fun p => (hyb a p i && fst (cont a p i)) && word_eqb v (pvar p)) gs /\ ps <> [].
  Proof. apply (@group_spec word path word_eqb word_eqb_iff pvar (fun p => hyb a p i && fst (cont a p i)) gs v ps). Qed.

  Lemma fired_nodup a i gs : NoDup (map fst (fired pvar hyb cont a i gs)).
  Proof. apply (@group_nodup word path word_eqb word_eqb_iff pvar (fun p => hyb a p i && fst (cont a p i)) gs []). constructor. Qed.

  Lemma Forall2_In_l {A B} (P : A -> B -> Prop) l m a : Forall2 P l m -> In a l -> exists b, In b m /\ P a b.
  Proof. induction 1 as [|x y l m Hxy F IH]; intros Ha; [contradiction|]. destruct Ha as [<-|Ha]; [exists y; simpl; auto|].
    destruct (IH Ha) as (b & H1 & H2). exists b. simpl; auto. Qed.
  Lemma Forall2_In_r {A B} (P : A -> B -> Prop) l m b : Forall2 P l m -> In b m -> exists a, In a l /\ P a b.
  Proof. induction 1 as [|x y l m Hxy F IH]; intros Ha; [contradiction|]. destruct Ha as [<-|Ha]; [exists x; simpl; auto|].
    destruct (IH Ha) as (a0 & H1 & H2). exists a0. simpl; auto. Qed.

  Lemma combos_In (d : dict word (list path)) c : In c (combos d) <-> d <> [] /\ In c (product (map snd d)).
  Proof. destruct d; [simpl; tauto|]. cbn [combos]. split; [intros H; split; [discriminate|exact H]|tauto]. Qed.

  (** A combination picks one satisfied path per variable. *)
  Definition sat (a i : nat) (gs : list path) (p : path) : Prop := In p gs /\ hyb a p i = true /\ fst (cont a p i) = true.

  Lemma combos_sound a i gs c : In c (combos (fired pvar hyb cont a i gs)) ->
    c <> [] /\ NoDup (map pvar c) /\ (forall p, In p c -> sat a i gs p) /\ (forall p, sat a i gs p -> exists q, In q c /\ pvar q = pvar p).
  Proof.
    set (d := fired pvar hyb cont a i gs). intros Hc. apply combos_In in Hc.
    destruct Hc as [Hne Hp]. apply In_product in Hp.
    assert (F : Forall2 (fun p q => pvar p = fst q /\ sat a i gs p) c d).
    { assert (G : forall q, In q d -> forall p, In p (snd q) -> pvar p = fst q /\ sat a i gs p).
      { intros [v ps] Hq p Hp'. apply fired_spec in Hq. destruct Hq as [-> _]. apply filter_In in Hp'.
        destruct Hp' as [H1 H2]. apply andb_prop in H2. destruct H2 as [H2 H3]. apply andb_prop in H2.
        apply word_eqb_eq in H3. simpl. unfold sat. intuition. }
      clear -Hp G. revert c Hp. induction d as [|q d IH]; intros c Hp; inversion Hp; subst; constructor.
      - apply G; simpl; auto.
      - apply IH; auto. intros; apply G; simpl; auto. }
    assert (Em : map pvar c = map fst d). { clear -F. induction F; simpl; [reflexivity|]. destruct H as [-> _]. congruence. }
    split; [|split; [|split]].
    - intros ->. destruct d; [congruence|discriminate].
    - rewrite Em. apply fired_nodup.
    - intros p Hin. destruct (Forall2_In_l _ F Hin) as (q & _ & H). apply H.
    - intros p Hs.
      assert (Hv : In (pvar p, filter (fun p' => (hyb a p' i && fst (cont a p' i)) && word_eqb (pvar p) (pvar p')) gs) d).
      { apply fired_spec. split; [reflexivity|]. intros E.
        assert (In p []); [|contradiction]. rewrite <- E. apply filter_In. destruct Hs as (H1 & H2 & H3).
        split; [exact H1|]. rewrite H2, H3, word_eqb_refl. reflexivity. }
      destruct (Forall2_In_r _ F Hv) as (q & Hq & Eq & _). exists q. split; [exact Hq|exact Eq].
  Qed.

  Lemma combos_complete a i gs c :
    c <> [] -> NoDup (map pvar c) -> (forall p, In p c -> sat a i gs p) -> (forall p, sat a i gs p -> exists q, In q c /\ pvar q = pvar p) ->
    exists c', Permutation c c' /\ In c' (combos (fired pvar hyb cont a i gs)).
  Proof.
    intros Hne ND Hs Hall. set (d := fired pvar hyb cont a i gs).
    assert (Hd : forall q, In q d -> exists p, In p c /\ pvar p = fst q /\ In p (snd q)).
    { intros [v ps] Hq. apply fired_spec in Hq. destruct Hq as [-> Hn].
      destruct (filter _ gs) as [|p0 ps0] eqn:E; [congruence|]. clear Hn.
      assert (Hin : In p0 (filter (fun p => (hyb a p i && fst (cont a p i)) && word_eqb v (pvar p)) gs)) by (rewrite E; simpl; auto).
      apply filter_In in Hin. destruct Hin as [H1 H2]. apply andb_prop in H2. destruct H2 as [H2 H3]. apply andb_prop in H2.
      apply word_eqb_eq in H3. destruct (Hall p0) as (q & Hq & Eq); [unfold sat; tauto|].
      exists q. split; [exact Hq|]. cbn [fst snd]. split; [congruence|]. rewrite <- E. apply filter_In.
      destruct (Hs q Hq) as (A & B & C). split; [exact A|]. rewrite B, C. simpl. apply word_eqb_iff. congruence. }
    (* pick, for each variable of [d], the path of [c] *)
    assert (Hpick : forall d', (forall q, In q d' -> exists p, In p c /\ pvar p = fst q /\ In p (snd q)) ->
              exists c', Forall2 (fun p q => In p c /\ pvar p = fst q /\ In p (snd q)) c' d').
    { induction d' as [|q d' IH]; intros H; [exists []; constructor|].
      destruct (H q) as (p & Hp); [simpl; auto|]. destruct IH as (c' & Hc'); [intros; apply H; simpl; auto|].
      exists (p :: c'). constructor; assumption. }
    destruct (Hpick d Hd) as (c' & F). exists c'.
    assert (Em : map pvar c' = map fst d). { clear -F. induction F; simpl; [reflexivity|]. destruct H as (_ & -> & _). congruence. }
    assert (ND' : NoDup c').
    { apply (NoDup_map_inv pvar). rewrite Em. apply fired_nodup. }
    split.
    - apply NoDup_Permutation; [apply (NoDup_map_inv pvar); exact ND|exact ND'|].
      intros p. split; intros Hp.
      + assert (Hv : In (pvar p, filter (fun p' => (hyb a p' i && fst (cont a p' i)) && word_eqb (pvar p) (pvar p')) gs) d).
        { apply fired_spec. split; [reflexivity|]. intros E.
          assert (In p []); [|contradiction]. rewrite <- E. apply filter_In. destruct (Hs p Hp) as (H1 & H2 & H3).
          split; [exact H1|]. rewrite H2, H3, word_eqb_refl. reflexivity. }
        destruct (Forall2_In_r _ F Hv) as (q & Hq & Hqc & Eq & _). simpl in Eq.
        replace p with q; [exact Hq|].
        (* equal variables in [c] *)
        apply In_nth_error in Hp, Hqc. destruct Hp as [m Hm], Hqc as [n Hn].
        assert (m = n); [|congruence].
        apply (proj1 (NoDup_nth_error (map pvar c)) ND).
        * apply nth_error_Some. rewrite (map_nth_error pvar _ _ Hm). discriminate.
        * rewrite (map_nth_error pvar _ _ Hm), (map_nth_error pvar _ _ Hn). congruence.
      + destruct (Forall2_In_l _ F Hp) as (q & _ & H & _). exact H.
    - apply combos_In. split.
      + intros Ed. destruct c as [|p c0]; [congruence|].
        assert (Hv : In (pvar p, filter (fun p' => (hyb a p' i && fst (cont a p' i)) && word_eqb (pvar p) (pvar p')) gs) d).
        { apply fired_spec. split; [reflexivity|]. intros E.
          assert (In p []); [|contradiction]. rewrite <- E. apply filter_In. destruct (Hs p (or_introl eq_refl)) as (H1 & H2 & H3).
          split; [exact H1|]. rewrite H2, H3, word_eqb_refl. reflexivity. }
        rewrite Ed in Hv. contradiction.
      + apply In_product. clear -F. induction F; simpl; constructor; tauto.
  Qed.

  Lemma combos_nil a i gs : combos (fired pvar hyb cont a i gs) = [] <-> forall p, ~ sat a i gs p.
  Proof.
    split.
    - intros E p Hs. set (d := fired pvar hyb cont a i gs) in *.
      assert (Hv : In (pvar p, filter (fun p' => (hyb a p' i && fst (cont a p' i)) && word_eqb (pvar p) (pvar p')) gs) d).
      { apply fired_spec. split; [reflexivity|]. intros E'.
        assert (In p []); [|contradiction]. rewrite <- E'. apply filter_In. destruct Hs as (H1 & H2 & H3).
        split; [exact H1|]. rewrite H2, H3, word_eqb_refl. reflexivity. }
      assert (Hp : exists c, In c (product (map snd d))).
      { assert (G : forall q, In q d -> snd q <> []) by (intros [v ps] Hq; apply fired_spec in Hq; tauto).
        clear -G. induction d as [|[v ps] d IH]; [exists []; simpl; auto|].
        destruct IH as (c & Hc); [intros; apply G; simpl; auto|].
        destruct ps as [|p ps]; [exfalso; apply (G (v, [])); simpl; auto|].
        exists (p :: c). apply In_product. constructor; [simpl; auto|]. apply In_product. exact Hc. }
      destruct Hp as (c & Hc). assert (Hin : In c (combos d)).
      { apply combos_In. split; [|exact Hc]. intros Ed. rewrite Ed in Hv. contradiction. }
      rewrite E in Hin. contradiction.
    - intros H. destruct (combos (fired pvar hyb cont a i gs)) as [|c cs] eqn:E; [reflexivity|exfalso].
      destruct (@combos_sound a i gs c) as (Hne & _ & Hs & _); [rewrite E; simpl; auto|].
      destruct c as [|p c]; [congruence|]. apply (H p). apply Hs. simpl; auto.
  Qed.

  (** ** The guard dictionary *)
  Lemma all_paths_In a p : In (a, p) (all_paths agents) <-> exists lg, nth_error agents a = Some lg /\ In p (d_paths lg).
  Proof.
    unfold all_paths. rewrite in_flat_map. split.
    - intros (b & _ & H). destruct (nth_error agents b) as [lg|] eqn:E; [|contradiction].
      apply in_map_iff in H. destruct H as (q & [= -> ->] & Hq). eauto.
    - intros (lg & E & Hp). exists a. split; [apply in_seq; split; [lia|]; apply nth_error_Some; congruence|].
      rewrite E. apply in_map. exact Hp.
  Qed.

  Lemma Nat_eqb_iff a b : Nat.eqb a b = true <-> a = b. Proof. apply Nat.eqb_eq. Qed.

  Lemma guard_dict_fold ps : forall d,
    (forall a gs, In (a, gs) d -> gs <> []) -> NoDup (map fst d) ->
    forall a p, (exists gs, dget Nat.eqb a (fold_left (fun d p => if agent_has_args agents (fst p) && disc (fst p) (snd p) then dappend Nat.eqb (fst p) (snd p) d else d) ps d) = Some gs /\ In p gs) <->
      (exists gs, dget Nat.eqb a d = Some gs /\ In p gs) \/ (In (a, p) ps /\ agent_has_args agents a = true /\ disc a p = true).
  Proof.
    induction ps as [|[b q] ps IH]; intros d Hne ND a p; simpl; [tauto|].
    destruct (agent_has_args agents b && disc b q) eqn:E.
    - apply andb_prop in E. etransitivity; [apply (IH (dappend Nat.eqb b q d))|].
      3: { unfold dappend. destruct (Nat.eq_dec b a) as [<-|Hab].
        * rewrite dget_alter_same by exact Nat_eqb_iff. split.
          -- intros [(gs & [= <-] & H)|H]; [|tauto]. destruct (dget Nat.eqb b d) as [l|] eqn:Ed.
             ++ apply in_app_iff in H. destruct H as [H|[->|[]]]; [left; eauto|right; tauto].
             ++ destruct H as [->|[]]. right; tauto.
          -- intros [(gs & Ed & H)|([[= ->]|H] & H1)].
             ++ left. eexists. split; [reflexivity|]. rewrite Ed. apply in_or_app; auto.
             ++ left. eexists. split; [reflexivity|]. destruct (dget Nat.eqb b d); [apply in_or_app|]; simpl; auto.
             ++ right; tauto.
        * rewrite dget_alter_other; [|exact Nat_eqb_iff|exact Hab]. split; [tauto|].
          intros [H|([[= -> ->]|H] & H1)]; [tauto|congruence|tauto]. }
      + intros a' gs' H. apply (@In_dget _ _ Nat.eqb Nat_eqb_iff) in H; [|apply dalter_nodup; [exact Nat_eqb_iff|exact ND]].
        unfold dappend in H. destruct (Nat.eq_dec b a') as [<-|Hab].
        * rewrite dget_alter_same in H by exact Nat_eqb_iff. injection H as <-. destruct (dget Nat.eqb b d) as [[|? ?]|]; simpl; congruence.
        * rewrite dget_alter_other in H; [|exact Nat_eqb_iff|exact Hab]. apply (Hne a' gs').
          apply (@dget_In _ _ Nat.eqb Nat_eqb_iff). exact H.
      + apply dalter_nodup; [exact Nat_eqb_iff|exact ND].
    - etransitivity; [apply (IH d); auto|]. split; [tauto|]. intros [H|([[= -> ->]|H] & H1)]; [tauto| |tauto].
      destruct H1 as [H1 H2]. rewrite H1, H2 in E. discriminate.
  Qed.

  Notation gd := (guard_dict agents disc (all_paths agents)).

  Lemma gd_In a p : (exists gs, dget Nat.eqb a gd = Some gs /\ In p gs) <->
    (exists lg, checked a lg /\ In p (d_paths lg)) /\ disc a p = true.
  Proof.
    unfold guard_dict. rewrite guard_dict_fold; [|intros ? ? []|constructor]. rewrite all_paths_In. simpl.
    unfold checked, agent_has_args. split.
    - intros [(gs & [=] & _)|((lg & E & Hp) & H1 & H2)]. rewrite E in H1. split; [eauto 6|exact H2].
    - intros ((lg & (E & H1) & Hp) & H2). right. rewrite E. eauto 6.
  Qed.

  Lemma sat_may a i gs p : dget Nat.eqb a gd = Some gs -> (sat a i gs p <-> may a i p).
  Proof.
    intros E. unfold sat, ScanSpec.may. pose proof (gd_In a p) as G. rewrite E in G. split.
    - intros (H1 & H2 & H3). destruct (proj1 G) as [A B]; [eauto|]. auto.
    - intros (H1 & H2 & H3 & H4). destruct (proj2 G (conj H1 H2)) as (gs' & [= <-] & Hin). auto.
  Qed.

  Lemma gd_none a : dget Nat.eqb a gd = None -> forall i p, ~ may a i p /\ ~ must a i p.
  Proof.
    intros E i p. pose proof (gd_In a p) as G. rewrite E in G.
    split; intros (H1 & H2 & _); destruct (proj2 G (conj H1 H2)) as (gs & [=] & _).
  Qed.

  (** ** One index *)
  Lemma asserts_at_In (lg : dlogic path cond) a i l : In l (asserts_at certain lg a i) <-> exists x, In x (d_asserts lg) /\ broken certain a i x /\ fst (fst x) = l.
  Proof.
    unfold asserts_at, broken. rewrite in_map_iff. split.
    - intros (x & E & H). apply filter_In in H. destruct H as [H1 H2]. apply andb_prop in H2.
      rewrite negb_true_iff in H2. eauto.
    - intros (x & H1 & [H2 H3] & E). exists x. split; [exact E|]. apply filter_In. rewrite H2, H3. auto.
  Qed.

  Lemma asserts_at_nil (lg : dlogic path cond) a i : checked a lg -> (asserts_at certain lg a i = [] <-> ~ violates a i).
  Proof.
    intros Hc. split.
    - intros E (lg' & x & Hc' & Hx & Hb). assert (lg' = lg) by (destruct Hc, Hc'; congruence). subst.
      assert (H : In (fst (fst x)) (asserts_at certain lg a i)) by (apply asserts_at_In; eauto). rewrite E in H. contradiction.
    - intros H. destruct (asserts_at certain lg a i) as [|l ls] eqn:E; [reflexivity|exfalso].
      assert (Hl : In l (asserts_at certain lg a i)) by (rewrite E; simpl; auto).
      apply asserts_at_In in Hl. destruct Hl as (x & H1 & H2 & _). apply H. exists lg, x. auto.
  Qed.

  Definition no_cg : nat -> list (path * nat) := fun _ => [].

  (** What the visit of index [i] has found after the first [k] agents. *)
  Definition vinv (i k : nat) (v : visit_acc path) : Prop :=
    let '(asr, hits, any) := v in
    (forall a ls, In (a, ls) asr <-> a < k /\ violates a i /\ exists lg, checked a lg /\ ls = asserts_at certain lg a i) /\
    (forall a c, In (a, c) hits <-> a < k /\ ~ violates a i /\ exists gs, dget Nat.eqb a gd = Some gs /\ In c (combos (fired pvar hyb cont a i gs))) /\
    (any = true <-> exists a p, a < k /\ must a i p /\ ~ violates a i).

  Lemma sure_spec a i gs : dget Nat.eqb a gd = Some gs -> (sure hyb cont a i gs = true <-> exists p, must a i p).
  Proof.
    intros E. unfold sure. rewrite existsb_exists. split.
    - intros (p & Hp & H). apply andb_prop in H. exists p. destruct (proj1 (gd_In a p)) as [A B]; [rewrite E; eauto|].
      unfold ScanSpec.must. tauto.
    - intros (p & H1 & H2 & H3 & H4). exists p. destruct (proj2 (gd_In a p) (conj H1 H2)) as (gs' & E' & Hin).
      rewrite E in E'. injection E' as <-. rewrite H3, H4. auto.
  Qed.

  Lemma visit_step i k v : k < length agents -> vinv i k v ->
    exists v', visit_agent pvar agents hyb cont certain no_cg gd i v k = Some v' /\ vinv i (S k) v'.
  Proof.
    intros Hk. destruct v as [[asr hits] any]. intros (HA & HH & HS). unfold visit_agent.
    destruct (nth_error agents k) as [lg|] eqn:El; [|apply nth_error_None in El; lia].
    destruct (has_args lg) eqn:Eh; simpl.
    2: { exists (asr, hits, any). split; [reflexivity|].
      assert (Hnc : forall lg', ~ checked k lg') by (intros lg' [H1 H2]; congruence).
      assert (Hnv : ~ violates k i) by (intros (lg' & x & H & _); eapply Hnc; eauto).
      assert (Hng : dget Nat.eqb k gd = None).
      { destruct (dget Nat.eqb k gd) as [gs|] eqn:E; [exfalso|reflexivity].
        unfold guard_dict in E. clear -E El Eh.
        assert (G : forall ps d, dget Nat.eqb k d = None ->
          dget Nat.eqb k (fold_left (fun d p => if agent_has_args agents (fst p) && disc (fst p) (snd p) then dappend Nat.eqb (fst p) (snd p) d else d) ps d) = None).
        { induction ps as [|[b q] ps IH]; intros d Hd; simpl; [exact Hd|]. apply IH.
          destruct (agent_has_args agents b && disc b q) eqn:E'; [|exact Hd]. unfold dappend.
          rewrite dget_alter_other; [exact Hd|exact Nat_eqb_iff|]. intros ->. unfold agent_has_args in E'. rewrite El, Eh in E'. discriminate. }
        rewrite G in E; [discriminate|reflexivity]. }
      split; [|split].
      - intros a ls. rewrite HA. split; [intros (H1 & H2); split; [lia|exact H2]|].
        intros (H1 & H2 & H3). destruct (Nat.eq_dec a k) as [->|]; [contradiction|]. split; [lia|auto].
      - intros a c. rewrite HH. split; [intros (H1 & H2); split; [lia|exact H2]|].
        intros (H1 & H2 & gs & H3 & H4). destruct (Nat.eq_dec a k) as [->|]; [congruence|]. split; [lia|eauto].
      - rewrite HS. split; [intros (a & p & H1 & H2); exists a, p; split; [lia|exact H2]|].
        intros (a & p & H1 & H2 & H3). destruct (Nat.eq_dec a k) as [->|]; [exfalso; eapply gd_none; eauto|].
        exists a, p. split; [lia|auto]. }
    assert (Hc : checked k lg) by (split; assumption).
    destruct (asserts_at certain lg k i) as [|l ls] eqn:Ea.
    - pose proof (proj1 (asserts_at_nil i Hc) Ea) as Hnv.
      destruct (dget Nat.eqb k gd) as [gs|] eqn:Eg.
      + simpl. eexists. split; [reflexivity|]. split; [|split].
        * intros a ls. rewrite HA. split; [intros (H1 & H2); split; [lia|exact H2]|].
          intros (H1 & H2 & H3). destruct (Nat.eq_dec a k) as [->|]; [contradiction|]. split; [lia|auto].
        * intros a c. rewrite in_app_iff, HH, in_map_iff. split.
          -- intros [(H1 & H2)|(c' & [= -> ->] & Hin)]; [split; [lia|exact H2]|]. split; [lia|]. split; [exact Hnv|eauto].
          -- intros (H1 & H2 & gs' & H3 & H4). destruct (Nat.eq_dec a k) as [->|].
             ++ right. rewrite Eg in H3. injection H3 as <-. eauto.
             ++ left. split; [lia|eauto].
        * rewrite orb_true_iff, HS, (@sure_spec k i gs Eg). split.
          -- intros [(a & p & H1 & H2)|(p & Hp)]; [exists a, p; split; [lia|exact H2]|exists k, p; auto].
          -- intros (a & p & H1 & H2 & H3). destruct (Nat.eq_dec a k) as [->|]; [right; eauto|left].
             exists a, p. split; [lia|auto].
      + eexists. split; [reflexivity|]. split; [|split].
        * intros a ls. rewrite HA. split; [intros (H1 & H2); split; [lia|exact H2]|].
          intros (H1 & H2 & H3). destruct (Nat.eq_dec a k) as [->|]; [contradiction|]. split; [lia|auto].
        * intros a c. rewrite HH. split; [intros (H1 & H2); split; [lia|exact H2]|].
          intros (H1 & H2 & gs & H3 & H4). destruct (Nat.eq_dec a k) as [->|]; [congruence|]. split; [lia|eauto].
        * rewrite HS. split; [intros (a & p & H1 & H2); exists a, p; split; [lia|exact H2]|].
          intros (a & p & H1 & H2 & H3). destruct (Nat.eq_dec a k) as [->|]; [exfalso; eapply gd_none; eauto|].
          exists a, p. split; [lia|auto].
    - assert (Hv : violates k i).
      { assert (Hl : In l (asserts_at certain lg k i)) by (rewrite Ea; simpl; auto).
        apply asserts_at_In in Hl. destruct Hl as (x & H1 & H2 & _). exists lg, x. auto. }
      eexists. split; [reflexivity|]. split; [|split].
      + intros a ls'. rewrite in_app_iff, HA. split.
        * intros [(H1 & H2)|[[= <- <-]|[]]]; [split; [lia|exact H2]|]. split; [lia|]. split; [exact Hv|]. exists lg. rewrite Ea. auto.
        * intros (H1 & H2 & lg' & H3 & H4). destruct (Nat.eq_dec a k) as [->|].
          -- right. left. assert (lg' = lg) by (destruct H3, Hc; congruence). subst. rewrite Ea. reflexivity.
          -- left. split; [lia|eauto].
      + intros a c. rewrite HH. split; [intros (H1 & H2); split; [lia|exact H2]|].
        intros (H1 & H2 & H3). destruct (Nat.eq_dec a k) as [->|]; [contradiction|]. split; [lia|auto].
      + rewrite HS. split; [intros (a & p & H1 & H2); exists a, p; split; [lia|exact H2]|].
        intros (a & p & H1 & H2 & H3). destruct (Nat.eq_dec a k) as [->|]; [contradiction|]. exists a, p. split; [lia|auto].
  Qed.

  Lemma visit_spec i : exists v, visit pvar agents hyb cont certain no_cg gd i = Some v /\ vinv i (length agents) v.
  Proof.
    unfold visit.
    assert (G : forall n k v, k + n = length agents -> vinv i k v ->
      exists v', fold_left (fun acc a => do x <- acc; visit_agent pvar agents hyb cont certain no_cg gd i x a) (seq k n) (Some v) = Some v' /\ vinv i (length agents) v').
    { induction n as [|n IH]; intros k v Hn Hv; simpl.
      - exists v. split; [reflexivity|]. replace (length agents) with k by lia. exact Hv.
      - destruct (@visit_step i k v) as (v1 & E1 & H1); [lia|exact Hv|]. rewrite E1. apply IH; [lia|exact H1]. }
    apply G; [lia|]. split; [|split].
    - intros a ls. split; [intros []|lia].
    - intros a c. split; [intros []|lia].
    - split; [discriminate|]. intros (a & p & H & _). lia.
  Qed.

  Lemma checked_lt a lg : checked a lg -> a < length agents.
  Proof. intros [H _]. apply nth_error_Some. congruence. Qed.

  Lemma may_lt a i p : may a i p -> a < length agents.
  Proof. intros ((lg & H & _) & _). eapply checked_lt; eauto. Qed.
  Lemma must_lt a i p : must a i p -> a < length agents.
  Proof. intros ((lg & H & _) & _). eapply checked_lt; eauto. Qed.
  Lemma violates_lt a i : violates a i -> a < length agents.
  Proof. intros (lg & x & H & _). eapply checked_lt; eauto. Qed.

  Lemma vinv_facts i asr hits any : vinv i (length agents) (asr, hits, any) ->
    (asr <> [] <-> violation i) /\ (hits <> [] <-> fires i) /\ (any = true <-> surely i) /\
    (forall a c, In (a, c) hits -> choice a i c /\ ~ violates a i) /\
    (forall a c, choice a i c -> ~ violates a i -> exists c', Permutation c c' /\ In (a, c') hits) /\
    (forall a ls, In (a, ls) asr <-> violates a i /\ exists lg, checked a lg /\ ls = asserts_at certain lg a i).
  Proof.
    intros (HA & HH & HS). split; [|split; [|split; [|split; [|split]]]].
    - split.
      + destruct asr as [|[a ls] asr]; [congruence|]. intros _. exists a. apply (HA a ls). simpl; auto.
      + intros (a & Hv). destruct Hv as (lg & x & Hc & Hr). intros ->.
        apply (proj2 (HA a (asserts_at certain lg a i))). split; [eapply checked_lt; eauto|].
        split; [exists lg, x; auto|exists lg; auto].
    - split.
      + destruct hits as [|[a c] hits]; [congruence|]. intros _.
        destruct (proj1 (HH a c)) as (_ & Hv & gs & Eg & Hc); [simpl; auto|].
        destruct (combos_sound _ _ _ _ Hc) as (Hne & _ & Hs & _). destruct c as [|p c]; [congruence|].
        exists a, p. split; [|exact Hv]. apply (@sat_may a i gs p Eg). apply Hs. simpl; auto.
      + intros (a & p & Hm & Hv) E.
        destruct (proj2 (gd_In a p)) as (gs & Eg & _); [destruct Hm as (H1 & H2 & _); auto|].
        destruct (combos (fired pvar hyb cont a i gs)) as [|c cs] eqn:Ec.
        * apply (proj1 (combos_nil a i gs) Ec p). apply (@sat_may a i gs p Eg). exact Hm.
        * assert (H : In (a, c) hits). { apply HH. split; [eapply may_lt; eauto|]. split; [exact Hv|]. exists gs. rewrite Ec. simpl; auto. }
          rewrite E in H. contradiction.
    - rewrite HS. unfold ScanSpec.surely. split.
      + intros (a & p & _ & H1 & H2). eauto.
      + intros (a & p & H1 & H2). exists a, p. split; [eapply must_lt; eauto|auto].
    - intros a c H. apply HH in H. destruct H as (_ & Hv & gs & Eg & Hc). split; [|exact Hv].
      destruct (combos_sound _ _ _ _ Hc) as (Hne & ND & Hs & Hall).
      split; [exact Hne|]. split; [exact ND|]. split.
      + intros p Hp. apply (@sat_may a i gs p Eg). auto.
      + intros p Hm. apply Hall. apply (@sat_may a i gs p Eg). exact Hm.
    - intros a c (Hne & ND & Hs & Hall) Hv.
      assert (exists p0, In p0 c) as (p0 & Hp0) by (destruct c as [|p0 c0]; [congruence|exists p0; simpl; auto]).
      assert (Hm0 : may a i p0) by (apply Hs; exact Hp0).
      destruct (proj2 (gd_In a p0)) as (gs & Eg & _); [destruct Hm0 as (H1 & H2 & _); auto|].
      destruct (@combos_complete a i gs c) as (c' & HP & Hc'); auto.
      + intros p Hp. apply (@sat_may a i gs p Eg). auto.
      + intros p Hp. apply Hall. apply (@sat_may a i gs p Eg). exact Hp.
      + exists c'. split; [exact HP|]. apply HH. split; [eapply may_lt; eauto|]. eauto.
    - intros a ls. rewrite HA. split; [intros (_ & H); exact H|].
      intros (Hv & H). split; [eapply violates_lt; eauto|auto].
  Qed.

  (** ** The scan *)
  Definition hits_right (i : nat) (hits : list (hit path)) : Prop :=
    (forall a c, In (a, c) hits -> choice a i c /\ ~ violates a i) /\
    (forall a c, choice a i c -> ~ violates a i -> exists c', Permutation c c' /\ In (a, c') hits).

  (** The collected hits after the indices [0 .. n-1]. *)
  Definition collected (n : nat) (gh : list (list (hit path) * nat)) : Prop :=
    (forall hits i, In (hits, i) gh -> i < n /\ fires i /\ hits <> [] /\ hits_right i hits) /\
    (forall i, i < n -> fires i -> In i (map snd gh)) /\
    (exists k, map snd gh = seq k (length gh)) .

  Notation visited := (visited agents disc hyb cont certain).
  Notation ends := (ends agents disc hyb cont certain).

  Lemma visited_S n : visited n -> ~ violation n -> (n = 0 \/ ~ surely (pred n)) ->
    ((exists i, i < n /\ fires i) -> fires n) -> visited (S n).
  Proof.
    intros (H1 & H2 & H3) Hv Hs Hf. split; [|split].
    - intros i Hi. destruct (Nat.eq_dec i n) as [->|]; [exact Hv|apply H1; lia].
    - intros i j Hij Hj Hi. destruct (Nat.eq_dec j n) as [->|]; [apply Hf; eauto|apply (H2 i j); auto; lia].
    - intros i Hi. destruct (Nat.eq_dec (S i) n) as [<-|]; [destruct Hs; [lia|assumption]|apply H3; lia].
  Qed.

  Lemma scan_spec len : forall m n gh prev,
    n + m = len -> visited n -> (n = 0 \/ ~ surely (pred n)) -> collected n gh ->
    exists n', n <= n' <= len /\ visited n' /\
      ((exists gh', scan pvar agents hyb cont certain None no_cg gd (seq n m) gh prev = Some (Hits gh') /\ collected n' gh' /\ ends n' len) \/
       (exists asr, scan pvar agents hyb cont certain None no_cg gd (seq n m) gh prev = Some (Violated _ asr n') /\ n' < len /\ violation n' /\
          (n' = 0 \/ ~ surely (pred n')) /\
          forall a ls, In (a, ls) asr <-> violates a n' /\ exists lg, checked a lg /\ ls = asserts_at certain lg a n')).
  Proof.
    induction m as [|m IH]; intros n gh prev Hn Hv Hs Hc; cbn [seq scan].
    - exists n. split; [lia|]. split; [exact Hv|]. left. exists gh. split; [reflexivity|]. split; [exact Hc|]. left. lia.
    - destruct (visit_spec n) as ([[asr hits] any] & E & Hi). rewrite E. cbn [obind].
      destruct (vinv_facts Hi) as (FA & FF & FS & FC & FC' & FL).
      destruct asr as [|p0 asr0] eqn:Easr.
      + assert (Hnv : ~ violation n) by (intros H; apply FA in H; congruence).
        destruct hits as [|h0 hits0] eqn:Eh.
        * assert (Hnf : ~ fires n) by (intros H; apply FF in H; congruence).
          destruct gh as [|g0 gh0] eqn:Eg.
          -- assert (Hno : ~ exists i, i < n /\ fires i).
             { intros (i & H1 & H2). destruct Hc as (_ & Hc & _). apply (Hc i H1 H2). }
             assert (Hv' : visited (S n)) by (apply visited_S; auto; tauto).
             destruct any.
             ++ exists (S n). split; [lia|]. split; [exact Hv'|]. left. exists []. split; [reflexivity|]. split.
                ** split; [intros ? ? []|]. split; [|exists 0; reflexivity].
                   intros i Hi' Hf. exfalso. destruct (Nat.eq_dec i n) as [->|]; [contradiction|]. apply Hno. exists i. split; [lia|exact Hf].
                ** right. left. split; [lia|]. simpl. apply FS. reflexivity.
             ++ destruct (IH (S n) [] []) as (n' & Hn' & R); [lia|exact Hv'| | |].
                ** right. simpl. intros H. apply FS in H. discriminate.
                ** split; [intros ? ? []|]. split; [|exists 0; reflexivity].
                   intros i Hi' Hf. exfalso. destruct (Nat.eq_dec i n) as [->|]; [contradiction|]. apply Hno. exists i. split; [lia|exact Hf].
                ** exists n'. split; [lia|exact R].
          -- exists n. split; [lia|]. split; [exact Hv|]. left. eexists. split; [reflexivity|]. split; [exact Hc|].
             right. right. split; [lia|]. split; [exact Hnv|]. split; [exact Hnf|].
             destruct g0 as [h i]. destruct Hc as (Hc & _). destruct (Hc h i) as (H1 & H2 & _); [simpl; auto|]. eauto.
        * rewrite <- Eh in *. assert (Hf : fires n) by (apply FF; rewrite Eh; discriminate).
          assert (Hv' : visited (S n)) by (apply visited_S; auto).
          assert (Hc' : collected (S n) (gh ++ [(hits, n)])).
          { destruct Hc as (C1 & C2 & k & C3). split; [|split].
            - intros h i H. apply in_app_iff in H. destruct H as [H|[[= <- <-]|[]]].
              + destruct (C1 h i H) as (A & B). split; [lia|exact B].
              + split; [lia|]. split; [exact Hf|]. split; [rewrite Eh; discriminate|]. split; assumption.
            - intros i Hi' Hfi. rewrite map_app. apply in_or_app. destruct (Nat.eq_dec i n) as [->|]; [right; simpl; auto|left; apply C2; auto; lia].
            - rewrite map_app, app_length. simpl. destruct gh as [|[h i] gh0].
              + exists n. reflexivity.
              + exists k. rewrite C3. rewrite Nat.add_1_r, seq_S. f_equal. f_equal. simpl length in *.
                (* contiguity: [n - 1] fired as well *)
                assert (Hin : In (pred n) (map snd ((h, i) :: gh0))).
                { destruct (C1 h i) as (A & B & _); [simpl; auto|]. apply C2; [lia|].
                  destruct (Nat.eq_dec i (pred n)) as [<-|]; [exact B|]. destruct Hv as (_ & V & _). apply (V i (pred n)); [lia|lia|exact B]. }
                assert (Hlt : forall j, In j (map snd ((h, i) :: gh0)) -> j < n).
                { intros j Hj. apply in_map_iff in Hj. destruct Hj as ([h' j'] & <- & Hj). apply (C1 h' j'). exact Hj. }
                rewrite C3 in Hin, Hlt. apply in_seq in Hin.
                specialize (Hlt (k + length gh0)). rewrite in_seq in Hlt. simpl length in *. lia. }
          assert (Estep : exists n', n <= n' <= len /\ visited n' /\
             ((exists gh', (if any then Some (Hits (gh ++ [(hits, n)])) else scan pvar agents hyb cont certain None no_cg gd (seq (S n) m) (gh ++ [(hits, n)]) hits) = Some (Hits gh') /\ collected n' gh' /\ ends n' len) \/
              (exists asr, (if any then Some (Hits (gh ++ [(hits, n)])) else scan pvar agents hyb cont certain None no_cg gd (seq (S n) m) (gh ++ [(hits, n)]) hits) = Some (Violated _ asr n') /\ n' < len /\ violation n' /\
                (n' = 0 \/ ~ surely (pred n')) /\
                forall a ls, In (a, ls) asr <-> violates a n' /\ exists lg, checked a lg /\ ls = asserts_at certain lg a n'))).
          { destruct any.
            - exists (S n). split; [lia|]. split; [exact Hv'|]. left. eexists. split; [reflexivity|]. split; [exact Hc'|].
              right. left. split; [lia|]. simpl. apply FS. reflexivity.
            - destruct (IH (S n) (gh ++ [(hits, n)]) hits) as (n' & Hn' & R); [lia|exact Hv'| |exact Hc'|].
              + right. simpl. intros H. apply FS in H. discriminate.
              + exists n'. split; [lia|exact R]. }
          rewrite Eh in Estep |- *. exact Estep.
      + exists n. split; [lia|]. split; [exact Hv|]. right. eexists. split; [reflexivity|]. split; [lia|].
        split; [apply FA; discriminate|]. split; [exact Hs|exact FL].
  Qed.
End Proofs.
