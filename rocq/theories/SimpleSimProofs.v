(** Proofs about simulate_simple. *)
From Coq Require Import Ascii String Qabs Lqa.
From Verif Require Import Base BaseFacts Dict PyText Sensor Round RoundProofs Step SimpleEnv SimpleEnvProofs SimpleSim SimpleSimSpec.
Set Implicit Arguments.
Open Scope nat_scope.

Lemma nth_seq s n i : i < n -> nth_error (seq s n) i = Some (s + i).
Proof. revert s i. induction n as [|n IH]; intros s [|i] H; cbn; try lia; [f_equal; lia|]. rewrite IH by lia. f_equal. lia. Qed.
Lemma mapM_seq {B} (f : nat -> option B) n r : mapM f (seq 0 n) = Some r -> length r = n /\ forall a, a < n -> exists b, f a = Some b /\ nth_error r a = Some b.
Proof.
  intros H. split; [apply mapM_length in H; rewrite seq_length in H; exact H|]. intros a La. apply mapM_Forall2 in H.
  assert (Ea : nth_error (seq 0 n) a = Some a) by (rewrite nth_seq by exact La; reflexivity).
  destruct (Forall2_nth_l _ H Ea) as (b & E1 & E2). eauto.
Qed.
Lemma nth_ext' {A} (l m : list A) : length l = length m -> (forall i, i < length l -> nth_error l i = nth_error m i) -> l = m.
Proof.
  revert m. induction l as [|x l IH]; intros [|y m] L H; try discriminate; [reflexivity|]. pose proof (H 0 ltac:(cbn; lia)) as E. cbn in E. injection E as ->. f_equal.
  apply IH; [cbn in L; lia|]. intros i Hi. apply (H (S i)). cbn. lia.
Qed.

Section Proofs.
  Variable agents : list cagent.
  Variable statics : list (list pyval).
  Variable trace_of : nat -> list pyval -> list pyval -> Q -> option (list vec).
  Variable horizon : Q.
  Variable max_height : option nat.
  Notation does := (does agents statics).
  Notation states_of := (states_of agents statics).
  Notation calm := (calm agents statics).
  Notation look_at := (look_at agents statics).
  Notation scan_rows := (scan_rows agents statics).

  Lemma states_unique trs ms i st st' : states_of trs ms i st -> states_of trs ms i st' -> st = st'.
  Proof.
    intros [L H] [L' H']. apply nth_ext'; [congruence|]. intros a La. rewrite L in La. destruct (H a La) as (t & r & m & s & E1 & E2 & E3 & E4 & E5).
    destruct (H' a La) as (t' & r' & m' & s' & F1 & F2 & F3 & F4 & F5). congruence.
  Qed.
  Lemma states_at_spec trs ms i st : states_at agents statics trs ms i = Some st -> states_of trs ms i st.
  Proof.
    unfold states_at. intros H. apply mapM_seq in H. destruct H as [L H]. split; [exact L|]. intros a La. destruct (H a La) as (b & E & Eb).
    destruct (nth_error trs a) as [t|] eqn:E1; [|discriminate]. cbn [obind] in E. destruct (nth_error t i) as [r|] eqn:E2; [|discriminate]. cbn [obind] in E.
    destruct (nth_error ms a) as [m|] eqn:E3; [|discriminate]. cbn [obind] in E. destruct (nth_error statics a) as [s|] eqn:E4; [|discriminate]. cbn [obind] in E. injection E as <-.
    exists t, r, m, s. auto.
  Qed.

  (** ** One row *)
  Lemma does_unique trs ms i a r r' : does trs ms i a r -> does trs ms i a r' -> r = r'.
  Proof. intros (ag & st & E1 & E2 & E3 & E4) (ag' & st' & F1 & F2 & F3 & F4). rewrite E1 in F1. injection F1 as <-. rewrite (states_unique E3 F3) in E4. congruence. Qed.

  Definition step_look (st : dict nat cstate) (acc : dict nat word * list cmove) (a : nat) : option (dict nat word * list cmove) :=
    do ag <- nth_error agents a;
    if watched ag then
      do r <- react ag a st;
      Some (match r with
            | Stay => acc
            | Move d s => (fst acc, snd acc ++ [(a, (d, s))])
            | Fail l => (fst acc ++ [(a, l)], snd acc)
            end)
    else Some acc.
  Lemma look_fold trs ms i st : states_of trs ms i st -> forall l acc acc', NoDup l -> fold_opt (step_look st) l acc = Some acc' ->
    exists hs mv, acc' = (fst acc ++ hs, snd acc ++ mv) /\
      (forall a x, In (a, x) hs <-> In a l /\ does trs ms i a (Fail x)) /\
      (forall a d s, In (a, (d, s)) mv <-> In a l /\ does trs ms i a (Move d s)) /\ NoDup (map fst mv) /\ (forall a, In a (map fst mv) -> In a l).
  Proof.
    intros Hst. induction l as [|a l IH]; intros acc acc' ND E; cbn [fold_opt] in E.
    - injection E as <-. exists [], []. rewrite !app_nil_r. destruct acc. split; [reflexivity|]. split; [intros; cbn; tauto|]. split; [intros; cbn; tauto|]. split; [constructor|intros ? []].
    - apply NoDup_cons_iff in ND. destruct ND as [N1 N2]. destruct (step_look st acc a) as [acc1|] eqn:E1; [|discriminate]. cbn [obind] in E.
      destruct (IH acc1 acc' N2 E) as (hs & mv & -> & H1 & H2 & H3 & H4). clear IH.
      unfold step_look in E1. destruct (nth_error agents a) as [ag|] eqn:Ea; [|discriminate]. cbn [obind] in E1. destruct (watched ag) eqn:Ew.
      + destruct (react ag a st) as [r|] eqn:Er; [|discriminate]. cbn [obind] in E1. injection E1 as <-.
        assert (Hd : does trs ms i a r) by (exists ag, st; auto).
        destruct r as [|d s|x]; cbn [fst snd].
        * exists hs, mv. split; [reflexivity|]. split; [|split; [|split; [exact H3|intros b Hb; right; now apply H4]]].
          -- intros b y. rewrite H1. cbn. split; [tauto|]. intros [[<-|I] D]; [pose proof (does_unique Hd D); discriminate|tauto].
          -- intros b d s. rewrite H2. cbn. split; [tauto|]. intros [[<-|I] D]; [pose proof (does_unique Hd D); discriminate|tauto].
        * exists hs, ((a, (d, s)) :: mv). rewrite <- app_assoc. split; [reflexivity|]. split; [|split; [|split]].
          -- intros b y. rewrite H1. cbn. split; [tauto|]. intros [[<-|I] D]; [pose proof (does_unique Hd D); discriminate|tauto].
          -- intros b d' s'. cbn. rewrite H2. split; [intros [[= <- <- <-]|[I D]]; auto|]. intros [[<-|I] D]; [left; pose proof (does_unique Hd D); congruence|tauto].
          -- cbn. constructor; [|exact H3]. intros I. apply N1. now apply H4.
          -- cbn. intros b [<-|I]; [now left|right; now apply H4].
        * exists ((a, x) :: hs), mv. rewrite <- app_assoc. split; [reflexivity|]. split; [|split; [|split; [exact H3|intros b Hb; right; now apply H4]]].
          -- intros b y. cbn. rewrite H1. split; [intros [[= <- <-]|[I D]]; auto|]. intros [[<-|I] D]; [left; pose proof (does_unique Hd D); congruence|tauto].
          -- intros b d s. rewrite H2. cbn. split; [tauto|]. intros [[<-|I] D]; [pose proof (does_unique Hd D); discriminate|tauto].
      + injection E1 as <-. assert (Nd : forall r, ~ does trs ms i a r) by (intros r (ag' & st' & F1 & F2 & _); congruence).
        exists hs, mv. split; [reflexivity|]. split; [|split; [|split; [exact H3|intros b Hb; right; now apply H4]]].
        * intros b y. rewrite H1. cbn. split; [tauto|]. intros [[<-|I] D]; [destruct (Nd _ D)|tauto].
        * intros b d s. rewrite H2. cbn. split; [tauto|]. intros [[<-|I] D]; [destruct (Nd _ D)|tauto].
  Qed.
  Lemma does_agent trs ms i a r : does trs ms i a r -> In a (seq 0 (length agents)).
  Proof. intros (ag & st & E & _). apply in_seq. split; [lia|]. cbn. apply nth_error_Some. congruence. Qed.
  Lemma look_spec trs ms i hs mv : look_at trs ms i = Some (hs, mv) ->
    (exists st, states_of trs ms i st) /\
    (forall a x, In (a, x) hs <-> does trs ms i a (Fail x)) /\ (forall a d s, In (a, (d, s)) mv <-> does trs ms i a (Move d s)) /\ NoDup (map fst mv).
  Proof.
    unfold SimpleSim.look_at. destruct (states_at agents statics trs ms i) as [st|] eqn:Es; [|discriminate]. cbn [obind]. intros E. apply states_at_spec in Es.
    destruct (@look_fold trs ms i st Es (seq 0 (length agents)) ([], []) (hs, mv) (seq_NoDup _ _) E) as (hs' & mv' & Eq & H1 & H2 & H3 & _). cbn in Eq. injection Eq as <- <-.
    split; [eauto|]. split; [|split; [|exact H3]].
    - intros a x. rewrite H1. split; [tauto|]. intros D. split; [exact (does_agent D)|exact D].
    - intros a d s. rewrite H2. split; [tauto|]. intros D. split; [exact (does_agent D)|exact D].
  Qed.
  Lemma look_calm trs ms i a r : look_at trs ms i = Some ([], []) -> does trs ms i a r -> r = Stay.
  Proof.
    intros E D. apply look_spec in E. destruct E as (_ & H1 & H2 & _). destruct r as [|d s|x]; [reflexivity| |].
    - apply H2 in D. destruct D.
    - apply H1 in D. destruct D.
  Qed.

  (** ** All rows *)
  Lemma scan_spec trs ms : forall k s res, scan_rows trs ms (seq s k) = Some res -> calm trs ms s ->
    exists n hs mv, res = (hs, mv, n) /\ s <= n /\ n < s + k /\ calm trs ms n /\ NoDup (map fst mv) /\ (exists st, states_of trs ms n st) /\
      (forall a d x, In (a, (d, x)) mv <-> does trs ms n a (Move d x)) /\
      match hs with
      | Some h => h <> [] /\ forall a l, In (a, l) h <-> does trs ms n a (Fail l)
      | None => (forall a l, ~ does trs ms n a (Fail l)) /\ (mv = [] -> calm trs ms (s + k))
      end.
  Proof.
    induction k as [|k IH]; intros s res E Hc; cbn [seq SimpleSim.scan_rows] in E; [discriminate|].
    destruct (look_at trs ms s) as [[h mv]|] eqn:El; [|discriminate]. cbn [obind fst snd] in E. pose proof (look_spec _ _ _ El) as (Hst & H1 & H2 & H3).
    assert (Hnext : h = [] -> mv = [] -> calm trs ms (S s)).
    { intros -> ->. intros i a r Hi D. destruct (Nat.eq_dec i s) as [->|Hne]; [exact (look_calm El D)|]. apply (Hc i a r); [lia|exact D]. }
    destruct h as [|h0 h].
    - destruct mv as [|m0 mv].
      + destruct k as [|k]; cbn [seq] in E.
        * injection E as <-. exists s, None, []. split; [reflexivity|]. split; [lia|]. split; [lia|]. split; [exact Hc|]. split; [constructor|]. split; [exact Hst|]. split; [exact H2|].
          split; [intros a l D; apply H1 in D; exact D|]. intros _. replace (s + 1) with (S s) by lia. now apply Hnext.
        * change (S s :: seq (S (S s)) k) with (seq (S s) (S k)) in E. destruct (IH (S s) res E (Hnext eq_refl eq_refl)) as (n & hs & mv & -> & A & B & C).
          exists n, hs, mv. split; [reflexivity|]. split; [lia|]. split; [lia|]. replace (s + S (S k)) with (S s + S k) by lia. exact C.
      + assert (E' : res = (None, m0 :: mv, s)) by (destruct k; cbn [seq] in E; congruence). subst res.
        exists s, None, (m0 :: mv). split; [reflexivity|]. split; [lia|]. split; [lia|]. split; [exact Hc|]. split; [exact H3|]. split; [exact Hst|]. split; [exact H2|].
        split; [intros a l D; apply H1 in D; exact D|discriminate].
    - assert (E' : res = (Some (h0 :: h), mv, s)) by congruence. subst res.
      exists s, (Some (h0 :: h)), mv. split; [reflexivity|]. split; [lia|]. split; [lia|]. split; [exact Hc|]. split; [exact H3|]. split; [exact Hst|]. split; [exact H2|]. split; [discriminate|exact H1].
  Qed.

  (** ** The children *)
  Lemma dappend_fresh {V} a (v : V) (d : dict nat (list V)) : ~ In a (map fst d) -> dappend Nat.eqb a v d = d ++ [(a, [v])].
  Proof.
    unfold dappend. induction d as [|[k x] d IH]; cbn; intros H; [reflexivity|]. destruct (Nat.eqb_spec a k) as [->|Hne]; [exfalso; apply H; now left|]. f_equal. apply IH. tauto.
  Qed.
  Lemma group_spec (mv : list cmove) : NoDup (map fst mv) -> group mv = map (fun m => (fst m, [m])) mv.
  Proof.
    unfold group. assert (G : forall mv (d : dict nat (list cmove)), NoDup (map fst d ++ map fst mv) -> fold_left (fun d m => dappend Nat.eqb (fst m) m d) mv d = d ++ map (fun m => (fst m, [m])) mv).
    { clear mv. induction mv as [|m mv IH]; intros d N; cbn [fold_left map]; [now rewrite app_nil_r|]. cbn [map] in N. rewrite dappend_fresh.
      - rewrite IH; [now rewrite <- app_assoc|]. rewrite map_app. cbn [map fst]. now rewrite <- app_assoc.
      - apply NoDup_remove_2 in N. intros I. apply N. apply in_app_iff. now left. }
    intros N. rewrite G; [reflexivity|exact N].
  Qed.
  Lemma product_singles {A} (l : list A) : product (map (fun a => [a]) l) = [l].
  Proof. induction l as [|a l IH]; cbn; [reflexivity|]. rewrite IH. reflexivity. Qed.
  Lemma product_group mv : NoDup (map fst mv) -> product (map snd (group mv)) = [mv].
  Proof. intros N. rewrite group_spec by exact N. rewrite map_map. cbn [snd]. apply product_singles. Qed.

  Lemma set_modes : forall (comb : list cmove) ms a, NoDup (map fst comb) ->
    length (fold_left (fun ms t => set_nth (fst t) (fst (snd t)) ms) comb ms) = length ms /\
    nth_error (fold_left (fun ms t => set_nth (fst t) (fst (snd t)) ms) comb ms) a =
      match dget Nat.eqb a comb with Some p => if a <? length ms then Some (fst p) else None | None => nth_error ms a end.
  Proof.
    induction comb as [|[b [d s]] comb IH]; intros ms a N; cbn [fold_left dget fst snd]; [auto|]. cbn [map fst] in N. apply NoDup_cons_iff in N. destruct N as [N1 N2].
    destruct (IH (set_nth b d ms) a N2) as [L E]. rewrite set_nth_length in L, E. split; [exact L|]. rewrite E. destruct (Nat.eqb_spec a b) as [->|Hne].
    - replace (dget Nat.eqb b comb) with (@None (list pyval * list pyval)) by (symmetry; apply (dget_None _ Nat.eqb_eq); exact N1).
      destruct (Nat.ltb_spec b (length ms)); [now apply nth_error_set_nth_same|]. apply nth_error_None. rewrite set_nth_length. lia.
    - destruct (dget Nat.eqb a comb); [reflexivity|]. apply nth_error_set_nth_other. auto.
  Qed.
  Lemma nth_skipn {A} n (l : list A) i : nth_error (skipn n l) i = nth_error l (n + i).
  Proof. revert l. induction n as [|n IH]; intros [|x l]; cbn; try reflexivity; [destruct i; reflexivity|]. apply IH. Qed.

  Lemma child_spec nd trs n mv ch : length trs = length agents -> (exists st, states_of trs (k_mode nd) n st) -> NoDup (map fst mv) ->
    (forall a d x, In (a, (d, x)) mv <-> does trs (k_mode nd) n a (Move d x)) ->
    simple_child nd (map (skipn n) trs) mv = Some ch ->
    continues agents statics nd trs n ch /\ k_hits ch = Some [] /\ k_child ch = [].
  Proof.
    intros L (st & Hst) N Hm E. unfold simple_child in E. destruct (nth_error (map (skipn n) trs) 0) as [t0|] eqn:E0; [|discriminate]. cbn [obind] in E.
    destruct (nth_error t0 0) as [row0|] eqn:E1; [|discriminate]. cbn [obind] in E. destruct (nth_error row0 0) as [time|] eqn:E2; [|discriminate]. cbn [obind] in E.
    destruct (mapM _ (seq 0 (length (map (skipn n) trs)))) as [inits|] eqn:E3; [|discriminate]. cbn [obind] in E. injection E as <-. cbn [k_hits k_child]. split; [|auto].
    apply mapM_seq in E3. destruct E3 as [L3 E3]. rewrite map_length in L3, E3. rewrite nth_error_map in E0. destruct (nth_error trs 0) as [tr|] eqn:Et; [|discriminate]. cbn in E0. injection E0 as <-.
    rewrite nth_skipn, Nat.add_0_r in E1. unfold continues. cbn [k_height k_start k_init k_mode]. split; [reflexivity|]. split; [exists tr, row0, time; auto|]. split; [congruence|].
    split; [apply (set_modes mv (k_mode nd) 0 N)|]. intros a La. rewrite <- L in La. destruct (set_modes mv (k_mode nd) a N) as [_ Em]. destruct (E3 a La) as (b & Eb & Ei).
    split.
    - intros d s D. assert (I : dget Nat.eqb a mv = Some (d, s)) by (apply (In_dget _ Nat.eqb_eq); [exact N|now apply Hm]).
      destruct D as (ag & st' & _ & _ & [_ Hs] & _). rewrite L in La. destruct (Hs a La) as (t & r & m & x & _ & _ & F3 & _).
      rewrite Em, I. assert (Lm : a < length (k_mode nd)) by (apply nth_error_Some; congruence). apply Nat.ltb_lt in Lm. rewrite Lm. split; [reflexivity|]. rewrite I in Eb. cbn [snd] in Eb. congruence.
    - intros Hno. assert (I : dget Nat.eqb a mv = None).
      { apply (dget_None _ Nat.eqb_eq). intros I. apply in_map_iff in I. destruct I as ([a' [d s]] & <- & I). apply Hm in I. exact (Hno d s I). }
      rewrite Em, I. split; [reflexivity|]. rewrite I in Eb. rewrite nth_error_map in Eb. destruct (nth_error trs a) as [t|] eqn:Ea; [|discriminate]. cbn [option_map obind] in Eb.
      destruct (nth_error (skipn n t) 0) as [r|] eqn:Er; [|discriminate]. cbn [obind] in Eb. rewrite nth_skipn, Nat.add_0_r in Er. injection Eb as <-. exists t, r. auto.
  Qed.

  (** ** A node *)
  Notation simple_step := (simple_step agents statics trace_of).
  Lemma traces_spec nd trs : simple_traces agents trace_of nd (time_left horizon nd) = Some trs -> simulated agents trace_of horizon nd trs.
  Proof.
    unfold simple_traces. intros H. apply mapM_seq in H. destruct H as [L H]. split; [exact L|]. intros a La. destruct (H a La) as (b & E & Eb).
    destruct (nth_error (k_mode nd) a) as [m|] eqn:E1; [|discriminate]. cbn [obind] in E. destruct (nth_error (k_init nd) a) as [i|] eqn:E2; [|discriminate]. cbn [obind] in E.
    destruct (trace_of a m i (time_left horizon nd)) as [t|] eqn:E3; [|discriminate]. cbn [obind] in E. injection E as <-. exists m, i, t. auto.
  Qed.

  Lemma left_alone_spec nd : left_alone horizon max_height nd = true <-> over horizon max_height nd.
  Proof.
    unfold left_alone, over, time_left. rewrite orb_true_iff, Qle_bool_iff. split; intros [H|H]; auto.
    - left. destruct max_height as [h|]; [|discriminate]. exists h. split; [reflexivity|]. apply Nat.leb_le in H. lia.
    - left. destruct H as (h & -> & H). apply Nat.leb_le. lia.
  Qed.

  Definition updated (nd : cnode) (tr : list (list vec)) (h : option (dict nat word)) (kids : list nat) : cnode :=
    mk_cnode (map Some tr) (k_init nd) (k_mode nd) (k_start nd) (k_height nd) h kids.
  Lemma step_spec k nd tr h cs : ~ over horizon max_height nd -> simple_step nd (time_left horizon nd) = Some (tr, h, cs) ->
    match cs with
    | [] => node_ok agents statics trace_of horizon max_height k (updated nd tr h []) None
    | [ch] => node_ok agents statics trace_of horizon max_height k (updated nd tr h [S k]) (Some ch) /\ k_hits ch = Some [] /\ k_child ch = []
    | _ => False
    end.
  Proof.
    intros Hov E. unfold SimpleSim.simple_step in E. destruct (simple_traces agents trace_of nd (time_left horizon nd)) as [trs|] eqn:Et; [|discriminate]. cbn [obind] in E.
    destruct (nth_error trs 0) as [t0|] eqn:E0; [|discriminate]. cbn [obind] in E. destruct (scan_rows trs (k_mode nd) (seq 0 (length t0))) as [r|] eqn:Er; [|discriminate]. cbn [obind] in E.
    pose proof (traces_spec _ Et) as Hsim. assert (H0 : calm trs (k_mode nd) 0) by (intros i a x Hi; lia).
    destruct (@scan_spec trs (k_mode nd) (length t0) 0 r Er H0) as (n & hs & mv & -> & _ & Hn & Hc & N & Hst & Hm & Hh). cbn [plus] in Hn, Hh.
    assert (Hpos : 0 < length t0) by lia.
    assert (Cut : map Some (map (firstn (n + 1)) trs) = map (fun t => Some (firstn (n + 1) t)) trs) by (rewrite map_map; reflexivity).
    destruct hs as [hs|].
    - injection E as <- <- <-. split; [reflexivity|]. right. split; [exact Hov|]. exists trs, t0. split; [exact Hsim|]. split; [exact E0|]. split; [exact Hpos|]. right. exists n.
      split; [exact Hn|]. split; [exact Hc|]. split; [exact Cut|]. left. destruct Hh as [Hne Hh]. split; [|split; [reflexivity|exists hs; auto]].
      destruct hs as [|[a l] hs]; [contradiction|]. exists a, l. apply Hh. now left.
    - destruct Hh as [Hf Hall]. destruct mv as [|m0 mv].
      + injection E as <- <- <-. split; [reflexivity|]. right. split; [exact Hov|]. exists trs, t0. split; [exact Hsim|]. split; [exact E0|]. split; [exact Hpos|]. left. split; [now apply Hall|]. auto.
      + rewrite product_group in E by exact N. cbn [mapM] in E. destruct (simple_child nd (map (skipn n) trs) (m0 :: mv)) as [ch|] eqn:Ec; [|discriminate]. cbn [obind] in E. injection E as <- <- <-.
        destruct (@child_spec nd trs n (m0 :: mv) ch (proj1 Hsim) Hst N Hm Ec) as (C1 & C2 & C3). split; [|auto]. split; [reflexivity|]. right. split; [exact Hov|].
        exists trs, t0. split; [exact Hsim|]. split; [exact E0|]. split; [exact Hpos|]. right. exists n. split; [exact Hn|]. split; [exact Hc|]. split; [exact Cut|]. right.
        split; [exact Hf|]. split; [destruct m0 as [a [d s]]; exists a, d, s; apply Hm; now left|]. split; [reflexivity|]. exists ch. auto.
  Qed.

  (** ** The run *)
  Notation work := (work agents statics trace_of horizon max_height).
  Notation node_ok := (node_ok agents statics trace_of horizon max_height).
  (** Nodes [k], [k+1], ...: a path. *)
  Fixpoint path (k : nat) (l : list cnode) : Prop :=
    match l with
    | [] => False
    | [nd] => node_ok k nd None
    | nd :: (nd' :: _) as r => node_ok k nd (Some nd') /\ path (S k) r
    end.
  (** What is kept when a node is processed. *)
  Definition same_start (a b : cnode) : Prop := k_init a = k_init b /\ k_mode a = k_mode b /\ k_start a = k_start b /\ k_height a = k_height b.

  Lemma set_last {A} (pre : list A) x y : set_nth (length pre) y (pre ++ [x]) = pre ++ [y].
  Proof. induction pre as [|z pre IH]; cbn; [reflexivity|]. now rewrite IH. Qed.
  Lemma node_ok_next k nd ch ch' : same_start ch ch' -> node_ok k nd (Some ch) -> node_ok k nd (Some ch').
  Proof.
    intros (S1 & S2 & S3 & S4) [H1 H2]. split; [exact H1|]. destruct H2 as [(_ & X & _)|(Hov & trs & tr0 & A1 & A2 & A3 & H)]; [discriminate|]. right. split; [exact Hov|].
    exists trs, tr0. split; [exact A1|]. split; [exact A2|]. split; [exact A3|]. destruct H as [(_ & _ & _ & X)|(n & B1 & B2 & B3 & H)]; [discriminate|]. right.
    exists n. split; [exact B1|]. split; [exact B2|]. split; [exact B3|]. destruct H as [(_ & X & _)|(C1 & C2 & C3 & ch0 & [= <-] & C4)]; [discriminate|]. right.
    split; [exact C1|]. split; [exact C2|]. split; [exact C3|]. exists ch'. split; [reflexivity|]. unfold continues in *. now rewrite <- S1, <- S2, <- S3, <- S4.
  Qed.

  Lemma work_path : forall fuel pre nd final, k_child nd = [] -> k_hits nd = Some [] -> work fuel (pre ++ [nd]) [length pre] = Done final ->
    exists nd' rest, final = pre ++ nd' :: rest /\ same_start nd nd' /\ path (length pre) (nd' :: rest).
  Proof.
    induction fuel as [|fuel IH]; intros pre nd final Hch Hh E; cbn [SimpleSim.work] in E; [discriminate|].
    rewrite nth_error_app2, Nat.sub_diag in E by lia. cbn [nth_error] in E. destruct (left_alone horizon max_height nd) eqn:El.
    - apply left_alone_spec in El. destruct fuel; cbn [SimpleSim.work] in E; injection E as <-; exists nd, []; (split; [reflexivity|]); (split; [repeat split|]); cbn; (split; [exact Hch|]); left; auto.
    - assert (Hov : ~ over horizon max_height nd) by (intros X; apply left_alone_spec in X; congruence).
      destruct (simple_step nd (py_round 10 (horizon - k_start nd))) as [[[tr h] cs]|] eqn:Es; [|discriminate]. pose proof (step_spec (length pre) Hov Es) as Hs.
      rewrite set_last in E. rewrite app_length in E. cbn [length] in E. rewrite Nat.add_1_r in E.
      destruct cs as [|ch [|? ?]]; [| |destruct Hs].
      + cbn [length seq] in E. destruct fuel; cbn [SimpleSim.work app] in E; injection E as <-; rewrite app_nil_r; exists (updated nd tr h []), []; (split; [reflexivity|]); (split; [repeat split|exact Hs]).
      + cbn [length seq app] in E. destruct Hs as (Hok & Hh' & Hc'). rewrite <- app_assoc in E. cbn [app] in E.
        assert (E' : work fuel ((pre ++ [updated nd tr h [S (length pre)]]) ++ [ch]) [length (pre ++ [updated nd tr h [S (length pre)]])] = Done final).
        { rewrite app_length. cbn [length]. rewrite Nat.add_1_r, <- app_assoc. exact E. }
        destruct (IH _ _ _ Hc' Hh' E') as (nd' & rest & -> & Hsame & Hpath). rewrite app_length in Hpath. cbn [length] in Hpath. rewrite Nat.add_1_r in Hpath.
        exists (updated nd tr h [S (length pre)]), (nd' :: rest). rewrite <- app_assoc. split; [reflexivity|]. split; [repeat split|]. split; [exact (node_ok_next Hsame Hok)|exact Hpath].
  Qed.
  Lemma path_nth : forall l k i nd, path k l -> nth_error l i = Some nd -> node_ok (k + i) nd (nth_error l (S i)).
  Proof.
    induction l as [|x [|y r] IH]; intros k i nd P H; [destruct P| |].
    - destruct i as [|i]; [|destruct i; discriminate]. cbn in H. injection H as <-. rewrite Nat.add_0_r. exact P.
    - destruct P as [P1 P2]. destruct i as [|i]; [cbn in H; injection H as <-; rewrite Nat.add_0_r; exact P1|]. specialize (IH (S k) i nd P2 H). replace (k + S i) with (S k + i) by lia. exact IH.
  Qed.

  Lemma simulate_simple_spec fuel inits modes nodes : simulate_simple agents statics trace_of horizon max_height fuel inits modes = Done nodes ->
    (exists root, nth_error nodes 0 = Some root /\ same_start (simple_root inits modes) root) /\
    forall k nd, nth_error nodes k = Some nd -> node_ok k nd (nth_error nodes (S k)).
  Proof.
    unfold simulate_simple. intros E. destruct (@work_path fuel [] (simple_root inits modes) nodes eq_refl eq_refl E) as (nd' & rest & -> & Hs & P). cbn [app length] in *.
    split; [exists nd'; auto|]. intros k nd H. exact (@path_nth _ 0 _ _ P H).
  Qed.

  (** ** Termination *)
  Lemma work_ends (ok : nat -> cnode -> Prop) :
    (forall n nd, ok n nd -> left_alone horizon max_height nd = true \/
       exists m, n = S m /\ forall tr h ch, ~ over horizon max_height nd -> simple_step nd (time_left horizon nd) = Some (tr, h, [ch]) -> ok m ch) ->
    forall fuel n pre nd, n < fuel -> ok n nd -> work fuel (pre ++ [nd]) [length pre] <> Running.
  Proof.
    intros Hb. induction fuel as [|fuel IH]; intros n pre nd L Hok; [lia|]. cbn [SimpleSim.work]. rewrite nth_error_app2, Nat.sub_diag by lia. cbn [nth_error].
    destruct (left_alone horizon max_height nd) eqn:El; [destruct fuel; discriminate|].
    assert (Hov : ~ over horizon max_height nd) by (intros X; apply left_alone_spec in X; congruence).
    destruct (simple_step nd (py_round 10 (horizon - k_start nd))) as [[[tr h] cs]|] eqn:Es; [|discriminate]. pose proof (step_spec (length pre) Hov Es) as Hs.
    rewrite set_last, app_length. cbn [length]. rewrite Nat.add_1_r. destruct cs as [|ch [|? ?]]; [| |destruct Hs].
    - cbn [length seq app]. destruct fuel; discriminate.
    - cbn [length seq app]. destruct (Hb n nd Hok) as [X|(m & -> & Hm)]; [congruence|]. pose proof (Hm tr h ch Hov Es) as Hch.
      specialize (IH m (pre ++ [updated nd tr h [S (length pre)]]) ch). rewrite app_length in IH. cbn [length] in IH. rewrite Nat.add_1_r in IH. apply IH; [lia|exact Hch].
  Qed.
  Lemma step_continues nd tr h ch : ~ over horizon max_height nd -> simple_step nd (time_left horizon nd) = Some (tr, h, [ch]) ->
    exists trs n, simulated agents trace_of horizon nd trs /\ calm trs (k_mode nd) n /\ (exists a d s, does trs (k_mode nd) n a (Move d s)) /\ continues agents statics nd trs n ch.
  Proof.
    intros Hov E. destruct (step_spec 0 Hov E) as [[_ [(X & _)|(_ & trs & tr0 & A1 & A2 & A3 & [(_ & _ & _ & X)|(n & B1 & B2 & B3 & [(_ & X & _)|(C1 & C2 & C3 & ch' & [= <-] & C4)])])]] _]; try discriminate.
    - destruct (Hov X).
    - exists trs, n. auto.
  Qed.

  Lemma ends_height h : max_height = Some h -> forall fuel inits modes, h <= fuel -> 0 < fuel -> simulate_simple agents statics trace_of horizon max_height fuel inits modes <> Running.
  Proof.
    intros Eh fuel inits modes L P. unfold simulate_simple. apply (@work_ends (fun n nd => h - 1 <= n + k_height nd)) with (n := h - 1) (pre := []); [|lia|cbn; lia].
    intros n nd Hn. destruct n as [|m].
    - left. unfold left_alone. rewrite Eh. apply orb_true_iff. left. apply Nat.leb_le. lia.
    - right. exists m. split; [reflexivity|]. intros tr hh ch Hov E. destruct (step_continues Hov E) as (trs & i & _ & _ & _ & C & _). rewrite C. lia.
  Qed.

  Definition gap : Q := 1 # 20000000000.
  Lemma round_near x : (x - gap <= py_round 10 x /\ py_round 10 x <= x + gap)%Q.
  Proof. pose proof (py_round_close 10 x) as H. apply Qabs_Qle_condition in H. change ((1 # 2) / pow10 10)%Q with gap in H. change ((1#2) / pow10 10)%Q with (1 # 20000000000)%Q in H. unfold gap in *. lra. Qed.
  Lemma ends_time dt : (gap < dt)%Q -> rows_from trace_of dt -> comes_to_rest agents statics trace_of horizon -> forall n fuel inits modes, (horizon + 2 * gap <= inject_Z (Z.of_nat n) * (dt - gap))%Q -> S n < fuel ->
    simulate_simple agents statics trace_of horizon max_height fuel inits modes <> Running.
  Proof.
    intros Hdt Hrow Hrest n fuel inits modes Hn L. unfold simulate_simple.
    set (ok := fun k nd => (horizon + 2 * gap - k_start nd <= inject_Z (Z.of_nat k) * (dt - gap))%Q /\ settled agents statics trace_of horizon nd \/
      exists m, k = S m /\ (k_start nd == 0)%Q /\ (horizon + 2 * gap <= inject_Z (Z.of_nat m) * (dt - gap))%Q).
    apply (@work_ends ok) with (n := S n) (pre := []); [|exact L|right; exists n; repeat split; auto].
    assert (Next : forall nd tr h ch, ~ over horizon max_height nd -> simple_step nd (time_left horizon nd) = Some (tr, h, [ch]) ->
      settled agents statics trace_of horizon ch /\ (k_start nd - gap <= k_start ch)%Q /\ ((k_start nd == 0)%Q -> (0 <= k_start ch)%Q) /\ (settled agents statics trace_of horizon nd -> (k_start nd + dt - gap <= k_start ch)%Q)).
    { intros nd tr h ch Hov E. destruct (step_continues Hov E) as (trs & i & Hsim & Hcalm & Hmove & C). split; [exact (Hrest _ _ _ _ Hsim Hcalm Hmove C)|].
      destruct C as (_ & (tr0 & row & t & C1 & C2 & C3 & C4) & _). rewrite C4. pose proof (round_near t) as [R1 _].
      destruct Hsim as [Ls Hs]. assert (La : 0 < length agents) by (rewrite <- Ls; apply nth_error_Some; congruence). destruct (Hs 0 La) as (m & ini & tr1 & _ & _ & Et & E0).
      rewrite C1 in E0. injection E0 as ->. rewrite nth_error_map in C2. destruct (nth_error tr1 i) as [[|x r]|] eqn:Er; cbn in C2; [injection C2 as <-; discriminate| |discriminate]. injection C2 as <-. cbn in C3. injection C3 as <-.
      destruct (Hrow _ _ _ _ _ _ _ _ Et Er) as [H0 H1]. split; [lra|]. split.
      - intros Hz. apply Qle_trans with (py_round 10 0); [discriminate|]. apply py_round_mono. lra.
      - intros Set_. destruct i as [|i].
        + destruct Hmove as (a & d & s & D). destruct (Set_ trs a d s (conj Ls Hs) D).
        + specialize (H1 ltac:(lia)). lra. }
    assert (G : forall k : nat, (inject_Z (Z.of_nat (S k)) * (dt - gap) == inject_Z (Z.of_nat k) * (dt - gap) + (dt - gap))%Q).
    { intros k. replace (Z.of_nat (S k)) with (Z.of_nat k + 1)%Z by lia. rewrite inject_Z_plus. ring. }
    intros k nd [[Hk Hset]|(m & -> & Hz & Hm)].
    - destruct k as [|k].
      + left. unfold left_alone. apply orb_true_iff. right. apply Qle_bool_iff. pose proof (round_near (horizon - k_start nd)) as [_ R]. change (inject_Z (Z.of_nat 0)) with 0%Q in Hk. unfold gap in *. lra.
      + right. exists k. split; [reflexivity|]. intros tr h ch Hov E. destruct (Next nd tr h ch Hov E) as (N1 & _ & _ & N3). specialize (N3 Hset). left. split; [|exact N1]. rewrite G in Hk. lra.
    - right. exists m. split; [reflexivity|]. intros tr h ch Hov E. destruct (Next nd tr h ch Hov E) as (N1 & _ & N2 & _). specialize (N2 Hz). left. split; [lra|exact N1].
  Qed.
End Proofs.
