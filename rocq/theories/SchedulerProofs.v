(** Proofs about the work lists. *)
From Verif Require Import Base BaseFacts Round Scheduler SchedulerSpec.
From Coq Require Import Permutation.
Set Implicit Arguments.
Open Scope nat_scope.

Lemma filter_split_perm {A} (f : A -> bool) (l : list A) : Permutation (filter f l ++ filter (fun x => negb (f x)) l) l.
Proof.
  induction l as [|x l IH]; [reflexivity|]. cbn [filter]. destruct (f x); cbn [negb app].
  - now constructor.
  - rewrite <- Permutation_middle. now constructor.
Qed.

Lemma sort_queue_perm q : Permutation (sort_queue q) q.
Proof. apply (filter_split_perm (fun p : nat * nat => snd p =? 0)). Qed.

Lemma map_snd_combine {A B} (l1 : list A) (l2 : list B) : length l1 = length l2 -> map snd (combine l1 l2) = l2.
Proof.
  revert l2; induction l1 as [|x l1 IH]; intros [|y l2] E; cbn in E |- *; try discriminate; [reflexivity|].
  f_equal. apply IH. lia.
Qed.

Lemma concat_map_set {A B} (f : A -> list B) (v : A) : forall l i x, nth_error l i = Some x -> f x = [] ->
  Permutation (concat (map f (set_nth i v l))) (concat (map f l) ++ f v).
Proof.
  induction l as [|y l IH]; intros [|i] x E Ex; cbn in E; try discriminate.
  - injection E as ->. cbn. rewrite Ex. cbn. apply Permutation_app_comm.
  - cbn. rewrite (IH _ _ E Ex). rewrite app_assoc. reflexivity.
Qed.

Lemma combine_nth_error {A B} : forall (l1 : list A) (l2 : list B) k x y,
  nth_error (combine l1 l2) k = Some (x, y) -> nth_error l1 k = Some x /\ nth_error l2 k = Some y.
Proof.
  induction l1 as [|u l1 IH]; intros [|v l2] [|k] x y E; cbn in E |- *; try discriminate.
  - injection E as -> ->. auto.
  - now apply IH.
Qed.

Section Proofs.
  Variables content trace hits : Type.
  Variable height : content -> nat.
  Variable begin : content -> Q.
  Variable max_height : option nat.
  Variable horizon : Q.
  Variable parallel : bool.
  Variable ahead : nat.
  Variable verifying : bool.
  Variable expand : content -> option (list content * trace * hits).

  Notation object := (obj content trace hits).
  Notation state := (Scheduler.state content trace hits).
  Let skip := skip height begin max_height horizon.
  Let extends := extends height max_height verifying.
  Let proc := @proc content trace hits height max_height verifying.
  Let wait := @wait content trace hits height max_height verifying expand.
  Let settle := @settle content trace hits height max_height ahead verifying expand.
  Let tick := @tick content trace hits height begin max_height horizon parallel ahead verifying expand.
  Let run := @run content trace hits height begin max_height horizon parallel ahead verifying expand.

  Lemma not_skip_extends c : skip c = false -> extends c = true.
  Proof.
    unfold skip, extends, Scheduler.skip, Scheduler.extends. intros E. apply orb_false_iff in E as [E _].
    destruct max_height as [h|]; [|apply orb_true_r].
    apply Nat.leb_gt in E. apply orb_true_iff. right. apply Nat.leb_le. lia.
  Qed.

  Definition child_ok (os : list object) (k : nat) (c : content) : Prop :=
    exists o, nth_error os k = Some o /\ o_content o = c.

  Definition processed (os : list object) (a : nat) (o : object) : Prop :=
    exists cs r h, expand (o_content o) = Some (cs, r, h) /\ o_trace o = Some r /\
      (o_hits o = None \/ o_hits o = Some h) /\
      (verifying = true \/ parallel = false -> o_hits o = Some h) /\
      Forall2 (child_ok os) (o_child o) cs /\ Forall (fun k => a < k) (o_child o).

  Record inv (root : content) (st : state) : Prop := mk_inv {
    i_nodes : nodes st = seq 0 (length (objs st));
    i_pos : exists o, nth_error (objs st) 0 = Some o /\ o_content o = root;
    i_ids : forall a o, nth_error (objs st) a = Some o -> o_id o = Some a;
    i_pop : Permutation (popped st ++ map fst (queue st)) (seq 0 (length (objs st)));
    i_once : NoDup (refs st ++ finished st);
    i_popped : forall a, In a (refs st ++ finished st) -> In a (popped st);
    i_fresh : forall a o, nth_error (objs st) a = Some o -> ~ In a (finished st) ->
        o_trace o = None /\ o_hits o = None /\ o_child o = [];
    i_skip : forall a o, nth_error (objs st) a = Some o -> In a (popped st) ->
        (In a (refs st ++ finished st) <-> skip (o_content o) = false);
    i_processed : forall a o, nth_error (objs st) a = Some o -> In a (finished st) -> processed (objs st) a o;
    i_tree : Permutation (concat (map (@o_child _ _ _) (objs st))) (seq 1 (length (objs st) - 1)) }.

  Lemma inv_initial root : inv root (initial _ _ root).
  Proof.
    constructor; cbn [initial objs nodes queue refs popped finished length seq app map concat o_child].
    - reflexivity.
    - eexists; split; reflexivity.
    - intros [|[|a]] o E; cbn in E; try discriminate. now injection E as <-.
    - reflexivity.
    - constructor.
    - intros a [].
    - intros [|[|a]] o E _; cbn in E; try discriminate. injection E as <-. auto.
    - intros a o _ [].
    - intros a o _ [].
    - reflexivity.
  Qed.

  Lemma popped_bound root st a : inv root st -> In a (popped st) -> a < length (objs st).
  Proof.
    intros I H. assert (In a (seq 0 (length (objs st)))) as H'.
    { rewrite <- (i_pop I). apply in_or_app. now left. }
    apply in_seq in H'. lia.
  Qed.

  Lemma popped_nodup root st : inv root st -> NoDup (popped st ++ map fst (queue st)).
  Proof. intros I. rewrite (i_pop I). apply seq_NoDup. Qed.

  (** Taking a node from the queue. *)
  Lemma inv_skip root st a l q o : inv root st -> queue st = (a, l) :: q -> nth_error (objs st) a = Some o ->
    skip (o_content o) = true -> inv root (pop st a q).
  Proof.
    intros I Eq Ea Es. assert (Na : ~ In a (popped st)).
    { pose proof (popped_nodup I) as N. rewrite Eq in N. cbn [map fst] in N. apply NoDup_remove_2 in N.
      intros H. apply N. apply in_or_app. now left. }
    constructor; cbn [pop objs nodes queue refs popped finished]; try apply I.
    - rewrite <- app_assoc. rewrite <- (i_pop I), Eq. reflexivity.
    - intros b H. apply in_or_app. left. now apply (i_popped I).
    - intros b ob Eb H. apply in_app_or in H as [H|[<-|[]]].
      + now apply (i_skip I).
      + rewrite Ea in Eb. injection Eb as <-. rewrite Es. split; [|discriminate].
        intros H. now apply (i_popped I) in H.
  Qed.

  Lemma inv_take root st a l q o l1 l2 : inv root st -> queue st = (a, l) :: q -> nth_error (objs st) a = Some o ->
    skip (o_content o) = false -> refs st = l1 ++ l2 -> inv root (with_refs (pop st a q) (l1 ++ a :: l2)).
  Proof.
    intros I Eq Ea Es Er. assert (Na : ~ In a (popped st)).
    { pose proof (popped_nodup I) as N. rewrite Eq in N. cbn [map fst] in N. apply NoDup_remove_2 in N.
      intros H. apply N. apply in_or_app. now left. }
    assert (P : Permutation ((l1 ++ a :: l2) ++ finished st) (a :: refs st ++ finished st)).
    { rewrite Er. rewrite <- !app_assoc. cbn [app]. symmetry. apply Permutation_middle. }
    constructor; cbn [pop with_refs objs nodes queue refs popped finished]; try apply I.
    - rewrite <- app_assoc. rewrite <- (i_pop I), Eq. reflexivity.
    - rewrite P. constructor; [|apply I]. intros H. now apply (i_popped I) in H.
    - intros b H. rewrite P in H. apply in_or_app. destruct H as [<-|H]; [right; now left|left; now apply (i_popped I)].
    - intros b ob Eb H. rewrite P. apply in_app_or in H as [H|[<-|[]]].
      + rewrite <- (i_skip I _ Eb H). split; [|now right]. intros [<-|H']; [easy|exact H'].
      + rewrite Ea in Eb. injection Eb as <-. rewrite Es. split; [reflexivity|]. now left.
  Qed.

  Definition fresh_kids (n : nat) (cs : list content) : list object :=
    map (fun p => mk_obj (snd p) (Some (fst p + 1 + (n - 1))) None None []) (combine (seq 0 (length cs)) cs).

  Lemma fresh_length n cs : length (fresh_kids n cs) = length cs.
  Proof. unfold fresh_kids. rewrite map_length, combine_length, seq_length. lia. Qed.

  Lemma fresh_nth n cs k o : nth_error (fresh_kids n cs) k = Some o ->
    exists c, nth_error cs k = Some c /\ o = mk_obj c (Some (k + 1 + (n - 1))) None None [].
  Proof.
    intros E. assert (L : k < length cs) by (rewrite <- (fresh_length n); apply nth_error_Some; congruence).
    unfold fresh_kids in E. rewrite nth_error_map in E.
    destruct (nth_error (combine (seq 0 (length cs)) cs) k) as [[i c]|] eqn:Ec; [|discriminate].
    injection E as <-. apply combine_nth_error in Ec as [E1 E2].
    exists c. split; [exact E2|]. assert (nth_error (seq 0 (length cs)) k = Some k) as E3.
    { rewrite (nth_error_nth' _ 0) by now rewrite seq_length. now rewrite seq_nth. }
    rewrite E3 in E1. injection E1 as <-. reflexivity.
  Qed.

  Lemma fresh_nth_fwd n cs k c : nth_error cs k = Some c ->
    nth_error (fresh_kids n cs) k = Some (mk_obj c (Some (k + 1 + (n - 1))) None None []).
  Proof.
    intros E. destruct (nth_error (fresh_kids n cs) k) as [o|] eqn:Eo.
    - apply fresh_nth in Eo as (c' & E' & ->). rewrite E in E'. now injection E' as ->.
    - exfalso. apply nth_error_None in Eo. rewrite fresh_length in Eo.
      assert (k < length cs) by (apply nth_error_Some; congruence). lia.
  Qed.

  (** What [proc] computes in a state that satisfies the invariant. *)
  Lemma proc_eq root st a o l local cs r h st' : inv root (with_refs st l) -> nth_error (objs st) a = Some o ->
    skip (o_content o) = false -> proc st a local cs r h = Some st' ->
    exists hs, (hs = o_hits o \/ hs = Some h) /\ (verifying || local = true -> hs = Some h) /\
    st' = {| objs := set_nth a (mk_obj (o_content o) (o_id o) (Some r) hs (seq (length (objs st)) (length cs))) (objs st)
                     ++ fresh_kids (length (objs st)) cs;
             nodes := seq 0 (length (objs st) + length cs);
             queue := sort_queue (queue st ++ map (fun p => (snd p, if fst p =? 0 then 0 else 1))
                        (combine (seq 0 (length cs)) (seq (length (objs st)) (length cs))));
             refs := refs st; popped := popped st; finished := finished st ++ [a] |}.
  Proof.
    intros I Ea Es E. unfold proc, Scheduler.proc in E.
    pose proof (i_nodes I) as En. pose proof (i_ids I) as Ei. cbn [with_refs objs nodes] in En, Ei.
    assert (La : a < length (objs st)) by (apply nth_error_Some; congruence).
    assert (Hseq : forall k, k < length (objs st) -> nth_error (nodes st) k = Some k).
    { intros k Hk. rewrite En. rewrite (nth_error_nth' _ 0) by now rewrite seq_length. now rewrite seq_nth. }
    rewrite (Hseq a La) in E. cbn [obind] in E. rewrite Ea in E. cbn [obind] in E.
    assert (Ln : length (nodes st) = length (objs st)) by (rewrite En; apply seq_length).
    rewrite Ln in E. rewrite (Hseq (length (objs st) - 1)) in E by lia. cbn [obind] in E.
    destruct (nth_error (objs st) (length (objs st) - 1)) as [lo|] eqn:El; [|discriminate].
    cbn [obind] in E. rewrite (Ei _ _ El) in E. cbn [obind] in E.
    assert (Ex : Scheduler.extends height max_height verifying (o_content o) = true) by now apply not_skip_extends.
    rewrite Ex in E. injection E as <-.
    exists (if verifying || local then Some h else o_hits o). split; [destruct (verifying || local); auto|].
    split; [now intros ->|].
    f_equal. rewrite En. now rewrite seq_app.
  Qed.

  Lemma nth_error_app_cases {A} (l1 l2 : list A) k x : nth_error (l1 ++ l2) k = Some x ->
    (k < length l1 /\ nth_error l1 k = Some x) \/ (length l1 <= k /\ nth_error l2 (k - length l1) = Some x).
  Proof.
    intros E. destruct (Nat.lt_ge_cases k (length l1)) as [L|L].
    - left. rewrite nth_error_app1 in E by exact L. auto.
    - right. rewrite nth_error_app2 in E by exact L. auto.
  Qed.

  Lemma inv_proc root st a o local cs r h st' l1 l2 : (parallel = false -> local = true) ->
    inv root (with_refs st (l1 ++ a :: l2)) -> refs st = l1 ++ l2 -> nth_error (objs st) a = Some o ->
    expand (o_content o) = Some (cs, r, h) -> proc st a local cs r h = Some st' -> inv root st'.
  Proof.
    intros Hp I Er Ea Ex E.
    assert (Ha : In a (popped st)).
    { apply (i_popped I). cbn [with_refs refs]. apply in_or_app. left. apply in_or_app. right. now left. }
    assert (Es : skip (o_content o) = false).
    { apply (i_skip I a Ea Ha). cbn [with_refs refs]. apply in_or_app. left. apply in_or_app. right. now left. }
    assert (Pf : Permutation ((l1 ++ a :: l2) ++ finished st) ((l1 ++ l2) ++ finished st ++ [a])).
    { rewrite <- !app_assoc. apply Permutation_app_head. cbn [app]. rewrite app_assoc.
      apply Permutation_cons_append. }
    assert (Nf : ~ In a (finished st)).
    { pose proof (i_once I) as N. cbn [with_refs refs finished] in N. rewrite <- app_assoc in N. cbn [app] in N.
      apply NoDup_remove_2 in N. intros H. apply N. apply in_or_app. right. apply in_or_app. now right. }
    destruct (i_fresh I a Ea Nf) as (F1 & F2 & F3).
    edestruct proc_eq as (hs & Hh1 & Hh2 & ->); [exact I|exact Ea|exact Es|exact E|].
    assert (La : a < length (objs st)) by (apply nth_error_Some; congruence).
    set (n := length (objs st)) in *. set (o' := mk_obj (o_content o) (o_id o) (Some r) hs (seq n (length cs))).
    assert (Lo : length (set_nth a o' (objs st) ++ fresh_kids n cs) = n + length cs).
    { rewrite app_length, set_nth_length, fresh_length. reflexivity. }
    assert (Old : forall b ob, b <> a -> nth_error (objs st) b = Some ob ->
              nth_error (set_nth a o' (objs st) ++ fresh_kids n cs) b = Some ob).
    { intros b ob Hb Eb. assert (b < n) by (unfold n; apply nth_error_Some; congruence).
      rewrite nth_error_app1 by (rewrite set_nth_length; lia). now rewrite nth_error_set_nth_other by auto. }
    assert (New : nth_error (set_nth a o' (objs st) ++ fresh_kids n cs) a = Some o').
    { rewrite nth_error_app1 by (rewrite set_nth_length; lia). now rewrite nth_error_set_nth_same by auto. }
    assert (Inv : forall b ob, nth_error (set_nth a o' (objs st) ++ fresh_kids n cs) b = Some ob ->
              (b = a /\ ob = o') \/ (b <> a /\ b < n /\ nth_error (objs st) b = Some ob) \/
              (exists c, n <= b /\ nth_error cs (b - n) = Some c /\ ob = mk_obj c (Some b) None None [])).
    { intros b ob Eb. apply nth_error_app_cases in Eb as [[L Eb]|[L Eb]]; rewrite set_nth_length in L.
      - destruct (Nat.eq_dec b a) as [->|Hb].
        + left. rewrite nth_error_set_nth_same in Eb by exact La. split; congruence.
        + right. left. rewrite nth_error_set_nth_other in Eb by auto. auto.
      - right. right. rewrite set_nth_length in Eb. apply fresh_nth in Eb as (c & Ec & ->). exists c.
        split; [exact L|]. split; [exact Ec|]. repeat f_equal. fold n in L. fold n. lia. }
    assert (Kids : forall k c, child_ok (objs st) k c -> child_ok (set_nth a o' (objs st) ++ fresh_kids n cs) k c).
    { intros k c (ok & E1 & E2). destruct (Nat.eq_dec k a) as [->|Hk].
      - exists o'. split; [exact New|]. rewrite Ea in E1. injection E1 as <-. exact E2.
      - exists ok. split; [now apply Old|exact E2]. }
    pose proof (i_pos I) as (o0 & E0 & R0). cbn [with_refs objs] in E0.
    constructor; cbn [objs nodes queue refs popped finished].
    - now rewrite Lo.
    - apply (Kids 0 root). exists o0. auto.
    - intros b ob Eb. destruct (Inv _ _ Eb) as [[-> ->]|[[Hb [_ Eb']]|(c & _ & _ & ->)]]; [|now apply (i_ids I)|reflexivity].
      cbn. now apply (i_ids I).
    - rewrite Lo. rewrite seq_app. rewrite (Permutation_map fst (sort_queue_perm _)).
      rewrite map_app, app_assoc. apply Permutation_app; [exact (i_pop I)|].
      rewrite map_map. rewrite (map_ext _ snd) by (intros [u v]; reflexivity).
      rewrite map_snd_combine by now rewrite !seq_length. reflexivity.
    - rewrite Er, <- Pf. exact (i_once I).
    - intros b H. rewrite Er, <- Pf in H. now apply (i_popped I).
    - intros b ob Eb H. destruct (Inv _ _ Eb) as [[-> ->]|[[Hb [_ Eb']]|(c & _ & _ & ->)]].
      + exfalso. apply H. apply in_or_app. right. now left.
      + apply (i_fresh I b Eb'). intros H'. apply H. apply in_or_app. now left.
      + auto.
    - intros b ob Eb H. rewrite Er, <- Pf.
      destruct (Inv _ _ Eb) as [[-> ->]|[[Hb [_ Eb']]|(c & Hb & _ & ->)]].
      + cbn. now apply (i_skip I).
      + now apply (i_skip I).
      + exfalso. pose proof (@popped_bound root _ b I H) as L. cbn [with_refs objs] in L. fold n in L. lia.
    - intros b ob Eb H. destruct (Inv _ _ Eb) as [[-> ->]|[[Hb [_ Eb']]|(c & Hb & _ & ->)]].
      + exists cs, r, h. cbn. repeat (split; [try exact Ex; try reflexivity|]).
        * rewrite F2 in Hh1. exact Hh1.
        * intros C. apply Hh2. apply orb_true_iff. destruct C as [C|C]; [now left|right; auto].
        * apply Forall2_nth_error_intro || idtac.
          clear -Lo. assert (G : forall pre cs', cs = pre ++ cs' -> Forall2 (child_ok (set_nth a o' (objs st) ++ fresh_kids n cs)) (seq (n + length pre) (length cs')) cs').
          { intros pre cs'. revert pre. induction cs' as [|c cs' IH]; intros pre Epre; cbn [length seq]; constructor.
            - exists (mk_obj c (Some (length pre + 1 + (n - 1))) None None []). split; [|reflexivity].
              rewrite nth_error_app2 by (rewrite set_nth_length; fold n; lia). rewrite set_nth_length. fold n.
              replace (n + length pre - n) with (length pre) by lia. apply fresh_nth_fwd. rewrite Epre.
              rewrite nth_error_app2 by lia. now rewrite Nat.sub_diag.
            - specialize (IH (pre ++ [c])). rewrite app_length in IH. cbn [length] in IH.
              replace (S (n + length pre)) with (n + (length pre + 1)) by lia. apply IH.
              rewrite <- app_assoc. exact Epre. }
          specialize (G [] cs eq_refl). cbn [length] in G. rewrite Nat.add_0_r in G. exact G.
        * apply Forall_forall. intros k Hk. apply in_seq in Hk. fold n in La. lia.
      + apply in_app_or in H as [H|[<-|[]]]; [|easy].
        destruct (i_processed I b Eb' H) as (cs0 & r0 & h0 & P1 & P2 & P3 & P4 & P5 & P6).
        exists cs0, r0, h0. repeat (split; [assumption|]). split; [|assumption].
        clear -P5 Kids. cbn [with_refs objs] in P5. induction P5; constructor; auto.
      + exfalso. apply in_app_or in H as [H|[<-|[]]]; [|lia].
        assert (In b (popped st)) as H'. { apply (i_popped I). cbn [with_refs refs finished]. apply in_or_app. now right. }
        pose proof (@popped_bound root _ b I H') as L. cbn [with_refs objs] in L. fold n in L. lia.
    - rewrite Lo, map_app, concat_app.
      assert (C0 : concat (map (@o_child _ _ _) (fresh_kids n cs)) = []).
      { unfold fresh_kids. rewrite map_map. cbn. clear. induction (combine _ cs); cbn; auto. }
      rewrite C0, app_nil_r. rewrite (@concat_map_set _ _ (@o_child content trace hits) o' _ _ _ Ea F3).
      pose proof (i_tree I) as T. cbn [with_refs objs] in T. rewrite T. cbn [o_child o']. fold n. fold n in La.
      replace (n + length cs - 1) with ((n - 1) + length cs) by lia. rewrite seq_app.
      replace (1 + (n - 1)) with n by lia. reflexivity.
  Qed.

  Definition sinv root (st : state) : Prop := inv root st /\ (parallel = false -> refs st = []).

  Lemma with_refs_id (st : state) : with_refs st (refs st) = st.
  Proof. now destruct st. Qed.

  Lemma proc_refs st id local cs r h st' : proc st id local cs r h = Some st' -> refs st' = refs st.
  Proof.
    unfold proc, Scheduler.proc. intros E.
    repeat (match type of E with obind ?x _ = _ => destruct x; [|discriminate]; cbn [obind] in E end).
    injection E as <-. reflexivity.
  Qed.

  Lemma sinv_wait root st st' : sinv root st -> wait st st' -> sinv root st'.
  Proof.
    intros [I S] W. destruct W as [st l1 a l2 o id cs r h st' Er Ea Ei Ex E].
    assert (Ep : parallel = true).
    { destruct parallel; [reflexivity|]. rewrite (S eq_refl) in Er. now destruct l1. }
    rewrite (i_ids I a Ea) in Ei. injection Ei as <-. split.
    - eapply (@inv_proc root (with_refs st (l1 ++ l2)) a o false cs r h st' l1 l2); [congruence| |reflexivity| | |exact E].
      + cbn [with_refs objs nodes queue popped finished]. rewrite <- (with_refs_id st) in I. unfold with_refs in I. rewrite Er in I. exact I.
      + exact Ea.
      + exact Ex.
    - congruence.
  Qed.

  Lemma sinv_settle root st st' : sinv root st -> settle st st' -> sinv root st'.
  Proof. intros I W. destruct W; [exact I|]. eapply sinv_wait; eassumption. Qed.

  Lemma sinv_tick root st st' : sinv root st -> tick st st' -> sinv root st'.
  Proof.
    intros [I S] T. destruct T as [st a l q o Eq Ea Es|st a l q o id cs r h st1 st2 Eq Ea Es Ei Ex E Se|st a l q o st2 Ep Eq Ea Es Se|st st2 Eq Er W].
    - split; [|exact S]. eapply inv_skip; eassumption.
    - rewrite (i_ids I a Ea) in Ei. injection Ei as <-. apply (@sinv_settle root st1 st2); [|exact Se]. split.
      + eapply (@inv_proc root (pop st a q) a o true cs r h st1 [] (refs st)); [auto| |reflexivity|exact Ea|exact Ex|exact E].
        exact (@inv_take root st a l q o [] (refs st) I Eq Ea Es eq_refl).
      + intros Hp. rewrite (proc_refs _ _ _ _ _ _ E). cbn. auto.
    - apply (@sinv_settle root _ st2) in Se; [exact Se|]. split; [|congruence].
      eapply (@inv_take root st a l q o (refs st) []); eauto. symmetry; apply app_nil_r.
    - eapply sinv_wait; [split; eassumption|exact W].
  Qed.

  Lemma sinv_run root st st' : sinv root st -> run st st' -> sinv root st'.
  Proof. intros I R. induction R; [exact I|]. eapply sinv_tick; [apply IHR; exact I|eassumption]. Qed.

  Lemma sinv_reach root st : run (initial _ _ root) st -> sinv root st.
  Proof. apply sinv_run. split; [apply inv_initial|reflexivity]. Qed.

  (** The finished heap is the unfolding of the root. *)
  Notation unfolds := (@unfolds content trace hits skip expand).

  Lemma final_popped root st : inv root st -> final st -> Permutation (popped st) (seq 0 (length (objs st))).
  Proof. intros I [Fq _]. rewrite <- (i_pop I), Fq. cbn. now rewrite app_nil_r. Qed.

  Lemma final_tree root st : inv root st -> final st -> forall m a o, length (objs st) - a <= m ->
    nth_error (objs st) a = Some o ->
    exists t t', tree_at (objs st) a t /\ unfolds (o_content o) t' /\ no_hits t = no_hits t' /\
      (verifying = true \/ parallel = false -> t = t').
  Proof.
    intros I F. induction m as [|m IH]; intros a o Hm Ea.
    { exfalso. assert (a < length (objs st)) by (apply nth_error_Some; congruence). lia. }
    assert (La : a < length (objs st)) by (apply nth_error_Some; congruence).
    assert (Ha : In a (popped st)).
    { rewrite (final_popped I F). apply in_seq. lia. }
    pose proof (i_skip I a Ea Ha) as Hs. destruct F as [Fq Fr]. rewrite Fr in Hs. cbn [app] in Hs.
    destruct (skip (o_content o)) eqn:Es.
    - assert (Nf : ~ In a (finished st)) by (intros H; apply Hs in H; discriminate).
      destruct (i_fresh I a Ea Nf) as (F1 & F2 & F3).
      exists (Tree (o_content o) (o_trace o) (o_hits o) []), (Tree (o_content o) None None []).
      split; [constructor; [exact Ea|rewrite F3; constructor]|]. split; [now constructor|].
      rewrite F1, F2. auto.
    - assert (Hf : In a (finished st)) by now apply Hs.
      destruct (i_processed I a Ea Hf) as (cs & r & h & P1 & P2 & P3 & P4 & P5 & P6).
      assert (G : forall ks cs', Forall2 (child_ok (objs st)) ks cs' -> Forall (fun k => a < k) ks ->
        exists ts ts', Forall2 (tree_at (objs st)) ks ts /\ Forall2 unfolds cs' ts' /\ map no_hits ts = map no_hits ts' /\
          (verifying = true \/ parallel = false -> ts = ts')).
      { intros ks cs' H. induction H as [|k c ks cs' (ok & E1 & E2) _ IHk]; intros HF.
        - exists [], []. repeat split; constructor.
        - apply Forall_cons_iff in HF as [Hk HF]. destruct (IHk HF) as (ts & ts' & T1 & T2 & T3 & T4).
          destruct (IH k ok) as (t & t' & U1 & U2 & U3 & U4); [lia|exact E1|]. rewrite E2 in U2.
          exists (t :: ts), (t' :: ts'). repeat split; [now constructor|now constructor|cbn; congruence|].
          intros C. now rewrite (U4 C), (T4 C). }
      destruct (G _ _ P5 P6) as (ts & ts' & T1 & T2 & T3 & T4).
      exists (Tree (o_content o) (o_trace o) (o_hits o) ts), (Tree (o_content o) (Some r) (Some h) ts').
      split; [now constructor|]. split; [econstructor; eassumption|]. split; [cbn; congruence|].
      intros C. now rewrite P2, (P4 C), (T4 C).
  Qed.

  (** Every iteration removes part of the trees still to be explored. *)
  Fixpoint size (t : tree content trace hits) : nat :=
    match t with Tree _ _ _ ts => S (list_sum (map size ts)) end.

  Definition weigh (os : list object) (off a w : nat) : Prop :=
    exists c t, child_ok os a c /\ unfolds c t /\ w + off = 2 * size t.

  Inductive total (os : list object) (off : nat) : list nat -> nat -> Prop :=
  | Tot_nil : total os off [] 0
  | Tot_cons a l w m : weigh os off a w -> total os off l m -> total os off (a :: l) (w + m).

  Lemma total_app os off l1 l2 m1 m2 : total os off l1 m1 -> total os off l2 m2 -> total os off (l1 ++ l2) (m1 + m2).
  Proof.
    intros H. revert m2. induction H; intros m2 H2; cbn [app]; [exact H2|].
    rewrite <- Nat.add_assoc. constructor; auto.
  Qed.

  Lemma total_app_inv os off l1 : forall l2 m, total os off (l1 ++ l2) m ->
    exists m1 m2, total os off l1 m1 /\ total os off l2 m2 /\ m = m1 + m2.
  Proof.
    induction l1 as [|a l1 IH]; intros l2 m H; cbn [app] in H.
    - exists 0, m. repeat split; [constructor|exact H].
    - inversion H as [|? ? w m' Hw Ht]; subst. destruct (IH _ _ Ht) as (m1 & m2 & H1 & H2 & ->).
      exists (w + m1), m2. repeat split; [now constructor|exact H2|lia].
  Qed.

  Lemma total_perm os off l l' m : Permutation l l' -> total os off l m -> total os off l' m.
  Proof.
    intros P. revert m. induction P; intros m H.
    - exact H.
    - inversion H; subst. constructor; auto.
    - inversion H as [|? ? w1 m1 H1 H2]; subst. inversion H2 as [|? ? w2 m2 H3 H4]; subst.
      replace (w1 + (w2 + m2)) with (w2 + (w1 + m2)) by lia. repeat constructor; assumption.
    - auto.
  Qed.

  Definition keeps (os os' : list object) : Prop := forall a c, child_ok os a c -> child_ok os' a c.

  Lemma total_keeps os os' off l m : keeps os os' -> total os off l m -> total os' off l m.
  Proof.
    intros K H. induction H as [|a l w m (c & t & H1 & H2 & H3) _ IH]; constructor; [|exact IH].
    exists c, t. auto.
  Qed.

  Definition measure (st : state) (m : nat) : Prop :=
    exists mq mr, total (objs st) 0 (map fst (queue st)) mq /\ total (objs st) 1 (refs st) mr /\ m = mq + mr.

  Lemma unfolds_size c t : unfolds c t -> 1 <= size t.
  Proof. intros H. destruct H; cbn; lia. Qed.

  Lemma Forall2_total os ks cs : Forall2 (child_ok os) ks cs -> forall ts, Forall2 unfolds cs ts ->
    total os 0 ks (2 * list_sum (map size ts)).
  Proof.
    intros H. induction H as [|k c ks cs Hk _ IH]; intros ts Ht; inversion Ht as [|? t ? ts' H1 H2]; subst; cbn [map list_sum fold_right].
    - constructor.
    - change (fold_right Nat.add 0 (map size ts')) with (list_sum (map size ts')).
      replace (2 * (size t + list_sum (map size ts'))) with (2 * size t + 2 * list_sum (map size ts')) by lia.
      constructor; [|auto]. exists c, t. repeat split; [exact Hk|exact H1|lia].
  Qed.

  Lemma proc_keeps root st a o l local cs r h st' : inv root (with_refs st l) -> nth_error (objs st) a = Some o ->
    skip (o_content o) = false -> proc st a local cs r h = Some st' ->
    keeps (objs st) (objs st') /\ Forall2 (child_ok (objs st')) (seq (length (objs st)) (length cs)) cs /\
    Permutation (map fst (queue st')) (map fst (queue st) ++ seq (length (objs st)) (length cs)).
  Proof.
    intros I Ea Es E. destruct (@proc_eq root st a o l local cs r h st' I Ea Es E) as (hs & _ & _ & ->).
    cbn [objs queue refs]. set (n := length (objs st)).
    set (o' := mk_obj (o_content o) (o_id o) (Some r) hs (seq n (length cs))).
    assert (La : a < n) by (unfold n; apply nth_error_Some; congruence).
    split; [|split].
    - intros k c (ok & E1 & E2). assert (k < n) by (unfold n; apply nth_error_Some; congruence).
      destruct (Nat.eq_dec k a) as [->|Hk].
      + exists o'. rewrite Ea in E1. injection E1 as <-. split; [|exact E2].
        rewrite nth_error_app1 by (rewrite set_nth_length; exact La). now apply nth_error_set_nth_same.
      + exists ok. split; [|exact E2]. rewrite nth_error_app1 by (rewrite set_nth_length; assumption).
        now rewrite nth_error_set_nth_other by auto.
    - assert (G : forall pre cs', cs = pre ++ cs' -> Forall2 (child_ok (set_nth a o' (objs st) ++ fresh_kids n cs)) (seq (n + length pre) (length cs')) cs').
      { intros pre cs'. revert pre. induction cs' as [|c cs' IH]; intros pre Epre; cbn [length seq]; constructor.
        - exists (mk_obj c (Some (length pre + 1 + (n - 1))) None None []). split; [|reflexivity].
          rewrite nth_error_app2 by (rewrite set_nth_length; fold n; lia). rewrite set_nth_length. fold n.
          replace (n + length pre - n) with (length pre) by lia. apply fresh_nth_fwd. rewrite Epre.
          rewrite nth_error_app2 by lia. now rewrite Nat.sub_diag.
        - specialize (IH (pre ++ [c])). rewrite app_length in IH. cbn [length] in IH.
          replace (S (n + length pre)) with (n + (length pre + 1)) by lia. apply IH.
          rewrite <- app_assoc. exact Epre. }
      specialize (G [] cs eq_refl). cbn [length] in G. rewrite Nat.add_0_r in G. exact G.
    - rewrite (Permutation_map fst (sort_queue_perm _)). rewrite map_app. apply Permutation_app_head.
      rewrite map_map. rewrite (map_ext _ snd) by (intros [u v]; reflexivity).
      rewrite map_snd_combine by now rewrite !seq_length. reflexivity.
  Qed.

  Lemma proc_some root st a o l local cs r h : inv root (with_refs st l) -> nth_error (objs st) a = Some o ->
    exists st', proc st a local cs r h = Some st'.
  Proof.
    intros I Ea. unfold proc, Scheduler.proc.
    pose proof (i_nodes I) as En. pose proof (i_ids I) as Ei. cbn [with_refs objs nodes] in En, Ei.
    assert (La : a < length (objs st)) by (apply nth_error_Some; congruence).
    assert (Hseq : forall k, k < length (objs st) -> nth_error (nodes st) k = Some k).
    { intros k Hk. rewrite En. rewrite (nth_error_nth' _ 0) by now rewrite seq_length. now rewrite seq_nth. }
    rewrite (Hseq a La). cbn [obind]. rewrite Ea. cbn [obind].
    assert (Ln : length (nodes st) = length (objs st)) by (rewrite En; apply seq_length).
    rewrite Ln. rewrite (Hseq (length (objs st) - 1)) by lia. cbn [obind].
    destruct (nth_error (objs st) (length (objs st) - 1)) as [lo|] eqn:El.
    - cbn [obind]. rewrite (Ei _ _ El). cbn [obind]. eauto.
    - exfalso. apply nth_error_None in El. lia.
  Qed.

  (** Uniqueness of unfoldings, by induction on trees. *)
  Fixpoint tree_ind2 (P : tree content trace hits -> Prop)
    (H : forall c r h ts, Forall P ts -> P (Tree c r h ts)) (t : tree content trace hits) : P t :=
    match t with Tree c r h ts =>
      H c r h ts ((fix go l : Forall P l := match l with [] => Forall_nil P | x :: l' => Forall_cons x (@tree_ind2 P H x) (go l') end) ts)
    end.

  Lemma unfolds_fun : forall t c t', unfolds c t -> unfolds c t' -> t = t'.
  Proof.
    induction t as [c0 r h ts IH] using tree_ind2. intros c t' H H'.
    inversion H as [? S1|? cs ? ? ? S1 E1 F1]; subst; inversion H' as [? S2|? cs' ? ? ts' S2 E2 F2]; subst; try congruence.
    rewrite E1 in E2. injection E2 as <- <- <-. f_equal. clear - IH F1 F2.
    revert ts ts' IH F1 F2. induction cs as [|c cs IHc]; intros ts ts' IH F1 F2; inversion F1; inversion F2; subst; [reflexivity|].
    apply Forall_cons_iff in IH as [I1 I2]. f_equal; eauto.
  Qed.

  Lemma tree_at_fun (os : list object) : forall t a t', tree_at os a t -> tree_at os a t' -> t = t'.
  Proof.
    induction t as [c0 r h ts IH] using tree_ind2. intros a t' H H'.
    inversion H as [? o ? E1 F1]; subst; inversion H' as [? o' ts' E2 F2]; subst.
    rewrite E1 in E2. injection E2 as <-. f_equal. clear - IH F1 F2.
    revert ts ts' IH F1 F2. induction (o_child o) as [|k ks IHk]; intros ts ts' IH F1 F2; inversion F1; inversion F2; subst; [reflexivity|].
    apply Forall_cons_iff in IH as [I1 I2]. f_equal; eauto.
  Qed.

  (** One [proc] from a state where [a] is in flight. *)
  Lemma measure_proc root st a o local cs r h st' l1 l2 m :
    inv root (with_refs st (l1 ++ a :: l2)) -> refs st = l1 ++ l2 -> nth_error (objs st) a = Some o ->
    expand (o_content o) = Some (cs, r, h) -> proc st a local cs r h = Some st' ->
    measure (with_refs st (l1 ++ a :: l2)) m -> exists m', measure st' m' /\ m' < m.
  Proof.
    intros I Er Ea Ex E (mq & mr & Hq & Hr & ->). cbn [with_refs objs queue refs] in Hq, Hr.
    assert (Ha : In a (popped st)).
    { apply (i_popped I). cbn [with_refs refs]. apply in_or_app. left. apply in_or_app. right. now left. }
    assert (Es : skip (o_content o) = false).
    { apply (i_skip I a Ea Ha). cbn [with_refs refs]. apply in_or_app. left. apply in_or_app. right. now left. }
    destruct (@proc_keeps root st a o _ local cs r h st' I Ea Es E) as (K & C & P).
    apply total_app_inv in Hr as (m1 & m2 & H1 & H2 & ->).
    inversion H2 as [|? ? w m2' (c & t & (o0 & E0 & <-) & Ht & Hw) H3]; subst.
    rewrite Ea in E0. injection E0 as <-. inversion Ht as [? S1|? cs' ? ? ts S1 E1 F1]; subst; [congruence|].
    rewrite Ex in E1. injection E1 as <- <- <-.
    exists ((mq + 2 * list_sum (map size ts)) + (m1 + m2')). split; [|cbn [size] in Hw; lia].
    exists (mq + 2 * list_sum (map size ts)), (m1 + m2'). split; [|split; [|reflexivity]].
    - eapply total_perm; [symmetry; exact P|]. apply total_app; [eapply total_keeps; eassumption|].
      eapply Forall2_total; eassumption.
    - rewrite (proc_refs _ _ _ _ _ _ E), Er. apply total_app; eapply total_keeps; eassumption.
  Qed.

  Lemma measure_take st a l q l1 l2 m : queue st = (a, l) :: q -> refs st = l1 ++ l2 -> measure st m ->
    exists m', measure (with_refs (pop st a q) (l1 ++ a :: l2)) m' /\ m' < m.
  Proof.
    intros Eq Er (mq & mr & Hq & Hr & ->). rewrite Eq in Hq. cbn [map fst] in Hq.
    inversion Hq as [|? ? w m (c & t & Hc & Ht & Hw) Hq']; subst.
    rewrite Er in Hr. apply total_app_inv in Hr as (m1 & m2 & H1 & H2 & ->).
    pose proof (unfolds_size Ht). exists (m + (m1 + ((w - 1) + m2))). split; [|lia].
    exists m, (m1 + ((w - 1) + m2)). cbn [with_refs pop objs queue refs]. repeat split; [exact Hq'|].
    apply total_app; [exact H1|]. constructor; [|exact H2]. exists c, t. repeat split; [exact Hc|exact Ht|lia].
  Qed.

  Lemma measure_wait root st st' m : sinv root st -> wait st st' -> measure st m -> exists m', measure st' m' /\ m' < m.
  Proof.
    intros [I S] W M. destruct W as [st l1 a l2 o id cs r h st' Er Ea Ei Ex E].
    rewrite (i_ids I a Ea) in Ei. injection Ei as <-.
    eapply (@measure_proc root (with_refs st (l1 ++ l2)) a o false cs r h st' l1 l2); [|reflexivity|exact Ea|exact Ex|exact E|].
    - rewrite <- (with_refs_id st) in I. unfold with_refs in *. rewrite Er in I. exact I.
    - rewrite <- (with_refs_id st) in M. unfold with_refs in *. rewrite Er in M. exact M.
  Qed.

  Lemma measure_settle root st st' m : sinv root st -> settle st st' -> measure st m -> exists m', measure st' m' /\ m' <= m.
  Proof.
    intros I W M. destruct W; [eauto|]. destruct (@measure_wait root st st' m I H0 M) as (m' & M' & L). exists m'. split; [exact M'|lia].
  Qed.

  Lemma measure_tick root st st' m : sinv root st -> tick st st' -> measure st m -> exists m', measure st' m' /\ m' < m.
  Proof.
    intros [I S] T M.
    destruct T as [st a l q o Eq Ea Es|st a l q o id cs r h st1 st2 Eq Ea Es Ei Ex E Se|st a l q o st2 Ep Eq Ea Es Se|st st2 Eq Er W].
    - destruct M as (mq & mr & Hq & Hr & ->). rewrite Eq in Hq. cbn [map fst] in Hq.
      inversion Hq as [|? ? w m (c & t & Hc & Ht & Hw) Hq']; subst. pose proof (unfolds_size Ht).
      exists (m + mr). split; [|lia]. exists m, mr. auto.
    - rewrite (i_ids I a Ea) in Ei. injection Ei as <-.
      destruct (@measure_take st a l q [] (refs st) m Eq eq_refl M) as (m1 & M1 & L1).
      assert (I1 : inv root (with_refs (pop st a q) ([] ++ a :: refs st))) by exact (@inv_take root st a l q o [] (refs st) I Eq Ea Es eq_refl).
      destruct (@measure_proc root (pop st a q) a o true cs r h st1 [] (refs st) m1 I1 eq_refl Ea Ex E M1) as (m2 & M2 & L2).
      assert (S1 : sinv root st1).
      { split; [eapply (@inv_proc root (pop st a q) a o true cs r h st1 [] (refs st)); eauto|].
        intros Hp. rewrite (proc_refs _ _ _ _ _ _ E). cbn. auto. }
      destruct (@measure_settle root st1 st2 m2 S1 Se M2) as (m3 & M3 & L3). exists m3. split; [exact M3|lia].
    - destruct (@measure_take st a l q (refs st) [] m Eq (eq_sym (app_nil_r _)) M) as (m1 & M1 & L1).
      assert (S1 : sinv root (with_refs (pop st a q) (refs st ++ [a]))).
      { split; [|congruence]. eapply (@inv_take root st a l q o (refs st) []); eauto. symmetry; apply app_nil_r. }
      destruct (@measure_settle root _ st2 m1 S1 Se M1) as (m3 & M3 & L3). exists m3. split; [exact M3|lia].
    - eapply measure_wait; [split; eassumption|exact W|exact M].
  Qed.

  (** Progress. *)
  Lemma total_In os off l m a : total os off l m -> In a l -> exists c t, child_ok os a c /\ unfolds c t.
  Proof.
    intros H. induction H as [|b l w m (c & t & H1 & H2 & _) _ IH]; intros Hi; [easy|].
    destruct Hi as [<-|Hi]; eauto.
  Qed.

  Lemma wait_progress root st m : sinv root st -> measure st m -> refs st <> [] -> exists st', wait st st'.
  Proof.
    intros [I S] (mq & mr & Hq & Hr & ->) Hne. destruct (refs st) as [|a l] eqn:Er; [easy|].
    destruct (@total_In _ _ _ _ a Hr) as (c & t & (o & Ea & <-) & Ht); [now left|].
    assert (Es : skip (o_content o) = false).
    { assert (In a (refs st ++ finished st)) as Hi by (rewrite Er; now left).
      apply (i_skip I a Ea); [now apply (i_popped I)|exact Hi]. }
    inversion Ht as [? S1|? cs r h ts S1 E1 F1]; subst; [congruence|].
    assert (I' : inv root (with_refs (with_refs st l) (refs st))) by (destruct st; exact I).
    destruct (@proc_some root (with_refs st l) a o (refs st) false cs r h I' Ea) as (st' & E).
    exists st'. apply (@Wait _ _ _ height max_height verifying expand st [] a l o a cs r h st'); auto. now apply (i_ids I).
  Qed.

  Lemma settle_progress root st m : ahead <> 0 -> sinv root st -> measure st m -> exists st', settle st st'.
  Proof.
    intros Ha S M. destruct (Nat.lt_ge_cases (length (refs st)) ahead) as [L|L].
    - exists st. now constructor.
    - destruct (@wait_progress root st m S M) as (st' & W).
      + intros E. rewrite E in L. cbn in L. lia.
      + exists st'. now constructor.
  Qed.

  Lemma tick_progress root st m : ahead <> 0 -> sinv root st -> measure st m -> ~ final st -> exists st', tick st st'.
  Proof.
    intros Ha [I S] M Nf. destruct (queue st) as [|[a l] q] eqn:Eq.
    - assert (Hr : refs st <> []) by (intros E; apply Nf; now split).
      destruct (@wait_progress root st m (conj I S) M Hr) as (st' & W). exists st'. now apply Tick_wait.
    - pose proof M as (mq & mr & Hq & Hr & Em). rewrite Eq in Hq. cbn [map fst] in Hq.
      destruct (@total_In _ _ _ _ a Hq) as (c & t & (o & Ea & <-) & Ht); [now left|].
      destruct (skip (o_content o)) eqn:Es.
      + eexists. eapply Tick_skip; eassumption.
      + inversion Ht as [? S1|? cs r h ts S1 E1 F1]; subst; [congruence|].
        assert (I1 : inv root (with_refs (pop st a q) ([] ++ a :: refs st))) by exact (@inv_take root st a l q o [] (refs st) I Eq Ea Es eq_refl).
        destruct (@proc_some root (pop st a q) a o _ true cs r h I1 Ea) as (st1 & E).
        destruct (@measure_take st a l q [] (refs st) _ Eq eq_refl M) as (m1 & M1 & L1).
        destruct (@measure_proc root (pop st a q) a o true cs r h st1 [] (refs st) m1 I1 eq_refl Ea E1 E M1) as (m2 & M2 & L2).
        assert (S2 : sinv root st1).
        { split; [eapply (@inv_proc root (pop st a q) a o true cs r h st1 [] (refs st)); eauto|].
          intros Hp. rewrite (proc_refs _ _ _ _ _ _ E). cbn. auto. }
        destruct (@settle_progress root st1 m2 Ha S2 M2) as (st2 & Se).
        exists st2. eapply Tick_local; try eassumption. now apply (i_ids I).
  Qed.

  (** Heights. *)
  Lemma heights root st : (forall c cs r h, expand c = Some (cs, r, h) -> Forall (fun c' => height c' = S (height c)) cs) ->
    inv root st -> forall H, max_height = Some H -> forall a o, nth_error (objs st) a = Some o -> a <> 0 ->
    1 <= height (o_content o) < H.
  Proof.
    intros Hh I H EH a o Ea Ha.
    assert (Hi : In a (concat (map (@o_child _ _ _) (objs st)))).
    { rewrite (i_tree I). apply in_seq. assert (a < length (objs st)) by (apply nth_error_Some; congruence). lia. }
    apply in_concat in Hi as (ks & Hks & Hi). apply in_map_iff in Hks as (p & <- & Hp).
    apply In_nth_error in Hp as (b & Eb).
    destruct (in_dec Nat.eq_dec b (finished st)) as [Hf|Hf].
    - destruct (i_processed I b Eb Hf) as (cs & r & h & P1 & _ & _ & _ & P5 & _).
      assert (Es : skip (o_content p) = false).
      { assert (In b (refs st ++ finished st)) as Hb by (apply in_or_app; now right).
        apply (i_skip I b Eb); [now apply (i_popped I)|exact Hb]. }
      pose proof (Hh _ _ _ _ P1) as Hall. clear -Hall P5 Hi Es Ea EH.
      induction P5 as [|k c ks cs (ok & E1 & E2) _ IH]; [easy|].
      apply Forall_cons_iff in Hall as [H1 H2]. destruct Hi as [<-|Hi]; [|now apply IH].
      rewrite Ea in E1. injection E1 as <-. rewrite E2, H1.
      unfold skip, Scheduler.skip in Es. rewrite EH in Es. apply orb_false_iff in Es as [Es _]. apply Nat.leb_gt in Es. lia.
    - destruct (i_fresh I b Eb Hf) as (_ & _ & F3). rewrite F3 in Hi. easy.
  Qed.

  Lemma unfolds_total : (forall c, skip c = false -> expand c <> None) ->
    forall (rank : content -> nat), (forall c cs r h, skip c = false -> expand c = Some (cs, r, h) -> Forall (fun c' => rank c' < rank c \/ skip c' = true) cs) ->
    forall c, exists t, unfolds c t.
  Proof.
    intros Ht rank Hr. assert (G : forall n c, rank c <= n -> exists t, unfolds c t).
    { induction n as [|n IH]; intros c Hc; destruct (skip c) eqn:Es;
      try (eexists; now constructor); destruct (expand c) as [[[cs r] h]|] eqn:Ex; try (now elim (Ht _ Es));
      pose proof (Hr _ _ _ _ Es Ex) as Hall.
      - assert (G : exists ts, Forall2 unfolds cs ts).
        { clear -Hall Hc. induction Hall as [|c' cs [H|H] _ (ts & IH)]; [exists []; constructor|lia|].
          exists (Tree c' None None [] :: ts). constructor; [now constructor|exact IH]. }
        destruct G as (ts & G). eexists. econstructor; eassumption.
      - assert (G : exists ts, Forall2 unfolds cs ts).
        { clear -Hall Hc IH. induction Hall as [|c' cs [H|H] _ (ts & IH')]; [exists []; constructor| |].
          - destruct (IH c') as (t & Ht); [lia|]. exists (t :: ts). now constructor.
          - exists (Tree c' None None [] :: ts). constructor; [now constructor|exact IH']. }
        destruct G as (ts & G). eexists. econstructor; eassumption. }
    intros c. now apply (G (rank c)).
  Qed.
End Proofs.
