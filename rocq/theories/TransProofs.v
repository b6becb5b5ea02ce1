(** Proofs about the grouping of guard hits into transitions. *)
From Coq Require Import Ascii String.
From Verif Require Import Base BaseFacts Dict PyText Reset ResetSpec ResetProofs Scan ScanSpec ScanProofs.
From Coq Require Import Permutation Sorted.
Set Implicit Arguments.
Open Scope nat_scope.

Section Trans.
  Variables path cond rect : Type.
  Variable agents : list (dlogic path cond).
  Variable reset : nat -> nat -> list path -> option (list mode * rect).
  Variable maph : option word -> option mode -> option mode -> option word.
  Variable src : list mode.

  Notation entry := (entry path rect).
  Notation rdict := (rdict path rect).

  Definition key : Type := nat * list nat * option mode.
  Definition lookup3 (rd : rdict) (k : key) : list entry :=
    let '(a, r, d) := k in
    match dget Nat.eqb a rd with
    | None => []
    | Some d1 =>
      match dget (list_eqb Nat.eqb) r d1 with
      | None => []
      | Some d2 => match dget (opt_eqb mode_eqb) d d2 with None => [] | Some l => l end
      end
    end.

  Lemma mode_eqb_iff (a b : mode) : mode_eqb a b = true <-> a = b.
  Proof. apply list_eqb_eq. apply word_eqb_iff. Qed.
  Lemma ridx_eqb_iff (a b : list nat) : list_eqb Nat.eqb a b = true <-> a = b.
  Proof. apply list_eqb_eq. apply Nat.eqb_eq. Qed.
  Lemma dest_eqb_iff (a b : option mode) : opt_eqb mode_eqb a b = true <-> a = b.
  Proof. apply opt_eqb_eq. apply mode_eqb_iff. Qed.
  Definition key_dec (k k' : key) : {k = k'} + {k <> k'}.
  Proof. repeat decide equality. Defined.

  Lemma lookup3_add a r e rd d k :
    lookup3 (add_dest a r e rd d) k = if key_dec k (a, r, d) then lookup3 rd k ++ [e] else lookup3 rd k.
  Proof.
    destruct k as [[a' r'] d']. unfold lookup3, add_dest.
    destruct (Nat.eq_dec a a') as [<-|Ha].
    2: { rewrite dget_alter_other by (exact Nat.eqb_eq || exact Ha). destruct (key_dec _ _); [congruence|reflexivity]. }
    rewrite dget_alter_same by exact Nat.eqb_eq.
    destruct (list_eq_dec Nat.eq_dec r r') as [<-|Hr].
    2: { rewrite dget_alter_other by (exact ridx_eqb_iff || exact Hr). destruct (key_dec _ _); [congruence|].
         destruct (dget Nat.eqb a rd); reflexivity. }
    rewrite dget_alter_same by exact ridx_eqb_iff. unfold dappend.
    destruct (opt_eqb mode_eqb d d') eqn:Ed.
    - apply dest_eqb_iff in Ed. subst d'. rewrite dget_alter_same by exact dest_eqb_iff.
      destruct (key_dec _ _); [|congruence].
      destruct (dget Nat.eqb a rd) as [d1|]; [|reflexivity].
      destruct (dget (list_eqb Nat.eqb) r d1) as [d2|]; [|reflexivity].
      destruct (dget (opt_eqb mode_eqb) d d2); reflexivity.
    - assert (Hd : d <> d') by (intros <-; rewrite (proj2 (dest_eqb_iff d d) eq_refl) in Ed; discriminate).
      rewrite dget_alter_other by (exact dest_eqb_iff || exact Hd).
      destruct (key_dec _ _); [congruence|].
      destruct (dget Nat.eqb a rd) as [d1|]; [|reflexivity].
      destruct (dget (list_eqb Nat.eqb) r d1) as [d2|]; reflexivity.
  Qed.

  (** No repeated keys and no empty lists. *)
  Definition wf3 (rd : rdict) : Prop :=
    NoDup (map fst rd) /\ forall a d1, In (a, d1) rd ->
      NoDup (map fst d1) /\ forall r d2, In (r, d2) d1 -> NoDup (map fst d2) /\ forall d l, In (d, l) d2 -> l <> [].

  Lemma dalter_In {K V} (eqb : K -> K -> bool) (H : forall a b, eqb a b = true <-> a = b) (f : option V -> V) k (d : dict K V) k' v :
    NoDup (map fst d) -> In (k', v) (dalter eqb f k d) -> (k' = k /\ v = f (dget eqb k d)) \/ (k' <> k /\ In (k', v) d).
  Proof.
    intros ND Hin. apply (@In_dget _ _ eqb H) in Hin; [|apply dalter_nodup; assumption].
    destruct (eqb k k') eqn:E.
    - apply H in E. subst k'. rewrite dget_alter_same in Hin by exact H. left. split; congruence.
    - assert (k <> k') by (intros ->; rewrite (proj2 (H k' k') eq_refl) in E; discriminate).
      rewrite dget_alter_other in Hin by assumption. right. split; [congruence|]. apply (@dget_In _ _ eqb H). exact Hin.
  Qed.

  Lemma wf3_add a r e rd d : wf3 rd -> wf3 (add_dest a r e rd d).
  Proof.
    intros [ND W]. split; [apply dalter_nodup; [exact Nat.eqb_eq|exact ND]|].
    intros a' d1 H1. apply (@dalter_In _ _ _ Nat.eqb_eq) in H1; [|exact ND]. destruct H1 as [[-> ->]|[_ H1]]; [|apply (W _ _ H1)].
    assert (W1 : NoDup (map fst (match dget Nat.eqb a rd with Some x => x | None => [] end)) /\
      forall r d2, In (r, d2) (match dget Nat.eqb a rd with Some x => x | None => [] end) ->
        NoDup (map fst d2) /\ forall d l, In (d, l) d2 -> l <> []).
    { destruct (dget Nat.eqb a rd) as [d1|] eqn:E; [|split; [constructor|intros ? ? []]].
      apply (W a). apply (@dget_In _ _ Nat.eqb Nat.eqb_eq). exact E. }
    set (D1 := match dget Nat.eqb a rd with Some x => x | None => [] end) in *. destruct W1 as [ND1 W1].
    split; [apply dalter_nodup; [exact ridx_eqb_iff|exact ND1]|].
    intros r' d2 H2. apply (@dalter_In _ _ _ ridx_eqb_iff) in H2; [|exact ND1]. destruct H2 as [[-> ->]|[_ H2]]; [|apply (W1 _ _ H2)].
    assert (W2 : NoDup (map fst (match dget (list_eqb Nat.eqb) r D1 with Some x => x | None => [] end)) /\
      forall d l, In (d, l) (match dget (list_eqb Nat.eqb) r D1 with Some x => x | None => [] end) -> l <> []).
    { destruct (dget (list_eqb Nat.eqb) r D1) as [d2|] eqn:E; [|split; [constructor|intros ? ? []]].
      apply (W1 r). apply (@dget_In _ _ _ ridx_eqb_iff). exact E. }
    destruct W2 as [ND2 W2]. split; [apply dalter_nodup; [exact dest_eqb_iff|exact ND2]|].
    intros d' l H3. apply (@dalter_In _ _ _ dest_eqb_iff) in H3; [|exact ND2]. destruct H3 as [[-> ->]|[_ H3]]; [|apply (W2 _ _ H3)].
    destruct (dget _ d _) as [l|]; [destruct l|]; simpl; congruence.
  Qed.

  Lemma lookup3_In rd a r d es : wf3 rd ->
    (es <> [] /\ lookup3 rd (a, r, d) = es <-> exists d1 d2, In (a, d1) rd /\ In (r, d2) d1 /\ In (d, es) d2).
  Proof.
    intros [ND W]. unfold lookup3. split.
    - intros [Hne H]. destruct (dget Nat.eqb a rd) as [d1|] eqn:E1; [|congruence].
      destruct (dget (list_eqb Nat.eqb) r d1) as [d2|] eqn:E2; [|congruence].
      destruct (dget (opt_eqb mode_eqb) d d2) as [l|] eqn:E3; [|congruence]. subst es.
      exists d1, d2. split; [apply (@dget_In _ _ _ Nat.eqb_eq); exact E1|].
      split; [apply (@dget_In _ _ _ ridx_eqb_iff); exact E2|apply (@dget_In _ _ _ dest_eqb_iff); exact E3].
    - intros (d1 & d2 & H1 & H2 & H3). destruct (W _ _ H1) as [ND1 W1]. destruct (W1 _ _ H2) as [ND2 W2].
      split; [apply (W2 _ _ H3)|].
      rewrite (@In_dget _ _ _ Nat.eqb_eq _ _ _ ND H1), (@In_dget _ _ _ ridx_eqb_iff _ _ _ ND1 H2), (@In_dget _ _ _ dest_eqb_iff _ _ _ ND2 H3).
      reflexivity.
  Qed.

  Lemma candidates_In rd t : wf3 rd ->
    (In t (candidates src rd) <-> exists a r d, lookup3 rd (a, r, d) <> [] /\ t = mk_transition src a d (lookup3 rd (a, r, d))).
  Proof.
    intros W. unfold candidates. rewrite in_flat_map. split.
    - intros ([a d1] & H1 & H). apply in_flat_map in H. destruct H as ([r d2] & H2 & H). apply in_map_iff in H.
      destruct H as ([d es] & <- & H3). cbn [fst snd] in *. exists a, r, d.
      destruct (proj2 (@lookup3_In rd a r d es W)) as [Hne E]; [eauto|]. rewrite E. auto.
    - intros (a & r & d & Hne & ->). destruct (proj1 (@lookup3_In rd a r d _ W) (conj Hne eq_refl)) as (d1 & d2 & H1 & H2 & H3).
      exists (a, d1). split; [exact H1|]. apply in_flat_map. exists (r, d2). split; [exact H2|].
      apply in_map_iff. exists (d, lookup3 rd (a, r, d)). auto.
  Qed.

  (** ** From hits to entries *)
  Definition dests_of (ds : list mode) : list (option mode) := match ds with [] => [None] | ds => map Some ds end.

  (** The entries one hit contributes, with their keys. *)
  Definition entries_of (i : nat) (h : hit path) (r : list mode * rect) : list (key * entry) :=
    map (fun d => ((fst h, map (fun _ => 0) (snd h), d), (snd r, i, snd h))) (dests_of (fst r)).

  Definition matching (k : key) (l : list (key * entry)) : list entry :=
    map snd (filter (fun p => if key_dec k (fst p) then true else false) l).

  Lemma matching_app k l m : matching k (l ++ m) = matching k l ++ matching k m.
  Proof. unfold matching. rewrite filter_app, map_app. reflexivity. Qed.

  Lemma add_dests a r e : forall ds rd, wf3 rd ->
    wf3 (fold_left (add_dest a r e) ds rd) /\
    forall k, lookup3 (fold_left (add_dest a r e) ds rd) k = lookup3 rd k ++ matching k (map (fun d => ((a, r, d), e)) ds).
  Proof.
    induction ds as [|d ds IH]; intros rd W; simpl; [split; [exact W|intros; rewrite app_nil_r; reflexivity]|].
    destruct (IH _ (@wf3_add a r e rd d W)) as [W' L]. split; [exact W'|]. intros k. rewrite L, lookup3_add.
    unfold matching at 2. simpl. destruct (key_dec k (a, r, d)); [rewrite <- app_assoc|]; reflexivity.
  Qed.

  (** All entries of a list of hits, in order; [None] if some reset fails. *)
  Definition hit_entries (i : nat) (h : hit path) : option (list (key * entry)) := option_map (entries_of i h) (reset (fst h) i (snd h)).
  Definition all_entries (gh : list (list (hit path) * nat)) : option (list (key * entry)) :=
    option_map (@concat _) (mapM (fun p => hit_entries (snd p) (fst p)) (flat_map (fun g => map (fun h => (h, snd g)) (fst g)) gh)).

  Lemma collect_flat gh : forall acc,
    fold_left (fun acc g => fold_left (fun acc2 h => do rd <- acc2; add_hit reset (snd g) rd h) (fst g) acc) gh acc =
    fold_left (fun acc2 p => do rd <- acc2; add_hit reset (snd p) rd (fst p)) (flat_map (fun g => map (fun h => (h, snd g)) (fst g)) gh) acc.
  Proof.
    induction gh as [|[hs i] gh IH]; intros acc; simpl; [reflexivity|]. rewrite fold_left_app, IH. f_equal.
    clear. revert acc. induction hs as [|h hs IH]; intros acc; simpl; [reflexivity|]. apply IH.
  Qed.

  Lemma fold_none {A B} (f : A -> B -> option A) l : fold_left (fun acc b => do x <- acc; f x b) l None = None.
  Proof. induction l; simpl; auto. Qed.

  Lemma collect_spec gh :
    match all_entries gh with
    | None => collect reset gh = None
    | Some es => exists rd, collect reset gh = Some rd /\ wf3 rd /\ forall k, lookup3 rd k = matching k es
    end.
  Proof.
    unfold collect, all_entries. rewrite collect_flat.
    set (l := flat_map _ gh). clearbody l.
    assert (G : forall rd, wf3 rd ->
      match option_map (@concat _) (mapM (fun p => hit_entries (snd p) (fst p)) l) with
      | None => fold_left (fun acc2 p => do rd <- acc2; add_hit reset (snd p) rd (fst p)) l (Some rd) = None
      | Some es => exists rd', fold_left (fun acc2 p => do rd <- acc2; add_hit reset (snd p) rd (fst p)) l (Some rd) = Some rd' /\ wf3 rd' /\
                     forall k, lookup3 rd' k = lookup3 rd k ++ matching k es
      end).
    { induction l as [|[h i] l IH]; intros rd W; simpl.
      - exists rd. split; [reflexivity|]. split; [exact W|]. intros k. unfold matching. simpl. rewrite app_nil_r. reflexivity.
      - unfold hit_entries, add_hit. destruct (reset (fst h) i (snd h)) as [r|] eqn:Er; simpl.
        + set (rd1 := fold_left _ _ rd).
          assert (E1 : rd1 = fold_left (add_dest (fst h) (map (fun _ => 0) (snd h)) (snd r, i, snd h)) (dests_of (fst r)) rd)
            by (unfold rd1, dests_of; destruct (fst r); reflexivity).
          clearbody rd1.
          destruct (@add_dests (fst h) (map (fun _ => 0) (snd h)) (snd r, i, snd h) (dests_of (fst r)) rd W) as [W1 L1].
          rewrite <- E1 in W1, L1. specialize (IH rd1 W1). destruct (mapM _ l) as [es|]; simpl in *.
          * destruct IH as (rd' & E & W' & L). exists rd'. split; [exact E|]. split; [exact W'|].
            intros k. rewrite L, matching_app. rewrite (L1 k), <- app_assoc. reflexivity.
          * exact IH.
        + rewrite fold_none. reflexivity. }
    assert (W0 : wf3 []) by (split; [constructor|intros ? ? []]).
    specialize (G [] W0). destruct (option_map _ _); [|exact G].
    destruct G as (rd' & E & W' & L). exists rd'. split; [exact E|]. split; [exact W'|]. intros [[a r] d]. apply L.
  Qed.

  Lemma matching_In k e es : In e (matching k es) <-> In (k, e) es.
  Proof.
    unfold matching. rewrite in_map_iff. split.
    - intros ([k' e'] & <- & H). apply filter_In in H. destruct H as [H1 H2]. simpl in *. destruct (key_dec k k'); [subst; exact H1|discriminate].
    - intros H. exists (k, e). split; [reflexivity|]. apply filter_In. split; [exact H|]. simpl. destruct (key_dec k k); congruence.
  Qed.

  Lemma all_entries_In gh es a r d rc i c : all_entries gh = Some es ->
    (In ((a, r, d), (rc, i, c)) es <->
      exists hs ds, In (hs, i) gh /\ In (a, c) hs /\ reset a i c = Some (ds, rc) /\ r = map (fun _ => 0) c /\ In d (dests_of ds)).
  Proof.
    unfold all_entries. intros E. destruct (mapM _ _) as [ess|] eqn:Em; [|discriminate]. simpl in E. injection E as <-.
    apply mapM_Forall2 in Em. rewrite in_concat. split.
    - intros (l & Hl & Hin). destruct (Forall2_In_r _ Em Hl) as ([h j] & Hh & Eh).
      apply in_flat_map in Hh. destruct Hh as ([hs j'] & Hg & Hh). apply in_map_iff in Hh. destruct Hh as (h' & [= -> ->] & Hh).
      unfold hit_entries in Eh. simpl in Eh. destruct (reset (fst h) j (snd h)) as [[ds rc']|] eqn:Er; [|discriminate].
      simpl in Eh. injection Eh as <-. unfold entries_of in Hin. apply in_map_iff in Hin. destruct Hin as (d' & Eq & Hd).
      injection Eq as <- <- <- <- <- <-. destruct h as [a0 c0]. simpl in *. exists hs, ds. auto.
    - intros (hs & ds & Hg & Hh & Er & -> & Hd).
      assert (Hin : In ((a, c), i) (flat_map (fun g => map (fun h => (h, snd g)) (fst g)) gh)).
      { apply in_flat_map. exists (hs, i). split; [exact Hg|]. apply in_map_iff. exists (a, c). auto. }
      destruct (Forall2_In_l _ Em Hin) as (l & Hl & El). exists l. split; [exact Hl|].
      unfold hit_entries in El. simpl in El. rewrite Er in El. simpl in El. injection El as <-.
      unfold entries_of. apply in_map_iff. exists d. simpl. auto.
  Qed.

  Lemma filterM_In {A} (f : A -> option bool) l r : filterM f l = Some r -> forall x, In x r <-> In x l /\ f x = Some true.
  Proof.
    revert r; induction l as [|a l IH]; intros r H x; simpl in H.
    - injection H as <-. simpl. tauto.
    - destruct (f a) as [b|] eqn:Ea; [|discriminate]. simpl in H. destruct (filterM f l) as [r'|]; [|discriminate].
      simpl in H. injection H as <-. specialize (IH r' eq_refl x). destruct b; simpl; rewrite IH.
      + split; [intros [<-|?]; tauto|]. intros [[<-|?] ?]; tauto.
      + split; [tauto|]. intros [[<-|?] ?]; [congruence|tauto].
  Qed.
  Lemma filterM_some {A} (f : A -> option bool) l : (forall x, In x l -> f x <> None) -> exists r, filterM f l = Some r.
  Proof.
    induction l as [|a l IH]; intros H; simpl; [eauto|]. destruct (f a) as [b|] eqn:E; [|exfalso; apply (H a); simpl; auto].
    destruct IH as (r & ->); [intros; apply H; simpl; auto|]. simpl. eauto.
  Qed.
End Trans.

Section Map.
  Lemma opt_word_dec (a b : option word) : opt_eqb word_eqb a b = true <-> a = b.
  Proof. apply opt_eqb_eq. apply word_eqb_iff. Qed.

  Lemma map_allows_iff maph tys s d : map_allows maph tys s d = true <-> permitted tys maph s d.
  Proof.
    unfold map_allows, permitted. rewrite negb_true_iff, andb_false_iff, orb_false_iff, !negb_false_iff.
    rewrite dest_eqb_iff, !opt_word_dec. tauto.
  Qed.

  (** The order of the indices in the entries. *)
  Lemma Sorted_matching {path rect} (k : key) (es : list (key * entry path rect)) :
    StronglySorted le (map (fun p => snd (fst (snd p))) es) -> StronglySorted le (map (fun e => snd (fst e)) (matching k es)).
  Proof.
    unfold matching. induction es as [|[k' e] es IH]; simpl; intros H; [constructor|].
    inversion H as [|? ? H1 H2]; subst. destruct (key_dec k k'); simpl; [|apply IH; exact H1].
    constructor; [apply IH; exact H1|]. rewrite map_map. apply Forall_forall. intros x Hx. apply in_map_iff in Hx.
    destruct Hx as (y & <- & Hy). apply filter_In in Hy. rewrite Forall_forall in H2. apply H2. apply in_map_iff. exists y. tauto.
  Qed.

  Lemma StronglySorted_app (l m : list nat) : StronglySorted le l -> StronglySorted le m -> (forall x y, In x l -> In y m -> x <= y) ->
    StronglySorted le (l ++ m).
  Proof.
    induction l as [|a l IH]; simpl; intros Hl Hm H; [exact Hm|]. inversion Hl as [|? ? H1 H2]; subst. constructor.
    - apply IH; auto.
    - apply Forall_app. split; [exact H2|]. apply Forall_forall. intros y Hy. apply H; auto.
  Qed.

  Lemma sorted_const (i : nat) l : (forall x, In x l -> x = i) -> StronglySorted le l.
  Proof.
    induction l as [|x l IHl]; intros A; [constructor|]. constructor; [apply IHl; intros; apply A; simpl; auto|].
    apply Forall_forall. intros y Hy. rewrite (A x), (A y) by (simpl; auto). apply le_n.
  Qed.

  Lemma all_entries_sorted {path rect} (reset : nat -> nat -> list path -> option (list mode * rect)) gh es :
    StronglySorted le (map snd gh) -> all_entries reset gh = Some es -> StronglySorted le (map (fun p => snd (fst (snd p))) es).
  Proof.
    revert es. unfold all_entries. induction gh as [|[hs i] gh IH]; intros es HS E.
    - simpl in E. injection E as <-. constructor.
    - simpl in HS. inversion HS as [|? ? H1 H2]; subst. cbn [flat_map] in E.
      cbn [fst snd] in E. rewrite mapM_app in E. destruct (mapM _ (map _ hs)) as [e1|] eqn:E1; [|discriminate].
      cbn [obind] in E. destruct (mapM _ (flat_map _ gh)) as [e2|] eqn:E2; [|discriminate]. simpl in E. injection E as <-.
      rewrite concat_app, map_app. 
      assert (A : forall x, In x (map (fun p => snd (fst (snd p))) (concat e1)) -> x = i).
      { intros x Hx. apply in_map_iff in Hx. destruct Hx as ([[[a r] d] [[rc j] c]] & <- & Hx). apply in_concat in Hx. destruct Hx as (l & Hl & Hx).
        apply mapM_Forall2 in E1. destruct (Forall2_In_r _ E1 Hl) as ([h j'] & Hh & Eh). apply in_map_iff in Hh. destruct Hh as (h' & [= -> <-] & _).
        cbn [fst snd] in Eh. unfold hit_entries in Eh. destruct (reset _ _ _) as [r0|]; [|discriminate]. simpl in Eh. injection Eh as <-.
        unfold entries_of in Hx. apply in_map_iff in Hx. destruct Hx as (d' & Eq & _). injection Eq as _ _ _ _ <- _. reflexivity. }
      assert (B : forall x, In x (map (fun p => snd (fst (snd p))) (concat e2)) -> i <= x).
      { intros x Hx. apply in_map_iff in Hx. destruct Hx as ([[[a r] d] [[rc j] c]] & <- & Hx).
        assert (E2' : all_entries reset gh = Some (concat e2)) by (unfold all_entries; rewrite E2; reflexivity).
        apply (all_entries_In _ _ _ _ _ _ _ _ E2') in Hx. destruct Hx as (hs' & ds & Hg & _). cbn [fst snd].
        rewrite Forall_forall in H2. apply H2. apply in_map_iff. exists (hs', j). auto. }
      apply StronglySorted_app.
      + apply sorted_const with (i := i). exact A.
      + apply IH; [exact H1|]. reflexivity.
      + intros x y Hx Hy. rewrite (A x Hx). apply B. exact Hy.
  Qed.
End Map.
