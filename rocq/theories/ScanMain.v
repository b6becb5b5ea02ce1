(** The main facts about [get_transitions] without a cache, assembled from ScanProofs and TransProofs. *)
From Coq Require Import Ascii String.
From Verif Require Import Base BaseFacts Dict PyText Scan ScanSpec ScanProofs TransProofs.
From Coq Require Import Permutation Sorted.
Set Implicit Arguments.
Open Scope nat_scope.

Section Main.
  Variables path cond rect : Type.
  Variable pvar : path -> word.
  Variable agents : list (dlogic path cond).
  Variable disc : nat -> path -> bool.
  Variable hyb : nat -> path -> nat -> bool.
  Variable cont : nat -> path -> nat -> bool * bool.
  Variable certain : nat -> cond -> nat -> bool.
  Variable reset : nat -> nat -> list path -> option (list mode * rect).
  Variable maph : option word -> option mode -> option mode -> option word.
  Variable src : list mode.

  Notation gt := (get_transitions pvar agents disc hyb cont certain reset maph src None).
  Notation visited := (visited agents disc hyb cont certain).
  Notation ends := (ends agents disc hyb cont certain).
  Notation violation := (violation agents certain).
  Notation violates := (violates agents certain).
  Notation choice := (choice pvar agents disc hyb cont).
  Notation moves := (moves pvar agents disc hyb cont certain reset maph src).
  Notation collected := (collected pvar agents disc hyb cont certain).

  Lemma gt_cases len : exists n, n <= len /\ visited n /\
    ((ends n len /\ exists gh, collected n gh /\ gt len = do ts <- transitions_of agents reset maph src gh; Some (inr ts)) \/
     (n < len /\ violation n /\ exists asr, gt len = Some (inl (asr, n)) /\
        forall a ls, In (a, ls) asr <-> violates a n /\ exists lg, checked agents a lg /\ ls = asserts_at certain lg a n)).
  Proof.
    destruct (@scan_spec path cond pvar agents disc hyb cont certain len len 0 [] []) as (n & Hn & Hv & H).
    - reflexivity.
    - split; [|split]; intros; lia.
    - left. reflexivity.
    - split; [intros ? ? []|]. split; [intros; lia|]. exists 0. reflexivity.
    - exists n. split; [lia|]. split; [exact Hv|].
      unfold get_transitions. destruct H as [(gh & E & Hc & He)|(asr & E & Hlt & Hvio & _ & HL)].
      + left. split; [exact He|]. exists gh. split; [exact Hc|].
        change (fun _ : nat => @nil (path * nat)) with (@no_cg path). rewrite E. cbn [obind].
        destruct (transitions_of _ _ _ _ gh) as [ts|]; [|reflexivity]. cbn [obind]. rewrite app_nil_r. reflexivity.
      + right. split; [exact Hlt|]. split; [exact Hvio|]. exists asr.
        change (fun _ : nat => @nil (path * nat)) with (@no_cg path). rewrite E. auto.
  Qed.

  Lemma transitions_of_spec gh ts : transitions_of agents reset maph src gh = Some ts ->
    exists rd es, all_entries reset gh = Some es /\ wf3 rd /\ (forall k, lookup3 rd k = matching k es) /\
      (forall t, In t ts <-> In t (candidates src rd) /\ keep agents maph t = Some true) /\
      (forall t, In t (candidates src rd) -> exists d, t_dest t = Some d).
  Proof.
    unfold transitions_of. intros H. pose proof (collect_spec reset gh) as C.
    destruct (all_entries reset gh) as [es|]; [|rewrite C in H; discriminate].
    destruct C as (rd & E & W & L). rewrite E in H. cbn [obind] in H. exists rd, es.
    split; [reflexivity|]. split; [exact W|]. split; [exact L|]. split; [apply filterM_In; exact H|].
    clear - H. revert ts H. induction (candidates src rd) as [|t l IH]; intros ts H t' Ht; [destruct Ht|].
    simpl in H. destruct (keep agents maph t) as [b|] eqn:Ek; [|discriminate]. simpl in H.
    destruct (filterM _ l) as [r|] eqn:Ef; [|discriminate]. destruct Ht as [<-|Ht].
    - unfold keep in Ek. destruct (t_dest t); [eauto|discriminate].
    - eapply IH; eauto.
  Qed.

  Lemma nth_error_maps {A B C} (f : A -> B) (g : A -> C) l k i r :
    nth_error (map f l) k = Some i -> nth_error (map g l) k = Some r -> exists e, In e l /\ f e = i /\ g e = r.
  Proof.
    intros H1 H2. rewrite nth_error_map in H1, H2. destruct (nth_error l k) as [e|] eqn:E; [|discriminate].
    simpl in *. exists e. split; [eapply nth_error_In; eauto|]. split; congruence.
  Qed.

  Lemma transitions_sound n gh ts t i r : collected n gh -> transitions_of agents reset maph src gh = Some ts ->
    In t ts -> has_entry t i r -> i < n /\ exists c d, t_dest t = Some d /\ moves (t_agent t) i c d r.
  Proof.
    intros Hc H Ht (k & Hi & Hr). destruct (transitions_of_spec _ H) as (rd & es & Ea & W & L & HT & HD).
    apply HT in Ht. destruct Ht as [Ht Hk]. destruct (HD _ Ht) as (d & Ed). apply candidates_In in Ht; [|exact W].
    destruct Ht as (a & r0 & d0 & Hne & ->). cbn [t_dest t_agent t_idx t_inits mk_transition] in *. subst d0.
    destruct (nth_error_maps _ _ _ _ Hi Hr) as ([[r1 i1] c] & Hin & <- & <-). cbn [fst snd].
    rewrite L in Hin. apply matching_In in Hin. apply (all_entries_In _ _ _ _ _ _ _ _ Ea) in Hin.
    destruct Hin as (hs & ds & Hg & Hh & Er & _ & Hd). destruct Hc as (C1 & _).
    destruct (C1 _ _ Hg) as (Hlt & _ & _ & (R1 & _)). destruct (R1 _ _ Hh) as (Hch & Hnv).
    split; [exact Hlt|]. exists c, d. split; [reflexivity|]. split; [exact Hch|]. split; [exact Hnv|].
    unfold keep in Hk. cbn [t_dest t_agent t_src mk_transition] in Hk. destruct (nth_error agents a) as [lg|] eqn:El; [|discriminate].
    injection Hk as Hk. apply map_allows_iff in Hk. exists ds, lg. split; [exact Er|]. split; [|auto].
    destruct ds as [|d1 ds]; cbn [dests_of] in Hd; [destruct Hd as [|[]]; discriminate|].
    apply in_map_iff in Hd. destruct Hd as (x & [= ->] & Hx). exact Hx.
  Qed.

  Lemma nth_error_maps_ex {A B C} (f : A -> B) (g : A -> C) l e : In e l ->
    exists k, nth_error (map f l) k = Some (f e) /\ nth_error (map g l) k = Some (g e).
  Proof. intros H. apply In_nth_error in H. destruct H as (k & H). exists k. rewrite !nth_error_map, H. auto. Qed.

  Lemma transitions_complete n gh ts a i c : collected n gh -> transitions_of agents reset maph src gh = Some ts ->
    i < n -> choice a i c -> ~ violates a i ->
    exists c' ds r, Permutation c c' /\ reset a i c' = Some (ds, r) /\ ds <> [] /\
      forall d, moves a i c' d r -> exists t, In t ts /\ t_agent t = a /\ t_dest t = Some d /\ has_entry t i r.
  Proof.
    intros Hc H Hi Hch Hnv. destruct (transitions_of_spec _ H) as (rd & es & Ea & W & L & HT & HD).
    destruct Hc as (C1 & C2 & _).
    assert (Hf : fires agents disc hyb cont certain i).
    { destruct Hch as (Hne & _ & Hm & _). destruct c as [|p c]; [congruence|]. exists a, p. split; [apply Hm; simpl; auto|exact Hnv]. }
    specialize (C2 i Hi Hf). apply in_map_iff in C2. destruct C2 as ([hs i'] & Eq & Hg). cbn [snd] in Eq. subst i'.
    destruct (C1 _ _ Hg) as (_ & _ & _ & (_ & R2)). destruct (R2 a c Hch Hnv) as (c' & HP & Hh).
    (* the reset of this hit is defined *)
    assert (Hr : exists ds r, reset a i c' = Some (ds, r)).
    { pose proof Ea as Ea'. unfold all_entries in Ea'. destruct (mapM _ _) as [ess|] eqn:Em; [|discriminate].
      apply mapM_Forall2 in Em. assert (Hin : In ((a, c'), i) (flat_map (fun g => map (fun h => (h, snd g)) (fst g)) gh)).
      { apply in_flat_map. exists (hs, i). split; [exact Hg|]. apply in_map_iff. exists (a, c'). auto. }
      destruct (Forall2_In_l _ Em Hin) as (l & _ & El). unfold hit_entries in El. cbn [fst snd] in El.
      destruct (reset a i c') as [[ds r]|]; [eauto|discriminate]. }
    destruct Hr as (ds & r & Er). exists c', ds, r. split; [exact HP|]. split; [exact Er|].
    assert (Hcand : forall d, In d (dests_of ds) -> exists t, In t (candidates src rd) /\ t_agent t = a /\ t_src t = nth a src [] /\ t_dest t = d /\ has_entry t i r).
    { intros d Hd. assert (Hin : In (r, i, c') (matching (a, map (fun _ => 0) c', d) es)).
      { apply matching_In. apply (all_entries_In _ _ _ _ _ _ _ _ Ea). exists hs, ds. auto. }
      exists (mk_transition src a d (matching (a, map (fun _ => 0) c', d) es)). split.
      - apply candidates_In; [exact W|]. exists a, (map (fun _ => 0) c'), d. rewrite L. split; [|reflexivity]. intros E. rewrite E in Hin. destruct Hin.
      - split; [reflexivity|]. split; [reflexivity|]. split; [reflexivity|]. unfold has_entry. cbn [t_idx t_inits mk_transition].
        destruct (nth_error_maps_ex (fun e : entry path rect => snd (fst e)) (fun e => fst (fst e)) _ _ Hin) as (k & K1 & K2). exists k. auto. }
    split.
    - intros ->. destruct (Hcand None) as (t & Ht & _ & _ & Ed & _); [simpl; auto|]. destruct (HD _ Ht) as (d & Ed'). congruence.
    - intros d (_ & _ & ds' & lg & Er' & Hd & El & Hp). rewrite Er in Er'. injection Er' as <-.
      destruct (Hcand (Some d)) as (t & Ht & Ha & Es & Ed & He).
      { destruct ds as [|d1 ds]; [destruct Hd|]. cbn [dests_of]. apply in_map. exact Hd. }
      exists t. split; [|auto]. apply HT. split; [exact Ht|]. unfold keep. rewrite Ed, Ha, El, Es. f_equal. apply map_allows_iff. exact Hp.
  Qed.

  Lemma transitions_shape n gh ts t : collected n gh -> transitions_of agents reset maph src gh = Some ts -> In t ts ->
    t_src t = nth (t_agent t) src [] /\ length (t_inits t) = length (t_idx t) /\ t_idx t <> [] /\ StronglySorted le (t_idx t).
  Proof.
    intros (_ & _ & k & C3) H Ht. destruct (transitions_of_spec _ H) as (rd & es & Ea & W & L & HT & HD).
    apply HT in Ht. destruct Ht as [Ht _]. apply candidates_In in Ht; [|exact W]. destruct Ht as (a & r0 & d0 & Hne & ->).
    cbn [t_src t_agent t_idx t_inits mk_transition]. split; [reflexivity|]. split; [rewrite !map_length; reflexivity|]. split.
    - intros E. apply map_eq_nil in E. contradiction.
    - rewrite L. apply Sorted_matching. eapply all_entries_sorted; [|exact Ea]. rewrite C3. clear. generalize (length gh). intros m. revert k.
      induction m as [|m IH]; intros k; simpl; constructor; [apply IH|]. apply Forall_forall. intros x Hx. apply in_seq in Hx. lia.
  Qed.

  (** One transition per agent, destination and number of resets. *)
  Definition ckeys (rd : rdict path rect) : list key :=
    flat_map (fun p => flat_map (fun q => map (fun d => (fst p, fst q, fst d)) (snd q)) (snd p)) rd.

  Lemma NoDup_app_intro {A} (l m : list A) : NoDup l -> NoDup m -> (forall x, In x l -> ~ In x m) -> NoDup (l ++ m).
  Proof.
    induction l as [|a l IH]; simpl; intros Hl Hm H; [exact Hm|]. inversion Hl as [|? ? H1 H2]; subst. constructor.
    - rewrite in_app_iff. intros [Hi|Hi]; [contradiction|]. apply (H a); auto.
    - apply IH; auto.
  Qed.

  Lemma NoDup_flat_fst {A B C} (f : A -> list B) (g : B -> C) (h : A -> C) (l : list A) :
    NoDup (map h l) -> (forall a, In a l -> NoDup (f a)) -> (forall a b, In a l -> In b (f a) -> g b = h a) -> NoDup (flat_map f l).
  Proof.
    induction l as [|a l IH]; simpl; intros ND H1 H2; [constructor|]. inversion ND as [|? ? N1 N2]; subst.
    apply NoDup_app_intro; [apply H1; auto|apply IH; auto|]. intros b Hb Hb'. apply in_flat_map in Hb'. destruct Hb' as (a' & Ha' & Hb').
    apply N1. rewrite <- (H2 a b), (H2 a' b); auto. apply in_map. exact Ha'.
  Qed.

  Lemma ckeys_nodup rd : wf3 rd -> NoDup (ckeys rd).
  Proof.
    intros [ND W]. unfold ckeys. apply (NoDup_flat_fst _ (fun k : key => fst (fst k)) (@fst nat _)); [exact ND| |].
    - intros [a d1] Ha. destruct (W _ _ Ha) as [ND1 W1]. cbn [fst snd].
      apply (NoDup_flat_fst _ (fun k : key => snd (fst k)) (@fst (list nat) _)); [exact ND1| |].
      + intros [r d2] Hr. destruct (W1 _ _ Hr) as [ND2 _]. cbn [fst snd].
        assert (E : map (fun d : option mode * list (entry path rect) => (a, r, fst d)) d2 = map (fun d => (a, r, d)) (map fst d2)) by (rewrite map_map; reflexivity).
        rewrite E. apply FinFun.Injective_map_NoDup; [intros x y [=]; assumption|exact ND2].
      + intros q b _ Hb. apply in_map_iff in Hb. destruct Hb as (d & <- & _). reflexivity.
    - intros p b _ Hb. apply in_flat_map in Hb. destruct Hb as (q & _ & Hb). apply in_map_iff in Hb. destruct Hb as (d & <- & _). reflexivity.
  Qed.

  Lemma candidates_map rd : wf3 rd ->
    candidates src rd = map (fun k : key => mk_transition src (fst (fst k)) (snd k) (lookup3 rd k)) (ckeys rd).
  Proof.
    intros W. unfold candidates, ckeys. rewrite (flat_map_concat_map _ rd), (flat_map_concat_map _ rd), concat_map, map_map. f_equal. apply map_ext_in.
    intros [a d1] Ha. cbn [fst snd]. rewrite (flat_map_concat_map _ d1), (flat_map_concat_map _ d1), concat_map, map_map. f_equal. apply map_ext_in.
    intros [r d2] Hr. cbn [fst snd]. rewrite map_map. apply map_ext_in. intros [d es] Hd. cbn [fst snd].
    destruct (proj2 (@lookup3_In path rect rd a r d es W)) as [_ E]; [eauto|]. rewrite E. reflexivity.
  Qed.

  Definition tkey (t : transition path rect) : nat * option mode * nat := (t_agent t, t_dest t, length (t_paths t)).

  Lemma filterM_sub {A B} (f : A -> option bool) (g : A -> B) l : forall r, filterM f l = Some r -> NoDup (map g l) -> NoDup (map g r).
  Proof.
    induction l as [|a l IH]; intros r H ND; simpl in H; [injection H as <-; constructor|].
    destruct (f a) as [b|] eqn:Ef; [|discriminate]. simpl in H. destruct (filterM f l) as [r'|] eqn:E; [|discriminate]. simpl in H, ND.
    inversion ND as [|? ? N1 N2]; subst. specialize (IH r' eq_refl N2). injection H as <-. destruct b; [|exact IH]. simpl. constructor; [|exact IH].
    intros Hin. apply N1. apply in_map_iff in Hin. destruct Hin as (x & <- & Hx). apply in_map. apply (filterM_In _ _ E) in Hx. tauto.
  Qed.

  Lemma transitions_nodup gh ts : transitions_of agents reset maph src gh = Some ts -> NoDup (map tkey ts).
  Proof.
    unfold transitions_of. intros H. pose proof (collect_spec reset gh) as C.
    destruct (all_entries reset gh) as [es|] eqn:Ea; [|rewrite C in H; discriminate].
    destruct C as (rd & E & W & L). rewrite E in H. cbn [obind] in H. eapply filterM_sub; [exact H|].
    rewrite (candidates_map W), map_map.
    assert (HK : forall k, In k (ckeys rd) -> snd (fst k) = repeat 0 (length (match lookup3 rd k with e :: _ => snd e | [] => [] end))).
    { intros [[a r] d] Hk. assert (Hne : lookup3 rd (a, r, d) <> []).
      { unfold ckeys in Hk. apply in_flat_map in Hk. destruct Hk as ([a' d1] & H1 & Hk). apply in_flat_map in Hk.
        destruct Hk as ([r' d2] & H2 & Hk). apply in_map_iff in Hk. destruct Hk as ([d' es'] & [= -> -> ->] & H3). cbn [fst snd] in *.
        destruct (proj2 (@lookup3_In path rect rd a r d es' W)) as [Hne E']; [eauto|]. rewrite E'. exact Hne. }
      destruct (lookup3 rd (a, r, d)) as [|[[rc i] c] m] eqn:El; [congruence|]. cbn [fst snd].
      assert (Hin : In (rc, i, c) (matching (a, r, d) es)) by (rewrite <- L, El; simpl; auto).
      apply matching_In in Hin. apply (all_entries_In _ _ _ _ _ _ _ _ Ea) in Hin. destruct Hin as (hs & ds & _ & _ & _ & -> & _).
      clear. induction c; simpl; [reflexivity|f_equal; exact IHc]. }
    pose proof (ckeys_nodup W) as ND. clear H. induction (ckeys rd) as [|k l IH]; simpl; [constructor|]. inversion ND as [|? ? N1 N2]; subst.
    constructor; [|apply IH; [intros; apply HK; simpl; auto|exact N2]].
    intros Hin. apply in_map_iff in Hin. destruct Hin as (k' & Eq & Hk'). apply N1.
    unfold tkey in Eq. cbn [t_agent t_dest t_paths mk_transition] in Eq. injection Eq as E1 E2 E3.
    replace k with k'; [exact Hk'|]. destruct k as [[a r] d], k' as [[a' r'] d']. cbn [fst snd] in *. subst a' d'.
    pose proof (HK (a, r, d) (or_introl eq_refl)) as K1. pose proof (HK (a, r', d) (or_intror Hk')) as K2. cbn [fst snd] in K1, K2.
    f_equal. f_equal. rewrite K1, K2. f_equal. exact E3.
  Qed.

  Lemma gt_violation len asr i : gt len = Some (inl (asr, i)) ->
    i < len /\ visited i /\ violation i /\
    forall a ls, In (a, ls) asr <-> violates a i /\ exists lg, checked agents a lg /\ ls = asserts_at certain lg a i.
  Proof.
    intros H. destruct (gt_cases len) as (n & Hn & Hv & [(_ & gh & _ & E)|(Hl & Hvi & asr' & E & HL)]).
    - rewrite H in E. destruct (transitions_of _ _ _ _ gh); simpl in E; discriminate.
    - rewrite H in E. injection E as <- <-. auto.
  Qed.

  Lemma gt_transitions len ts : gt len = Some (inr ts) -> exists n gh, n <= len /\ visited n /\ ends n len /\ collected n gh /\
    transitions_of agents reset maph src gh = Some ts.
  Proof.
    intros H. destruct (gt_cases len) as (n & Hn & Hv & [(He & gh & Hc & E)|(Hl & Hvi & asr' & E & HL)]).
    - rewrite H in E. exists n, gh. destruct (transitions_of _ _ _ _ gh) as [ts'|]; simpl in E; [|discriminate].
      injection E as <-. auto.
    - rewrite H in E. discriminate.
  Qed.

  (** [None] only when some reset of a possible choice is undefined or gives no destination. *)
  Lemma gt_none len : gt len = None -> exists a i c, i < len /\ choice a i c /\
    (reset a i c = None \/ exists r, reset a i c = Some ([], r)).
  Proof.
    intros H. destruct (gt_cases len) as (n & Hn & Hv & [(He & gh & Hc & E)|(Hl & Hvi & asr' & E & HL)]); [|rewrite H in E; discriminate].
    rewrite H in E. destruct (transitions_of agents reset maph src gh) as [ts|] eqn:ET; [discriminate|]. clear E.
    assert (Hh : forall hs i a c, In (hs, i) gh -> In (a, c) hs -> i < len /\ choice a i c).
    { intros hs i a c Hg Hh. destruct Hc as (C1 & _). destruct (C1 _ _ Hg) as (A & _ & _ & (R & _)). destruct (R _ _ Hh) as (B & _). split; [lia|exact B]. }
    unfold transitions_of in ET. pose proof (collect_spec reset gh) as C. destruct (all_entries reset gh) as [es|] eqn:Ea.
    - destruct C as (rd & EC & W & L). rewrite EC in ET. cbn [obind] in ET.
      destruct (Exists_dec (fun t => keep agents maph t = None) (candidates src rd)) as [He'|He'].
      { intros t. destruct (keep agents maph t); [right; discriminate|left; reflexivity]. }
      + apply Exists_exists in He'. destruct He' as (t & Ht & Ek). apply candidates_In in Ht; [|exact W].
        destruct Ht as (a & r0 & d & Hne & ->). rewrite L in Hne. destruct (matching (a, r0, d) es) as [|[[r i] c] m] eqn:Em; [congruence|].
        assert (Hin : In (r, i, c) (matching (a, r0, d) es)) by (rewrite Em; simpl; auto).
        apply matching_In in Hin. apply (all_entries_In _ _ _ _ _ _ _ _ Ea) in Hin. destruct Hin as (hs & ds & Hg & Hhs & Er & _ & Hd).
        destruct (Hh _ _ _ _ Hg Hhs) as (A & B). exists a, i, c. split; [exact A|]. split; [exact B|].
        unfold keep in Ek. cbn [t_dest t_agent mk_transition] in Ek. destruct d as [d|].
        * destruct (nth_error agents a) eqn:El; [discriminate|]. exfalso. destruct B as (Hne' & _ & Bm & _). destruct c as [|p c]; [congruence|].
          destruct (Bm p) as ((lg & (Hck & _) & _) & _); [simpl; auto|]. congruence.
        * right. exists r. rewrite Er. destruct ds as [|d1 ds]; [reflexivity|]. cbn [dests_of] in Hd. apply in_map_iff in Hd. destruct Hd as (? & ? & _). discriminate.
      + exfalso. destruct (@filterM_some _ (keep agents maph) (candidates src rd)) as (r & Er); [|congruence].
        intros t Ht Ek. apply He'. apply Exists_exists. eauto.
    - clear ET C. unfold all_entries in Ea. destruct (mapM _ _) as [x|] eqn:Em; [discriminate|]. clear Ea.
      assert (Hx : exists p, In p (flat_map (fun g => map (fun h => (h, snd g)) (fst g)) gh) /\ hit_entries reset (snd p) (fst p) = None).
      { revert Em. generalize (flat_map (fun g : list (hit path) * nat => map (fun h => (h, snd g)) (fst g)) gh). intros l. induction l as [|p l IH]; simpl; [discriminate|].
        destruct (hit_entries reset (snd p) (fst p)) eqn:Ep; [|exists p; auto]. simpl. destruct (mapM _ l); [discriminate|].
        intros _. destruct IH as (q & Hq & Eq); [reflexivity|]. exists q. auto. }
      destruct Hx as ([[a c] i] & Hp & Ep). apply in_flat_map in Hp. destruct Hp as ([hs i'] & Hg & Hm). apply in_map_iff in Hm.
      destruct Hm as (h & Eq & Hhs). cbn [snd fst] in *. injection Eq as -> <-. destruct (Hh _ _ _ _ Hg Hhs) as (A & B). exists a, i', c. split; [exact A|]. split; [exact B|].
      left. unfold hit_entries in Ep. cbn [fst snd] in Ep. destruct (reset a i' c); [discriminate|reflexivity].
  Qed.
End Main.
