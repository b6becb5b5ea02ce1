(** Proofs about the transition cache and about to_simulate. *)
From Verif Require Import Base BaseFacts Dict Utils Cache CacheSpec CacheProofs CacheSim.
From Coq Require Import Permutation Lqa.
Set Implicit Arguments.
Open Scope nat_scope.

Section Reach.
  Variable iter : list entry -> list entry.
  Hypothesis iter_perm : forall l, Permutation l (iter l).

  Lemma reach_entry_query p q s e a : In e (s_entries s) -> accepts p e = true ->
    match q with [] => snd e = Leaf a | _ => exists l', query iter accepts q (snd e) = Some l' /\ In a l' end ->
    exists l', query iter accepts (p :: q) (Level (s_entries s)) = Some l' /\ In a l'.
  Proof.
    intros Ie Ae C. unfold s_entries in *. destruct (chain_nil_or (tube_ivs (s_lo s) (s_hi s)) (s_addr s)) as [N|(b & en & rest & _ & _ & N)]; rewrite N in *; [destruct Ie|]. destruct Ie as [<-|[]]. cbn [query filter]. rewrite Ae, (@iter_one iter iter_perm). cbn [map snd mapM] in *. destruct q as [|p' q].
    - rewrite C. eexists. split; [reflexivity|left; reflexivity].
    - destruct C as (l' & -> & Ia). eexists. split; [reflexivity|]. cbn [concat]. rewrite app_nil_r. exact Ia.
  Qed.

  Lemma reach_query_sound l ag md qlo qhi lq a : (forall s, In s l -> length (s_lo s) = length (s_hi s)) -> length qlo = length qhi ->
    query iter accepts (pairs qlo qhi) (Level (at_key (ag :: md) (tube_history l))) = Some lq -> In a lq ->
    exists s, In s l /\ s_agent s = ag /\ s_mode s = md /\ s_addr s = a /\ nearly_contains (s_lo s) (s_hi s) qlo qhi.
  Proof.
    intros WF WQ Q Ia. destruct (pairs qlo qhi) as [|p q] eqn:P; [discriminate|].
    destruct (@query_inv iter iter_perm _ _ _ _ _ _ _ Q Ia) as (e & Ie & Ae & C). destruct (tube_entry _ _ _ Ie) as (s & Is & K & Ise). injection K as K1 K2. exists s. split; [exact Is|]. split; [exact K1|]. split; [exact K2|].
    destruct (@reach_entry_query p q s e a Ise Ae C) as (l' & R1 & R2). destruct (@query_chain_inv iter iter_perm _ accepts accepts_iv (fun q b e t => @accepts_spec q b e t) _ _ _ _ _ R1 R2) as [-> F].
    split; [reflexivity|]. apply accepts_box; [apply WF; exact Is|exact WQ|]. rewrite <- tube_ivs_eq, P. exact F.
  Qed.

  Lemma reach_hit_sound l h ag md qlo qhi inits a : (forall s, In s l -> length (s_lo s) = length (s_hi s)) -> length qlo = length qhi ->
    reach_hit iter (tube_history l) h ag md qlo qhi inits = Hit a ->
    (exists s, In s l /\ s_agent s = ag /\ s_mode s = md /\ s_addr s = a /\ nearly_contains (s_lo s) (s_hi s) qlo qhi).
  Proof.
    intros WF WQ H. destruct (trans_hit_inv _ _ _ _ _ _ _ H) as (es & lq & D & Q & I & _).
    assert (E : es = at_key (ag :: md) (tube_history l)) by (unfold at_key; rewrite D; reflexivity). subst es. eapply reach_query_sound; eassumption.
  Qed.

  Lemma reach_hit_found l h ag md qlo qhi inits s0 : proper qlo qhi -> (forall s, In s l -> length (s_lo s) = length (s_hi s)) ->
    (forall s, In s l -> s_agent s = ag -> s_mode s = md -> length (s_lo s) = length qlo) ->
    (forall s, In s l -> reach_num h inits (s_addr s) <> None) ->
    In s0 l -> s_agent s0 = ag -> s_mode s0 = md -> contains_box (s_lo s0) (s_hi s0) qlo qhi ->
    exists a, reach_hit iter (tube_history l) h ag md qlo qhi inits = Hit a /\
      forall n, reach_num h inits (s_addr s0) = Some n -> exists m, reach_num h inits a = Some m /\ n <= m.
  Proof.
    intros [Nq Fq] WF Dim Num I0 A0 M0 C0. assert (WQ : length qlo = length qhi) by (eapply Forall2_len; exact Fq).
    set (ss := flat_map (fun s => if key_eqb (ag :: md) (s_key s) then [(tube_ivs (s_lo s) (s_hi s), s_addr s)] else []) l).
    assert (Es : at_key (ag :: md) (tube_history l) = flat_map (fun s => fst (chain (fst s) (snd s))) ss).
    { rewrite tube_entries. unfold ss. clear. induction l as [|s l IH]; [reflexivity|]. cbn [flat_map]. rewrite IH, flat_map_app. f_equal. destruct (key_eqb (ag :: md) (s_key s)); [|reflexivity]. cbn [flat_map fst snd]. rewrite app_nil_r. reflexivity. }
    assert (Np : pairs qlo qhi <> []) by (destruct Fq; [congruence|discriminate]).
    assert (Lp : length (pairs qlo qhi) = length qlo) by (unfold pairs; rewrite combine_length; lia).
    destruct (@query_total_entries iter iter_perm _ accepts ss (pairs qlo qhi) Np) as (lq & Q).
    { intros (ivs & a) I. unfold ss in I. apply in_flat_map in I. destruct I as (s & Is & I). destruct (key_eqb (ag :: md) (s_key s)) eqn:K; [|destruct I]. apply key_eqb_eq in K. injection K as K1 K2. destruct I as [I|[]]. injection I as <- _. cbn [fst]. rewrite Lp. unfold tube_ivs, pairs. rewrite map_length, combine_length.
      rewrite <- (WF s Is), Nat.min_id. apply Dim; [exact Is|congruence|congruence]. }
    rewrite <- Es in Q.
    assert (Tot : Forall2 (fun q iv => forall t, accepts q (fst iv, snd iv, t) = true) (pairs qlo qhi) (tube_ivs (s_lo s0) (s_hi s0))).
    { rewrite tube_ivs_eq. clear -Fq C0. unfold contains_box in C0. revert C0. generalize (s_lo s0) (s_hi s0). induction Fq as [|x y qlo qhi H F IH]; intros [|b lo] [|e hi] C; cbn in C; try tauto; [constructor|]. cbn [pairs widened combine map]. constructor; [|apply IH; tauto]. intros t. cbn [fst snd]. pose proof eps_pos as Ep. unfold eps in Ep. destruct C as [[C1 C2] _]. apply accepts_intro; lra. }
    assert (Ok : snd (chain (tube_ivs (s_lo s0) (s_hi s0)) (s_addr s0)) = true).
    { apply chain_ok. split; [destruct (pairs qlo qhi) as [|p0 q0]; [congruence|]; inversion Tot; subst; congruence|]. rewrite tube_ivs_eq. clear -Fq C0. unfold contains_box in C0. revert C0. generalize (s_lo s0) (s_hi s0). induction Fq as [|x y qlo qhi H F IH]; intros [|b lo] [|e hi] C; cbn in C; try tauto; [constructor|]. cbn [pairs widened combine map]. constructor; [|apply IH; tauto]. cbn [fst snd]. lra. }
    assert (I : In (s_addr s0) lq).
    { destruct (@query_total_entries iter iter_perm _ accepts [(tube_ivs (s_lo s0) (s_hi s0), s_addr s0)] (pairs qlo qhi) Np) as (l1 & Q1).
      { intros s [<-|[]]. cbn [fst]. symmetry. eapply Forall2_len. exact Tot. }
      cbn [flat_map fst snd] in Q1. rewrite app_nil_r in Q1. pose proof (@query_chain_intro iter iter_perm _ accepts _ _ _ _ Ok Tot Q1) as I1. destruct (pairs qlo qhi) as [|p q]; [congruence|].
      destruct (@query_inv iter iter_perm _ _ _ _ _ _ _ Q1 I1) as (e & Ie & Ae & C). eapply (@query_intro iter iter_perm); [exact Q| |exact Ae|].
      - rewrite tube_entries. apply in_flat_map. exists s0. split; [exact I0|]. unfold s_key. rewrite A0, M0, key_eqb_refl. exact Ie.
      - destruct q as [|x' q]; [exact C|]. destruct C as (l' & E' & Ia). intros l'' E''. congruence. }
    assert (D : dget key_eqb (ag :: md) (tube_history l) = Some (at_key (ag :: md) (tube_history l))).
    { unfold at_key in *. destruct (dget key_eqb (ag :: md) (tube_history l)); [reflexivity|]. exfalso. destruct (pairs qlo qhi) as [|p q]; [congruence|]. destruct (@query_inv iter iter_perm _ _ _ _ _ _ _ Q I) as (e & [] & _). }
    destruct (@mapM_some _ _ (reach_num h inits) lq) as (ns & Mn).
    { intros a Ia. destruct (@reach_query_sound l ag md qlo qhi lq a WF WQ Q Ia) as (s & Is & _ & _ & <- & _). apply Num. exact Is. }
    assert (H : exists a, reach_hit iter (tube_history l) h ag md qlo qhi inits = Hit a).
    { unfold reach_hit, trans_hit. rewrite D, Q, Mn. destruct lq; [destruct I|]. eexists. reflexivity. }
    destruct H as (a & H). exists a. split; [exact H|]. intros n En. destruct (trans_hit_inv _ _ _ _ _ _ _ H) as (es' & lq' & D' & Q' & I' & Mx). rewrite D in D'. injection D' as <-. rewrite Q in Q'. injection Q' as <-.
    destruct (Mx _ I) as (m & n' & E1 & E2 & Le). exists m. rewrite En in E1. injection E1 as <-. auto.
  Qed.
End Reach.

(** ** to_simulate *)
Lemma filter_none {A} (f : A -> bool) l : (forall x, In x l -> f x = false) -> filter f l = [].
Proof. induction l as [|a l IH]; intros H; [reflexivity|]. cbn. rewrite (H a (or_introl eq_refl)). apply IH. intros x I. apply H. right. exact I. Qed.

Lemma dappend_same {V} k (x : V) d : dget Nat.eqb k (dappend Nat.eqb k x d) = Some (match dget Nat.eqb k d with Some l => l ++ [x] | None => [x] end).
Proof. unfold dappend. rewrite (dget_alter_same Nat.eqb Nat.eqb_eq). reflexivity. Qed.
Lemma dappend_other {V} k k' (x : V) d : k <> k' -> dget Nat.eqb k' (dappend Nat.eqb k x d) = dget Nat.eqb k' d.
Proof. intros N. unfold dappend. apply (dget_alter_other Nat.eqb Nat.eqb_eq). exact N. Qed.
Lemma group_get v : forall ps, dget Nat.eqb v (group_by_var ps) = match paths_for v ps with [] => None | l => Some l end.
Proof.
  intros ps. unfold group_by_var. induction ps as [|p ps IH] using rev_ind; [reflexivity|]. rewrite fold_left_app. cbn [fold_left]. unfold paths_for in *. rewrite filter_app. cbn [filter].
  destruct (Nat.eq_dec v (m_var p)) as [E|N].
  - subst v. rewrite dappend_same, IH, Nat.eqb_refl. destruct (filter _ ps) as [|a l]; [reflexivity|]. reflexivity.
  - rewrite dappend_other by congruence. rewrite IH. apply Nat.eqb_neq in N. rewrite N, app_nil_r. reflexivity.
Qed.
Lemma group_nodup ps : NoDup (map fst (group_by_var ps)).
Proof.
  unfold group_by_var. induction ps as [|p ps IH] using rev_ind; [constructor|]. rewrite fold_left_app. cbn [fold_left]. unfold dappend at 1. apply (dalter_nodup Nat.eqb Nat.eqb_eq). exact IH.
Qed.

Lemma diff_spec : forall old new rm ad ch, diff_paths old new = Some (rm, ad, ch) ->
  (forall i o, nth_error old i = Some o -> (forall n, nth_error new i = Some n -> m_cond_veri n <> m_cond_veri o) -> In o rm) /\
  (forall o, In o rm -> exists i, nth_error old i = Some o /\ forall n, nth_error new i = Some n -> m_cond_veri n <> m_cond_veri o) /\
  (forall i n, nth_error new i = Some n -> (forall o, nth_error old i = Some o -> m_cond_veri n <> m_cond_veri o) -> In n ad) /\
  (forall n, In n ad -> exists i, nth_error new i = Some n /\ forall o, nth_error old i = Some o -> m_cond_veri n <> m_cond_veri o).
Proof.
  induction old as [|o old IH]; intros new rm ad ch H.
  - destruct new; [|discriminate]. injection H as <- <- <-. repeat split; try (intros [|i] x E; discriminate); intros x [].
  - destruct new as [|n new]; cbn [diff_paths] in H.
    + destruct (diff_paths old []) as [[[rm' ad'] ch']|] eqn:D; [|discriminate]. cbn [obind] in H. injection H as <- <- <-. destruct (IH _ _ _ _ D) as (A & B & C & E). split; [|split; [|split]].
      * intros [|i] x Ex N; [injection Ex as ->; left; reflexivity|]. right. apply (A i); [exact Ex|]. intros n En. destruct i; discriminate.
      * intros x [<-|I]; [exists 0; split; [reflexivity|intros n En; discriminate]|]. destruct (B x I) as (i & Ei & _). exists (S i). split; [exact Ei|intros n En; discriminate].
      * intros [|i] x Ex; discriminate.
      * intros x I. destruct (E x I) as (i & Ei & _). destruct i; discriminate.
    + destruct (diff_paths old new) as [[[rm' ad'] ch']|] eqn:D; [|discriminate]. cbn [obind] in H. destruct (IH _ _ _ _ D) as (A & B & C & E).
      assert (G : forall rm2 ad2, ((m_cond_veri n <> m_cond_veri o /\ rm2 = o :: rm' /\ ad2 = n :: ad') \/ (m_cond_veri n = m_cond_veri o /\ rm2 = rm' /\ ad2 = ad')) ->
        (forall i o0, nth_error (o :: old) i = Some o0 -> (forall n0, nth_error (n :: new) i = Some n0 -> m_cond_veri n0 <> m_cond_veri o0) -> In o0 rm2) /\
        (forall o0, In o0 rm2 -> exists i, nth_error (o :: old) i = Some o0 /\ forall n0, nth_error (n :: new) i = Some n0 -> m_cond_veri n0 <> m_cond_veri o0) /\
        (forall i n0, nth_error (n :: new) i = Some n0 -> (forall o0, nth_error (o :: old) i = Some o0 -> m_cond_veri n0 <> m_cond_veri o0) -> In n0 ad2) /\
        (forall n0, In n0 ad2 -> exists i, nth_error (n :: new) i = Some n0 /\ forall o0, nth_error (o :: old) i = Some o0 -> m_cond_veri n0 <> m_cond_veri o0)).
      { intros rm2 ad2 [(Ne & -> & ->)|(Eq & -> & ->)]; (split; [|split; [|split]]).
        - intros [|i] x Ex N; [injection Ex as ->; left; reflexivity|right; apply (A i); assumption].
        - intros x [<-|I]; [exists 0; split; [reflexivity|intros n0 En; injection En as <-; exact Ne]|]. destruct (B x I) as (i & R). exists (S i). exact R.
        - intros [|i] x Ex N; [injection Ex as ->; left; reflexivity|right; apply (C i); assumption].
        - intros x [<-|I]; [exists 0; split; [reflexivity|intros n0 En; injection En as <-; exact Ne]|]. destruct (E x I) as (i & R). exists (S i). exact R.
        - intros [|i] x Ex N; [injection Ex as <-; exfalso; apply (N n); [reflexivity|exact Eq]|apply (A i); assumption].
        - intros x I. destruct (B x I) as (i & R). exists (S i). exact R.
        - intros [|i] x Ex N; [injection Ex as <-; exfalso; apply (N o); [reflexivity|exact Eq]|apply (C i); assumption].
        - intros x I. destruct (E x I) as (i & R). exists (S i). exact R. }
      destruct (Nat.eqb_spec (m_cond_veri o) (m_cond_veri n)) as [Eq|Ne]; cbn [negb] in H.
      * destruct (negb _); injection H as <- <- <-; apply G; right; auto.
      * injection H as <- <- <-. apply G. left. auto.
Qed.

Lemma diff_agent_spec old new rm ad ch : diff_agent old new = Some (rm, ad, ch) ->
  (forall o, path_gone old new o <-> In o rm) /\ (forall n, path_new old new n <-> In n ad).
Proof.
  unfold diff_agent. destruct (same_keys (group_by_var old) (group_by_var new)) eqn:S; [|discriminate]. destruct (mapM _ (group_by_var old)) as [l|] eqn:M; [|discriminate]. cbn [obind]. intros H. injection H as <- <- <-.
  unfold same_keys in S. apply andb_prop in S. destruct S as [S1 S2]. rewrite forallb_forall in S1, S2.
  assert (KeyOld : forall v, paths_for v old <> [] -> exists x n, dget Nat.eqb v (group_by_var new) = Some n /\ n = paths_for v new /\ diff_paths (paths_for v old) n = Some x /\ In x l).
  { intros v N. assert (D : dget Nat.eqb v (group_by_var old) = Some (paths_for v old)) by (rewrite group_get; destruct (paths_for v old); [congruence|reflexivity]). apply (dget_In Nat.eqb Nat.eqb_eq) in D.
    destruct (@mapM_In_l _ _ _ _ _ _ M D) as (x & Ix & E). cbn [fst snd] in E. destruct (dget Nat.eqb v (group_by_var new)) as [n|] eqn:Dn; [|discriminate]. exists x, n. split; [reflexivity|]. split; [|split; [exact E|exact Ix]]. rewrite group_get in Dn. destruct (paths_for v new); [discriminate|]. congruence. }
  assert (KeyNew : forall v, paths_for v new <> [] -> paths_for v old <> []).
  { intros v N. assert (D : dget Nat.eqb v (group_by_var new) = Some (paths_for v new)) by (rewrite group_get; destruct (paths_for v new); [congruence|reflexivity]). apply (dget_In Nat.eqb Nat.eqb_eq) in D. specialize (S2 _ D). apply existsb_exists in S2. destruct S2 as (k & Ik & E). cbn [fst] in E. apply Nat.eqb_eq in E. subst k.
    intros C. assert (Dn : dget Nat.eqb v (group_by_var old) = None) by (rewrite group_get, C; reflexivity). apply (dget_None Nat.eqb Nat.eqb_eq) in Dn. contradiction. }
  assert (Back : forall x, In x l -> exists v, diff_paths (paths_for v old) (paths_for v new) = Some x).
  { intros x Ix. destruct (@mapM_In_r _ _ _ _ _ _ M Ix) as ((v & ps) & Ip & E). cbn [fst snd] in E. exists v. apply (In_dget Nat.eqb Nat.eqb_eq) in Ip; [|apply group_nodup]. rewrite group_get in Ip. destruct (dget Nat.eqb v (group_by_var new)) as [n|] eqn:Dn; [|discriminate]. rewrite group_get in Dn. destruct (paths_for v old) as [|a r]; [discriminate|]. destruct (paths_for v new) as [|a' r']; [discriminate|]. injection Ip as <-. injection Dn as <-. exact E. }
  split.
  - intros o. split.
    + intros (v & i & E & N). destruct (KeyOld v) as (((rm & ad) & ch) & n & _ & -> & D & Ix); [intros C; rewrite C in E; destruct i; discriminate|]. apply in_flat_map. exists (rm, ad, ch). split; [exact Ix|]. cbn [fst]. destruct (diff_spec _ _ D) as (A & _). apply (A i); assumption.
    + intros I. apply in_flat_map in I. destruct I as (((rm & ad) & ch) & Ix & I). cbn [fst] in I. destruct (Back _ Ix) as (v & D). destruct (diff_spec _ _ D) as (_ & B & _). destruct (B o I) as (i & E & N). exists v, i. auto.
  - intros n. split.
    + intros (v & i & E & N). destruct (KeyOld v) as (((rm & ad) & ch) & n' & _ & -> & D & Ix); [apply KeyNew; intros C; rewrite C in E; destruct i; discriminate|]. apply in_flat_map. exists (rm, ad, ch). split; [exact Ix|]. cbn [fst snd]. destruct (diff_spec _ _ D) as (_ & _ & A & _). apply (A i); assumption.
    + intros I. apply in_flat_map in I. destruct I as (((rm & ad) & ch) & Ix & I). cbn [fst snd] in I. destruct (Back _ Ix) as (v & D). destruct (diff_spec _ _ D) as (_ & _ & _ & B). destruct (B n I) as (i & E & N). exists v, i. auto.
Qed.

Lemma to_simulate_inv old new : forall cached keep check, to_simulate_loop old new cached = Some (keep, check) ->
  (forall a ts', In (a, ts') keep -> exists ts, In (a, ts) cached /\ map q_result ts' = map q_result ts /\
     (ts = [] \/ exists o n, dget Nat.eqb a old = Some o /\ dget Nat.eqb a new = Some n /\
        forall t p r, In t ts -> In p (q_paths t) -> path_gone (snd o) (snd n) r -> ~ (m_cond p = m_cond r /\ m_val p = m_val r))) /\
  (forall a n p, In (a, p) check -> dget Nat.eqb a new = Some n -> exists o, dget Nat.eqb a old = Some o /\ path_new (snd o) (snd n) p) /\
  (forall a ts o n p, In (a, ts) cached -> ts <> [] -> dget Nat.eqb a old = Some o -> dget Nat.eqb a new = Some n -> path_new (snd o) (snd n) p -> In (a, p) check).
Proof.
  induction cached as [|(a & ts) rest IH]; intros keep check H.
  - injection H as <- <-. split; [intros a ts' []|]. split; [intros a n p []|intros a ts o n p []].
  - cbn [to_simulate_loop] in H. destruct ts as [|t0 ts].
    + destruct (to_simulate_loop old new rest) as [[k c]|] eqn:R; [|discriminate]. cbn [obind fst snd] in H. injection H as <- <-. destruct (IH _ _ eq_refl) as (A & B & C). split; [|split].
      * intros a' ts' [E|I]; [injection E as <- <-; exists []; split; [left; reflexivity|split; [reflexivity|left; reflexivity]]|]. destruct (A a' ts' I) as (ts & I' & R'). exists ts. split; [right; exact I'|exact R'].
      * exact B.
      * intros a' ts o n p [E|I] N; [congruence|]. eapply C; eassumption.
    + destruct (dget Nat.eqb a old) as [o|] eqn:Do; [|discriminate]. destruct (dget Nat.eqb a new) as [n|] eqn:Dn; [|discriminate]. cbn [obind] in H. destruct (negb _); [discriminate|]. destruct (diff_agent (snd o) (snd n)) as [[[rm ad] ch]|] eqn:D; [|discriminate]. cbn [obind] in H. destruct (to_simulate_loop old new rest) as [[k c]|] eqn:R; [|discriminate]. cbn [obind fst snd] in H. remember (was_removed rm (t0 :: ts)) as w eqn:Ew in H. remember (refresh ch (t0 :: ts)) as rt eqn:Er in H. injection H as <- <-.
      destruct (IH _ _ eq_refl) as (A & B & C). destruct (diff_agent_spec _ _ D) as (S1 & S2). split; [|split].
      * intros a' ts' I. assert (Split : (a' = a /\ ts' = refresh ch (t0 :: ts) /\ was_removed rm (t0 :: ts) = false) \/ In (a', ts') k).
        { destruct w; [right; exact I|]. destruct I as [E|I]; [left; injection E as <- <-; auto|right; exact I]. }
        destruct Split as [(-> & -> & W)|I']; [|destruct (A a' ts' I') as (ts1 & I1 & R1); exists ts1; split; [right; exact I1|exact R1]].
        exists (t0 :: ts). split; [left; reflexivity|]. split; [unfold refresh; rewrite map_map; reflexivity|]. right. exists o, n. split; [exact Do|]. split; [exact Dn|].
        intros t p r It Ip G [E1 E2]. apply S1 in G. assert (W' : was_removed rm (t0 :: ts) = true); [|congruence]. unfold was_removed. apply existsb_exists. exists t. split; [exact It|]. apply existsb_exists. exists p. split; [exact Ip|]. apply existsb_exists. exists r. split; [exact G|]. unfold mpath_eqb. rewrite E1, E2, !Nat.eqb_refl. reflexivity.
      * intros a' n' p I Dn'. apply in_app_or in I. destruct I as [I|I]; [|apply (B a' n' p I Dn')]. apply in_map_iff in I. destruct I as (p' & E & I). injection E as <- <-. exists o. split; [exact Do|]. rewrite Dn in Dn'. injection Dn' as <-. apply S2. exact I.
      * intros a' ts' o' n' p [E|I] N Do' Dn' G; [|apply in_or_app; right; eapply C; eassumption]. injection E as <- <-. rewrite Do in Do'. injection Do' as <-. rewrite Dn in Dn'. injection Dn' as <-. apply in_or_app. left. apply in_map. apply S2. exact G.
Qed.
