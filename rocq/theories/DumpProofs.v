(** Proofs about dump and load. *)
From Coq Require Import Ascii String Permutation.
From Verif Require Import Base BaseFacts Dict PyText ResetProofs Guard GuardProofs Tree TreeSpec TreeProofs.
Set Implicit Arguments.
Open Scope nat_scope.

Lemma dec_nominus n : ~ In "-"%char (dec n).
Proof. unfold dec. induction (Nat.to_uint n); cbn; try tauto; intros [H|H]; try discriminate; auto. Qed.
Lemma decz_inj a b : decz a = decz b -> a = b.
Proof.
  destruct a as [|p|p], b as [|q|q]; cbn [decz]; intros E; try reflexivity; try (apply dec_inj in E; lia);
    try (exfalso; eapply dec_nominus; (rewrite E || rewrite <- E); left; reflexivity).
  injection E as E. apply dec_inj in E. lia.
Qed.

Lemma Forall2_impl {X Y} (P Q : X -> Y -> Prop) l m : (forall x y, P x y -> Q x y) -> Forall2 P l m -> Forall2 Q l m.
Proof. intros H F. induction F; constructor; auto. Qed.
Lemma app_inj_len {X} : forall (a b c d : list X), length a = length b -> a ++ c = b ++ d -> a = b /\ c = d.
Proof. induction a as [|x a IH]; intros [|y b] c d L E; try discriminate; [auto|]. cbn in *. injection E as -> E. destruct (IH b c d) as [-> ->]; auto. Qed.

Section Dump.
  Variables B Ag G : Type.
  Variable describe : Ag -> G.
  Notation T := (tree (item B Ag)).
  Notation id n := (i_id (content n)).
  Notation entry := (entry B G).
  Notation zget := (dget Z.eqb).

  Fixpoint subs (t : T) : list T := match t with Node a ch => t :: flat_map subs ch end.
  Definition ids (t : T) : list Z := map (fun n => id n) (subs t).
  Lemma subs_pre : forall t p, subs t = map snd (pre p t).
  Proof.
    intros t. induction t as [a ch IH] using tree_ind'. intros p. rewrite pre_eq. cbn [map snd subs]. f_equal. generalize 0. induction ch as [|c r IHl]; intros i; [reflexivity|].
    cbn [flat_map pres]. inversion IH as [|x y Hc Hr]; subst. rewrite map_app, <- (Hc (p ++ [i])), (IHl Hr (S i)). reflexivity.
  Qed.
  Lemma distinct_NoDup (t : T) : distinct_ids t -> NoDup (ids t).
  Proof.
    intros D. unfold ids. rewrite (subs_pre t []), map_map. pose proof (pre_NoDup t []) as N.
    assert (H : forall x, In x (pre [] t) -> at_path t (fst x) = Some (snd x)).
    { intros [q n] Hx. apply pre_In in Hx. destruct Hx as (s & -> & Hs). exact Hs. }
    revert N H. induction (pre [] t) as [|x r IH]; intros N H; [constructor|]. cbn [map] in *. apply NoDup_cons_iff in N. destruct N as [N1 N2]. constructor.
    - rewrite in_map_iff. intros (y & E & Hy). apply N1. assert (fst x = fst y) as -> by (eapply D; [apply H; left; reflexivity|apply H; right; exact Hy|symmetry; exact E]). apply in_map. exact Hy.
    - apply IH; [exact N2|]. intros y Hy. apply H. right. exact Hy.
  Qed.
  Lemma ids_cons a ch : ids (Node a ch) = i_id a :: flat_map ids ch.
  Proof. unfold ids. cbn [subs map content]. f_equal. induction ch as [|c r IH]; [reflexivity|]. cbn. rewrite map_app, IH. reflexivity. Qed.
  Lemma id_in_ids (c : T) : In (id c) (ids c).
  Proof. destruct c. rewrite ids_cons. left. reflexivity. Qed.

  Definition entry_ok (res : dict Z entry) (n : T) : Prop :=
    exists e, zget (id n) res = Some e /\ n_item e = kept describe (content n) /\ n_child e = map (fun c => id c) (child n).

  Lemma dump_children_spec pid : forall (ch : list T) res e, zget pid res = Some e -> ~ In pid (map (fun c => id c) ch) -> NoDup (map (fun c => id c) ch) ->
    exists res', dump_children describe pid ch res = Some res' /\
      zget pid res' = Some (mk_entry (n_item e) (n_parent e) (n_child e ++ map (fun c => id c) ch)) /\
      (forall c, In c ch -> zget (id c) res' = Some (to_dict describe (Some pid) (content c))) /\
      (forall k, k <> pid -> ~ In k (map (fun c => id c) ch) -> zget k res' = zget k res).
  Proof.
    induction ch as [|c r IH]; intros res e He Hn ND; cbn [dump_children map].
    - exists res. repeat split; auto. + rewrite app_nil_r, He. destruct e; reflexivity. + intros c [].
    - cbn [map] in Hn, ND. apply NoDup_cons_iff in ND. destruct ND as [ND1 ND2]. unfold dset at 1.
      rewrite (dget_alter_other Z.eqb Z.eqb_eq) by (intros E; apply Hn; left; exact E). rewrite He. cbn [obind].
      edestruct IH as (res' & R1 & R2 & R3 & R4); [unfold dset; apply (dget_alter_same Z.eqb Z.eqb_eq)|intros I; apply Hn; right; exact I|exact ND2|].
      exists res'. split; [exact R1|]. split; [rewrite R2; cbn; rewrite <- app_assoc; reflexivity|]. split.
      + intros x [<-|Hx]; [|apply R3; exact Hx]. rewrite R4; [|intros E; apply Hn; left; exact E|exact ND1]. unfold dset.
        rewrite (dget_alter_other Z.eqb Z.eqb_eq) by (intros E; apply Hn; left; symmetry; exact E). apply (dget_alter_same Z.eqb Z.eqb_eq).
      + intros k Hk Hk2. rewrite R4; [|exact Hk|intros I; apply Hk2; right; exact I]. unfold dset. rewrite (dget_alter_other Z.eqb Z.eqb_eq) by congruence.
        apply (dget_alter_other Z.eqb Z.eqb_eq). intros E. apply Hk2. left. exact E.
  Qed.

  Lemma flat_ids_in (q : list T) n : In n q -> In (id n) (flat_map ids q).
  Proof. intros H. apply in_flat_map. exists n. split; [exact H|apply id_in_ids]. Qed.
  Lemma NoDup_heads (q : list T) : NoDup (flat_map ids q) -> NoDup (map (fun c => id c) q).
  Proof.
    induction q as [|c r IH]; intros H; [constructor|]. cbn in *. constructor.
    - intros I. apply in_map_iff in I. destruct I as (d & E & Hd). destruct c as [a ch]. rewrite ids_cons in H. cbn in H. apply NoDup_cons_iff in H. destruct H as [H _]. apply H.
      apply in_or_app. right. cbn [content] in E. rewrite <- E. apply flat_ids_in. exact Hd.
    - apply IH. induction (ids c); [exact H|]. cbn in H. inversion H. auto.
  Qed.

  Lemma dump_loop_spec : forall fuel (q : list T) res, list_sum (map (@size _) q) <= fuel -> NoDup (flat_map ids q) ->
    (forall n, In n q -> exists par, zget (id n) res = Some (to_dict describe par (content n))) ->
    exists res', dump_loop describe fuel q res = Some res' /\ (forall n, In n (flat_map subs q) -> entry_ok res' n) /\
      (forall k, ~ In k (flat_map ids q) -> zget k res' = zget k res).
  Proof.
    induction fuel as [|f IH]; intros [|[a ch] q] res Hf ND Hq; cbn [dump_loop].
    1,3: exists res; repeat split; auto; intros n [].
    - exfalso. cbn in Hf. lia.
    - cbn [content child]. destruct (Hq _ (or_introl eq_refl)) as (par & Ha). cbn [content] in Ha.
      assert (P : Permutation (flat_map ids (Node a ch :: q)) (i_id a :: flat_map ids (q ++ ch))).
      { cbn [flat_map]. rewrite ids_cons, flat_map_app. cbn. constructor. apply Permutation_app_comm. }
      pose proof (Permutation_NoDup P ND) as ND'. apply NoDup_cons_iff in ND'. destruct ND' as [ND1 ND2]. rewrite flat_map_app in ND1.
      destruct (@dump_children_spec (i_id a) ch res _ Ha) as (r1 & R1 & R2 & R3 & R4).
      { intros I. apply ND1, in_or_app. right. apply in_map_iff in I. destruct I as (c & <- & Hc). apply flat_ids_in. exact Hc. }
      { apply NoDup_heads. rewrite flat_map_app in ND2. clear -ND2. induction (flat_map ids q); [exact ND2|]. cbn in ND2. inversion ND2. auto. }
      rewrite R1. cbn [obind].
      destruct (IH (q ++ ch) r1) as (r2 & S1 & S2 & S3).
      { rewrite map_app, list_sum_app. change (list_sum (map (@size _) (Node a ch :: q))) with (S (list_sum (map (@size _) ch)) + list_sum (map (@size _) q)) in Hf. lia. }
      { exact ND2. }
      { intros n Hn. apply in_app_iff in Hn. destruct Hn as [Hn|Hn]; [|exists (Some (i_id a)); apply R3; exact Hn].
        destruct (Hq n (or_intror Hn)) as (pn & En). exists pn. rewrite <- En. apply R4.
        - intros E. apply ND1, in_or_app. left. rewrite <- E. apply flat_ids_in. exact Hn.
        - intros I. apply in_map_iff in I. destruct I as (c & E & Hc). rewrite flat_map_app in ND2.
          assert (forall x, In x (flat_map ids q) -> In x (flat_map ids ch) -> False) as Dj.
          { clear -ND2. induction (flat_map ids q) as [|y l IHl]; [intros x []|]. cbn in ND2. apply NoDup_cons_iff in ND2. destruct ND2 as [N1 N2]. intros x [->|Hx] Hx2; [apply N1, in_or_app; auto|eapply IHl; eauto]. }
          apply (Dj (id n)); [apply flat_ids_in; exact Hn|]. rewrite <- E. apply flat_ids_in. exact Hc. }
      exists r2. split; [exact S1|]. split.
      + intros n Hn. cbn [flat_map subs] in Hn. destruct Hn as [<-|Hn].
        * cbn [content child]. eexists. split; [cbn [content]; rewrite S3 by (rewrite flat_map_app; exact ND1); exact R2|]. split; reflexivity.
        * apply S2. rewrite flat_map_app. apply in_app_iff in Hn. apply in_or_app. tauto.
      + intros k Hk. assert (Hk2 : k <> i_id a /\ ~ In k (flat_map ids (q ++ ch))).
        { split; intros E; apply Hk; eapply Permutation_in; try (apply Permutation_sym; exact P); [left; congruence|right; exact E]. }
        destruct Hk2 as [K1 K2]. rewrite S3 by exact K2. apply R4; [exact K1|]. intros I. apply K2. rewrite flat_map_app. apply in_or_app. right.
        apply in_map_iff in I. destruct I as (c & <- & Hc). apply flat_ids_in. exact Hc.
  Qed.

  Definition file_ok (data : dict word entry) (n : T) : Prop :=
    exists e, dget word_eqb (decz (id n)) data = Some e /\ n_item e = kept describe (content n) /\ n_child e = map (fun c => id c) (child n).
  Lemma file_get k : forall (res : dict Z entry), dget word_eqb (decz k) (map (fun p => (decz (fst p), snd p)) res) = zget k res.
  Proof.
    induction res as [|[k' v] r IH]; [reflexivity|]. cbn [map dget fst snd]. destruct (Z.eqb k k') eqn:E.
    - apply Z.eqb_eq in E. subst. rewrite word_eqb_refl. reflexivity.
    - rewrite IH. destruct (word_eqb (decz k) (decz k')) eqn:E2; [|reflexivity]. apply word_eqb_eq, decz_inj in E2. apply Z.eqb_neq in E. contradiction.
  Qed.
  Lemma dump_spec (t : T) : NoDup (ids t) -> exists data, dump describe t = Some data /\ forall n, In n (subs t) -> file_ok data n.
  Proof.
    intros ND. unfold dump. destruct (@dump_loop_spec (size t) [t] [(id t, to_dict describe None (content t))]) as (res & R1 & R2 & _).
    - cbn. lia.
    - cbn. rewrite app_nil_r. exact ND.
    - intros n [<-|[]]. exists None. cbn. rewrite Z.eqb_refl. reflexivity.
    - rewrite R1. eexists. split; [reflexivity|]. intros n Hn. unfold file_ok. rewrite file_get. apply R2. cbn. rewrite app_nil_r. exact Hn.
  Qed.

  (** ** load *)
  Section Load.
    Variable data : dict word entry.
    Notation object := (item B G * list nat)%type.
    Definition fits (e : entry) (n : T) : Prop := n_item e = kept describe (content n) /\ n_child e = map (fun c => id c) (child n).

    Lemma load_children_spec po : forall (cs : list T) (heap : list object) q it os, nth_error heap po = Some (it, os) -> (forall c, In c cs -> file_ok data c) ->
      exists heap' news, load_children data po (map (fun c => id c) cs) heap q = Some (heap', q ++ news) /\
        length heap' = length heap + length cs /\ nth_error heap' po = Some (it, os ++ map snd news) /\
        Forall2 (fun x c => fits (fst x) c /\ nth_error heap' (snd x) = Some (kept describe (content c), []) /\ length heap <= snd x < length heap') news cs /\
        NoDup (map snd news) /\ (forall o, o < length heap -> o <> po -> nth_error heap' o = nth_error heap o).
    Proof.
      induction cs as [|c r IH]; intros heap q it os Hp Hc; cbn [map load_children].
      - exists heap, []. rewrite !app_nil_r. cbn. repeat split; auto; constructor.
      - destruct (Hc c (or_introl eq_refl)) as (e & E1 & E2 & E3). rewrite E1. cbn [obind].
        assert (Lp : po < length heap) by (apply nth_error_Some; rewrite Hp; discriminate).
        rewrite nth_error_app1 by exact Lp. rewrite Hp. cbn [obind fst snd].
        set (h1 := set_nth po (it, os ++ [length heap]) (heap ++ [(n_item e, [])])).
        assert (L1 : length h1 = S (length heap)) by (unfold h1; rewrite set_nth_length, app_length; cbn; lia).
        destruct (IH h1 (q ++ [(e, length heap)]) it (os ++ [length heap])) as (h' & news & R1 & R2 & R3 & R4 & R5 & R6).
        { unfold h1. apply nth_error_set_nth_same. rewrite app_length. lia. }
        { intros d Hd. apply Hc. right. exact Hd. }
        exists h', ((e, length heap) :: news). split; [rewrite R1, <- app_assoc; reflexivity|]. split; [rewrite R2, L1; cbn [length]; lia|].
        split; [rewrite R3; cbn [map snd]; rewrite <- app_assoc; reflexivity|]. split; [|split].
        + constructor.
          * cbn [fst snd]. split; [split; assumption|]. split; [|lia]. rewrite R6 by lia. unfold h1. rewrite nth_error_set_nth_other by lia.
            rewrite nth_error_app2, Nat.sub_diag by lia. cbn. rewrite E2. reflexivity.
          * eapply Forall2_impl; [|exact R4]. cbn. intros x y (X1 & X2 & X3). split; [exact X1|]. split; [exact X2|]. lia.
        + cbn [map snd]. constructor; [|exact R5]. intros I. apply in_map_iff in I. destruct I as (x & Ex & Hx).
          apply In_nth_error in Hx. destruct Hx as (i & Hi). destruct (Forall2_nth_l _ R4 Hi) as (y & _ & _ & _ & Hy). lia.
        + intros o Lo No. rewrite R6 by lia. unfold h1. rewrite nth_error_set_nth_other by congruence. apply nth_error_app1. exact Lo.
    Qed.

    Definition queued (heap : list object) (x : entry * nat) (n : T) : Prop :=
      fits (fst x) n /\ nth_error heap (snd x) = Some (kept describe (content n), []).
    Lemma load_loop_spec : forall fuel q (ts : list T) (heap : list object), list_sum (map (@size _) ts) <= fuel ->
      Forall2 (queued heap) q ts -> NoDup (map snd q) -> (forall n, In n (flat_map subs ts) -> file_ok data n) ->
      exists heap', load_loop fuel data q heap = Some heap' /\
        Forall2 (fun x t => represents heap' (snd x) (map_tree (kept describe) t)) q ts /\
        (forall o, o < length heap -> ~ In o (map snd q) -> nth_error heap' o = nth_error heap o).
    Proof.
      induction fuel as [|f IH]; intros q ts heap Hf Hq ND Hok.
      - inversion Hq as [|x t q' ts' Hx Hr]; subst; [exists heap; cbn; auto|]. destruct t. cbn in Hf. lia.
      - inversion Hq as [|[e o] [a ch] q' ts' Hx Hr]; subst; [exists heap; cbn; auto|]. cbn [load_loop].
        destruct Hx as ((F1 & F2) & F3). cbn [fst snd content child] in *. rewrite F2. cbn [map snd] in ND. apply NoDup_cons_iff in ND. destruct ND as [ND1 ND2].
        destruct (@load_children_spec o ch heap q' _ _ F3) as (h1 & news & R1 & R2 & R3 & R4 & R5 & R6).
        { intros c Hc. apply Hok. cbn [flat_map subs]. right. apply in_or_app. left. apply in_flat_map. exists c. split; [exact Hc|]. destruct c; left; reflexivity. }
        assert (Lo : o < length heap) by (apply nth_error_Some; rewrite F3; discriminate).
        assert (Q' : forall x, In x q' -> snd x < length heap /\ snd x <> o).
        { intros x Hx. split; [|intros E; apply ND1; rewrite <- E; apply in_map; exact Hx]. apply In_nth_error in Hx. destruct Hx as (i & Hi). destruct (Forall2_nth_l _ Hr Hi) as (y & _ & _ & Hy). apply nth_error_Some. rewrite Hy. discriminate. }
        assert (N' : forall x, In x news -> length heap <= snd x).
        { intros x Hx. apply In_nth_error in Hx. destruct Hx as (i & Hi). destruct (Forall2_nth_l _ R4 Hi) as (y & _ & _ & _ & Hy). lia. }
        rewrite R1. cbn [obind fst snd].
        destruct (IH (q' ++ news) (ts' ++ ch) h1) as (h' & S1 & S2 & S3).
        { rewrite map_app, list_sum_app. change (list_sum (map (@size _) (Node a ch :: ts'))) with (S (list_sum (map (@size _) ch)) + list_sum (map (@size _) ts')) in Hf. lia. }
        { apply Forall2_app.
          - clear -Hr R6 Q'. revert Q'. induction Hr as [|x t q ts Hx Hr IHr]; intros Q'; constructor.
            + destruct Hx as (A & A2). split; [exact A|]. rewrite R6; [exact A2|apply Q'; left; reflexivity|apply Q'; left; reflexivity].
            + apply IHr. intros y Hy. apply Q'. right. exact Hy.
          - eapply Forall2_impl; [|exact R4]. cbn. intros x y (X1 & X2 & _). split; assumption. }
        { rewrite map_app. apply NoDup_app'; [exact ND2|exact R5|]. intros x H1 H2. apply in_map_iff in H1. destruct H1 as (y & <- & Hy). apply in_map_iff in H2. destruct H2 as (z & E & Hz).
          pose proof (proj1 (Q' y Hy)). pose proof (N' z Hz). lia. }
        { intros n Hn. apply Hok. cbn [flat_map subs]. right. rewrite flat_map_app in Hn. apply in_app_iff in Hn. apply in_or_app. tauto. }
        exists h'. split; [exact S1|]. apply Forall2_app_inv_l in S2. destruct S2 as (l1 & l2 & T1 & T2 & E).
        assert (Len : length l1 = length ts') by (rewrite <- (Forall2_len T1), <- (Forall2_len Hr); reflexivity).
        destruct (app_inj_len l1 ts' l2 ch Len (eq_sym E)) as [-> ->].
        assert (No : ~ In o (map snd (q' ++ news))).
        { rewrite map_app, in_app_iff. intros [I|I]; [contradiction|]. apply in_map_iff in I. destruct I as (z & E2 & Hz). pose proof (N' z Hz). lia. }
        split.
        + constructor; [|exact T1]. cbn [fst snd map_tree]. apply rep_node with (os := map snd news).
          * rewrite S3; [|lia|exact No]. rewrite R3. reflexivity.
          * clear -T2. induction T2; cbn; constructor; auto.
        + intros o' L' N2. cbn [map snd In] in N2. rewrite S3; [|lia|].
          * apply R6; [exact L'|]. intros ->. apply N2. left. reflexivity.
          * rewrite map_app, in_app_iff. intros [I|I]; [apply N2; right; exact I|]. apply in_map_iff in I. destruct I as (z & E2 & Hz). pose proof (N' z Hz). lia.
    Qed.
  End Load.

  Theorem dump_load (t : T) : distinct_ids t -> id t = 0%Z ->
    exists data, dump describe t = Some data /\ forall fuel, size t <= fuel -> exists heap, load fuel data = Some heap /\ represents heap 0 (map_tree (kept describe) t).
  Proof.
    intros D E. destruct (@dump_spec t (distinct_NoDup D)) as (data & D1 & D2). exists data. split; [exact D1|]. intros fuel Hf. unfold load.
    assert (I : In t (subs t)) by (destruct t; left; reflexivity). destruct (D2 t I) as (e & E1 & E2 & E3). rewrite E in E1. rewrite E1. cbn [obind].
    destruct (@load_loop_spec data fuel [(e, 0)] [t] [(n_item e, [])]) as (heap & H1 & H2 & _).
    - cbn. lia.
    - constructor; [|constructor]. split; [split; assumption|]. cbn. rewrite E2. reflexivity.
    - repeat constructor. intros [].
    - intros n Hn. apply D2. cbn in Hn. rewrite app_nil_r in Hn. exact Hn.
    - exists heap. split; [exact H1|]. inversion H2; subst. assumption.
  Qed.
End Dump.
