(** C121: the reports of what is cached. *)
From Verif Require Import Base BaseFacts Dict Utils Cache CacheSpec CacheProofs CacheSim CacheInits.
From Coq Require Import Qabs Lqa Permutation.
Set Implicit Arguments.
Open Scope nat_scope.

Lemma mapM_len {A B} (f : A -> option B) l r : mapM f l = Some r -> length r = length l.
Proof. revert r. induction l as [|a l IH]; cbn; intros r H; [injection H as <-; reflexivity|]. destruct (f a); [|discriminate]. cbn in H. destruct (mapM f l); [|discriminate]. cbn in H. injection H as <-. cbn. rewrite (IH l0 eq_refl). reflexivity. Qed.

Section Walk.
  Variable iter : list entry -> list entry.
  Hypothesis P : forall l, Permutation l (iter l).
  Variable X : Type.
  Variable read : nat -> option X.

  (** The middle of the intervals of a state is the state. *)
  Lemma chain_report a x : read a = Some x -> forall init n, length init = S n ->
    exists v, iter_tree iter read n (fst (chain (sim_ivs init) a)) = Some [(v, x)] /\ Forall2 Qeq v init.
  Proof.
    intros R. induction init as [|y init IH]; intros n L; [discriminate|]. cbn [sim_ivs map chain].
    assert (Lt : Qle_bool (y + eps) (y - eps) = false) by (apply Qle_bool_false; pose proof eps_pos; lra). rewrite Lt.
    assert (M : (mid (y - eps, y + eps, Leaf a)%Q == y)%Q) by (unfold mid; cbn [fst snd]; field).
    destruct init as [|z init].
    - cbn in L. injection L as <-. cbn [map fst iter_tree]. rewrite (@iter_one iter P). cbn [mapM snd leaf obind]. rewrite R. cbn [obind]. eexists. split; [reflexivity|]. constructor; [exact M|constructor].
    - destruct n as [|n]; [discriminate|]. destruct (IH n ltac:(cbn in *; lia)) as (v & E & F). cbn [map] in E |- *. fold (sim_ivs init) in E |- *. change (((z - eps)%Q, (z + eps)%Q) :: sim_ivs init) with (sim_ivs (z :: init)) in *.
      destruct (chain (sim_ivs (z :: init)) a) as [sub ok] eqn:Ch. cbn [sim_ivs map] in Ch |- *. cbn [fst] in *. cbn [iter_tree]. rewrite (@iter_one iter P). cbn [mapM snd obind]. rewrite E. cbn [obind mapM concat app map fst snd].
      eexists. split; [reflexivity|]. constructor; [exact M|exact F].
  Qed.

  (** The entries of a tree are handled one by one. *)
  Lemma report_one n e : iter_tree iter read n [e] = match n with
    | 0 => do a <- leaf (snd e); do x <- read a; Some [([mid e], x)]
    | S d => match snd e with Leaf _ => None | Level sub => do r <- iter_tree iter read d sub; Some (map (fun s => (mid e :: fst s, snd s)) r) end
    end.
  Proof.
    destruct n as [|d]; cbn [iter_tree]; rewrite (@iter_one iter P); cbn [mapM].
    - destruct (leaf (snd e)); [|reflexivity]. cbn [obind]. destruct (read n); reflexivity.
    - destruct (snd e); [reflexivity|]. destruct (iter_tree iter read d es); [|reflexivity]. cbn. rewrite app_nil_r. reflexivity.
  Qed.
  Lemma report_ok n es : (forall e, In e es -> exists p, iter_tree iter read n [e] = Some [p]) ->
    exists r, iter_tree iter read n es = Some r /\ length r = length es /\ (forall p, In p r <-> exists e, In e es /\ iter_tree iter read n [e] = Some [p]).
  Proof.
    intros H. pose proof (P es) as Pe. assert (Li : length (iter es) = length es) by (apply Permutation_length, Permutation_sym; exact Pe).
    assert (Iff : forall e, In e (iter es) <-> In e es) by (intros e; apply iter_In; exact P).
    assert (H' : forall e, In e (iter es) -> exists p, iter_tree iter read n [e] = Some [p]) by (intros e I; apply H, Iff; exact I).
    assert (G : exists r, iter_tree iter read n es = Some r /\ length r = length (iter es) /\ (forall p, In p r <-> exists e, In e (iter es) /\ iter_tree iter read n [e] = Some [p])).
    { setoid_rewrite report_one in H'. setoid_rewrite report_one. destruct n as [|d]; cbn [iter_tree].
      - clear Pe Li Iff H. induction (iter es) as [|e l IH]; cbn [mapM]; [exists []; split; [reflexivity|]; split; [reflexivity|]; intros p; split; [intros []|intros (e & [] & _)]|].
        destruct IH as (r & E & L & S); [intros e' I; apply H'; right; exact I|]. destruct (H' e (or_introl eq_refl)) as (p & Hp). destruct (leaf (snd e)) as [a|] eqn:El; [|discriminate]. cbn [obind] in *. destruct (read a) as [x|] eqn:Er; [|discriminate]. cbn [obind] in *. rewrite E. cbn [obind].
        injection Hp as <-. eexists. split; [reflexivity|]. split; [cbn; lia|]. intros q. cbn [In]. rewrite S. split.
        + intros [<-|(e' & I & Hq)]; [exists e; split; [auto|]; rewrite El; cbn; rewrite Er; reflexivity|exists e'; auto].
        + intros (e' & [<-|I] & Hq); [rewrite El in Hq; cbn in Hq; rewrite Er in Hq; cbn in Hq; injection Hq as <-; auto|right; exists e'; auto].
      - clear Pe Li Iff H. induction (iter es) as [|e l IH]; cbn [mapM]; [exists []; split; [reflexivity|]; split; [reflexivity|]; intros p; split; [intros []|intros (e & [] & _)]|].
        destruct IH as (r & E & L & S); [intros e' I; apply H'; right; exact I|]. destruct (H' e (or_introl eq_refl)) as (p & Hp). destruct (snd e) as [a|sub] eqn:Es; [discriminate|]. destruct (iter_tree iter read d sub) as [r0|] eqn:E0; [|discriminate]. cbn [obind] in *.
        destruct (mapM _ l) as [ls|]; [|discriminate]. cbn [obind] in *. injection E as <-. injection Hp as Hp. rewrite Hp. eexists. split; [reflexivity|]. cbn [concat app length]. split; [lia|]. intros q. cbn [In]. rewrite S. split.
        + intros [<-|(e' & I & Hq)]; [exists e; split; [auto|]; rewrite Es; rewrite E0; cbn; rewrite Hp; reflexivity|exists e'; auto].
        + intros (e' & [<-|I] & Hq); [rewrite Es in Hq; rewrite E0 in Hq; cbn in Hq; rewrite Hp in Hq; injection Hq as <-; auto|right; exists e'; auto]. }
    destruct G as (r & E & L & S). exists r. split; [exact E|]. split; [lia|]. intros p. rewrite S. split; intros (e & I & Hp); exists e; (split; [apply Iff; exact I|exact Hp]).
  Qed.
End Walk.

Lemma mapM_none {A B} (f : A -> option B) l a : In a l -> f a = None -> mapM f l = None.
Proof. induction l as [|b l IH]; [intros []|]. intros [->|I] E; cbn; [rewrite E; reflexivity|]. rewrite (IH I E). destruct (f b); reflexivity. Qed.
Lemma report_none iter X (read : nat -> option X) n es e : (forall l, Permutation l (iter l)) -> In e es -> iter_tree iter read n [e] = None -> iter_tree iter read n es = None.
Proof.
  intros P I E. rewrite report_one in E by exact P. assert (I' : In e (iter es)) by (apply iter_In; assumption). destruct n as [|d]; cbn [iter_tree].
  - apply mapM_none with (a := e); [exact I'|]. destruct (leaf (snd e)) as [a|]; [|reflexivity]. cbn [obind] in *. destruct (read a); [discriminate|reflexivity].
  - erewrite mapM_none with (a := e); [reflexivity|exact I'|]. destruct (snd e); [reflexivity|]. destruct (iter_tree iter read d es0); [discriminate|reflexivity].
Qed.

Definition total {K Y} (d : dict K (list Y)) : nat := length (concat (map snd d)).
Lemma total_alter {K Y} (eqb : K -> K -> bool) (l : list Y) k d :
  total (dalter eqb (fun o => match o with Some l0 => l0 | None => [] end ++ l) k d) = total d + length l.
Proof.
  unfold total. induction d as [|[k' v] d IH]; cbn [dalter map snd concat]; [rewrite app_nil_r; reflexivity|].
  destruct (eqb k k'); cbn [map snd concat]; rewrite ?app_length in *; [lia|]. rewrite IH. lia.
Qed.
Lemma dget_sorted {K Y Z} (eqb : K -> K -> bool) (g : Y -> Z) k d : dget eqb k (map (fun kv => (fst kv, g (snd kv))) d) = option_map g (dget eqb k d).
Proof. induction d as [|[k' v] d IH]; [reflexivity|]. cbn. destruct (eqb k k'); [reflexivity|exact IH]. Qed.

Section Extend.
  Variable iter : list entry -> list entry.
  Variables X Y : Type.
  Variable read : nat -> option X.
  Variable f : list nat -> vec -> X -> Y.
  Variable n : nat.
  Definition has_row (d : dict nat (list Y)) (ag : nat) (y : Y) : Prop := exists rows, dget Nat.eqb ag d = Some rows /\ In y rows.

  Lemma extend_ok : forall (items : cache), (forall k es, In (k, es) items -> k <> [] /\ exists r, iter_tree iter read n es = Some r /\ length r = length es) ->
    forall d, exists d', extend iter read f n items d = Some d' /\ total d' = total d + total items /\
      forall ag y, has_row d' ag y <-> has_row d ag y \/ exists md es r s, In (ag :: md, es) items /\ iter_tree iter read n es = Some r /\ In s r /\ y = f md (fst s) (snd s).
  Proof.
    induction items as [|[k es] items IH]; intros H d.
    - exists d. split; [reflexivity|]. split; [unfold total; cbn; lia|]. intros ag y. split; [auto|]. intros [A|(md & es & r & s & [] & _)]. exact A.
    - cbn [extend]. destruct (H k es (or_introl eq_refl)) as (Nk & r & Er & Lr). destruct k as [|ag md]; [congruence|]. rewrite Er. cbn [obind].
      destruct (IH (fun k' es' I => H k' es' (or_intror I)) (dalter Nat.eqb (fun o => match o with Some l => l | None => [] end ++ map (fun s => f md (fst s) (snd s)) r) ag d)) as (d' & E & T & S).
      exists d'. split; [exact E|]. split; [rewrite T, total_alter, map_length, Lr; unfold total; cbn [map snd concat]; rewrite app_length; lia|].
      intros ag' y. rewrite S. clear S E T IH. split.
      + intros [(rows & G & I)|(md' & es' & r' & s & I & R)]; [|right; exists md', es', r', s; split; [right; exact I|exact R]].
        destruct (Nat.eq_dec ag ag') as [<-|Na].
        * rewrite (dget_alter_same Nat.eqb Nat.eqb_eq) in G. injection G as <-. apply in_app_or in I. destruct I as [I|I].
          -- left. destruct (dget Nat.eqb ag d) as [rows|] eqn:G; [|destruct I]. exists rows. auto.
          -- right. apply in_map_iff in I. destruct I as (s & <- & I). exists md, es, r, s. split; [left; reflexivity|]. auto.
        * rewrite (dget_alter_other Nat.eqb Nat.eqb_eq) in G by exact Na. left. exists rows. auto.
      + intros [(rows & G & I)|(md' & es' & r' & s & [[= <- <- <-]|I] & Er' & Is & ->)].
        * left. destruct (Nat.eq_dec ag ag') as [<-|Na].
          -- eexists. split; [rewrite (dget_alter_same Nat.eqb Nat.eqb_eq); reflexivity|]. rewrite G. apply in_or_app. auto.
          -- exists rows. rewrite (dget_alter_other Nat.eqb Nat.eqb_eq) by exact Na. auto.
        * left. eexists. split; [rewrite (dget_alter_same Nat.eqb Nat.eqb_eq); reflexivity|]. apply in_or_app. right. rewrite Er in Er'. injection Er' as <-. apply in_map_iff. exists s. auto.
        * right. exists md', es', r', s. auto.
  Qed.
  Lemma extend_none : forall (items : cache) k es, In (k, es) items -> iter_tree iter read n es = None -> forall d, extend iter read f n items d = None.
  Proof.
    induction items as [|[k' es'] items IH]; intros k es I E d; [destruct I|]. cbn [extend]. destruct k' as [|ag md]; [reflexivity|]. destruct I as [Ei|I]; [injection Ei as _ ->; rewrite E; reflexivity|].
    destruct (iter_tree iter read n es'); [|reflexivity]. cbn [obind]. eapply IH; eassumption.
  Qed.
End Extend.

Lemma chain_one ivs a : snd (chain ivs a) = true -> exists e, fst (chain ivs a) = [e].
Proof.
  destruct ivs as [|[b e] rest]; [discriminate|]. cbn [chain]. destruct (Qle_bool e b); [discriminate|]. destruct rest; [intros _; eexists; reflexivity|]. destruct (chain (p :: rest) a). intros _. eexists. reflexivity.
Qed.

Section Sim.
  Variable iter : list entry -> list entry.
  Hypothesis P : forall l, Permutation l (iter l).

  Definition index_ok (c : sim_cache) : Prop := NoDup (map fst (sc_index c)) /\ (forall k es, In (k, es) (sc_index c) -> k <> []) /\ total (sc_index c) = length (sc_heap c).
  Lemma insert_total k es c : total (insert k es c) = total c + length es.
  Proof.
    rewrite <- (total_alter key_eqb es k c). f_equal. unfold insert. induction c as [|[k' v] c IH]; [cbn; reflexivity|]. cbn. destruct (key_eqb k k'); [reflexivity|]. rewrite IH. reflexivity.
  Qed.
  Lemma insert_keys k es c k' : In k' (map fst (insert k es c)) -> In k' (map fst c) \/ k' = k.
  Proof. unfold insert. rewrite dalter_keys. destruct (dmem key_eqb k c); [auto|]. intros I. apply in_app_or in I. destruct I as [I|[<-|[]]]; auto. Qed.
  Lemma update_index c u c' : index_ok c -> sim_update iter c u = Some c' -> index_ok c'.
  Proof.
    intros (N & K & T) H. unfold sim_update in H. destruct (dget Nat.eqb (u_agent u) (u_inits u)) as [init|]; [|discriminate]. cbn [obind] in H.
    destruct (sim_hit iter c (u_agent u) (u_mode u) init (u_inits u)) as [|a|]; [| |discriminate].
    - destruct (u_new u); [|discriminate]. destruct (chain (sim_ivs init) (length (sc_heap c))) as [es ok] eqn:Ch. destruct ok; [|discriminate]. injection H as <-.
      destruct (@chain_one (sim_ivs init) (length (sc_heap c))) as [e Ee]; [rewrite Ch; reflexivity|]. rewrite Ch in Ee. cbn [fst] in Ee. subst es. unfold index_ok. cbn [sc_index sc_heap]. split; [|split].
      + apply dalter_nodup; [exact key_eqb_eq|exact N].
      + intros k es I. apply (in_map fst) in I. apply insert_keys in I. cbn [fst] in I. destruct I as [I|Ek]; [|rewrite Ek; discriminate]. apply in_map_iff in I. destruct I as ([k' es'] & E & I). cbn in E. subst k'. exact (K _ es' I).
      + rewrite insert_total, T, app_length. reflexivity.
    - destruct (nth_error (sc_heap c) a); [|discriminate]. cbn [obind] in H. injection H as <-. split; [exact N|]. split; [exact K|]. cbn [sc_index sc_heap]. rewrite set_nth_length. exact T.
  Qed.
  Lemma updates_index : forall l c c', index_ok c -> sim_updates iter c l = Some c' -> index_ok c'.
  Proof.
    induction l as [|u l IH]; intros c c' I H; [injection H as <-; exact I|]. cbn [sim_updates] in H. destruct (sim_update iter c u) as [c1|] eqn:E; [|discriminate]. cbn [obind] in H. eapply IH; [|exact H]. eapply update_index; eassumption.
  Qed.
  Lemma near_refl i : near i i.
  Proof. unfold near. induction i; constructor; [|assumption]. apply Qabs_le_intro; lra. Qed.

  (** Every update is close to one that is stored. *)
  Lemma stored_near l c os u i : holds l c os -> forall l1 l2 c1, l = l1 ++ u :: l2 -> sim_updates iter empty_sim l1 = Some c1 -> sim_updates iter empty_sim l = Some c ->
    dget Nat.eqb (u_agent u) (u_inits u) = Some i ->
    exists os' a o, holds l c os' /\ nth_error os' a = Some o /\ u_agent (o_upd o) = u_agent u /\ u_mode (o_upd o) = u_mode u /\ near i (o_init o).
  Proof.
    intros _ l1 l2 c1 -> U1 U Di. destruct (@sim_updates_holds iter P _ _ _ _ _ empty_holds U1) as (os1 & H1 & _). cbn [app] in H1.
    rewrite sim_updates_app, U1 in U. cbn [obind sim_updates] in U. destruct (sim_update iter c1 u) as [c2|] eqn:U2; [|discriminate]. cbn [obind] in U.
    destruct (@sim_update_holds iter P _ _ _ _ _ H1 U2) as (os2 & H2 & Pr2 & St).
    destruct (@sim_updates_holds iter P _ _ _ _ _ H2 U) as (os3 & Hh & Pr). rewrite <- app_assoc in Hh. cbn [app] in Hh. exists os3.
    destruct (sim_hit iter c1 (u_agent u) (u_mode u) i (u_inits u)) as [|a|] eqn:Ht.
    - destruct (St i Di Ht) as (a & Ea). exists a, (mk_origin u i). split; [exact Hh|]. split; [apply Pr; exact Ea|]. cbn. split; [reflexivity|]. split; [reflexivity|]. apply near_refl.
    - destruct (@sim_hit_origin iter P _ _ _ _ _ _ _ _ H1 Ht) as (o & Eo & Ag & Md & Nr). exists a, o. split; [exact Hh|]. split; [apply Pr, Pr2; exact Eo|]. auto.
    - unfold sim_update in U2. rewrite Di in U2. cbn [obind] in U2. rewrite Ht in U2. discriminate.
  Qed.

  Section Rows.
    Variables (l : list update) (c : sim_cache) (os : list origin) (n : nat).
    Hypothesis H : holds l c os.
    Hypothesis I : index_ok c.
    Hypothesis L : forall u i, In u l -> dget Nat.eqb (u_agent u) (u_inits u) = Some i -> length i = S n.
    Let read := read_segment (sc_heap c).
    Lemma entry_row k es e : In (k, es) (sc_index c) -> In e es -> exists a o s v, nth_error os a = Some o /\ o_key o = k /\ nth_error (sc_heap c) a = Some s /\
      iter_tree iter read n [e] = Some [(v, (map t_at (g_trans s), length (g_trace s)))] /\ Forall2 Qeq v (o_init o).
    Proof.
      intros Ik Ie. destruct H as (_ & Hk & _ & Ho). destruct I as (N & _). assert (E : at_key k (sc_index c) = es) by (unfold at_key; rewrite (In_dget _ key_eqb_eq _ _ _ N Ik); reflexivity).
      rewrite Hk in E. rewrite <- E in Ie. apply in_flat_map in Ie. destruct Ie as ([ivs a] & Is & Ie). destruct (srcs_In _ _ _ _ _ Is) as (j & o & Ea & Eo & K & Ei). cbn [Nat.add] in Ea. subst a ivs. cbn [fst snd] in Ie.
      destruct (Ho j o Eo) as (A & _ & C & D & s & E1 & _). exists j, o, s. assert (R : read j = Some (map t_at (g_trans s), length (g_trace s))) by (unfold read, read_segment; rewrite E1; reflexivity).
      destruct (@chain_report iter P _ read j _ R (o_init o) n (@L _ _ A C)) as (v & Ev & F). destruct (@chain_one _ _ (@sim_chain_ok (o_init o) j D)) as [e' Ee]. rewrite Ee in *. destruct Ie as [<-|[]]. exists v. auto.
    Qed.
    Lemma row_entry a o : nth_error os a = Some o -> exists es e s v, In (o_key o, es) (sc_index c) /\ In e es /\ nth_error (sc_heap c) a = Some s /\
      iter_tree iter read n [e] = Some [(v, (map t_at (g_trans s), length (g_trace s)))] /\ Forall2 Qeq v (o_init o).
    Proof.
      intros Eo. destruct H as (_ & Hk & Hd & Ho). destruct (Ho a o Eo) as (A & _ & C & D & s & E1 & _). destruct (@chain_one _ _ (@sim_chain_ok (o_init o) a D)) as [e Ee].
      assert (Ia : In e (at_key (o_key o) (sc_index c))). { rewrite Hk. apply in_flat_map. exists (sim_ivs (o_init o), a). split; [exact (In_srcs os 0 a Eo)|]. cbn [fst snd]. rewrite Ee. left. reflexivity. }
      destruct (dget key_eqb (o_key o) (sc_index c)) as [es|] eqn:G; [|rewrite (Hd _ G) in Ia; destruct Ia]. exists es, e, s. assert (R : read a = Some (map t_at (g_trans s), length (g_trace s))) by (unfold read, read_segment; rewrite E1; reflexivity).
      destruct (@chain_report iter P _ read a _ R (o_init o) n (@L _ _ A C)) as (v & Ev & F). rewrite Ee in Ev. exists v. split; [apply dget_In in G; [exact G|exact key_eqb_eq]|]. split; [unfold at_key in Ia; rewrite G in Ia; exact Ia|]. auto.
    Qed.
  End Rows.

  Variable sort : list row -> list row.
  Hypothesis Sort : forall l, Permutation l (sort l).

  (** C121.  If all agents have [n + 1] variables, the report succeeds after any history of runs.  Every row is the mode and
      the exact initial state of an update that was stored, with the length of its trace and the numbers of transitions
      recorded for that agent and mode; every update, stored or not, has a row within 1e-6; and there is one row for each
      stored segment. *)
  Theorem C121_reported : forall (l : list update) c n, sim_updates iter empty_sim l = Some c ->
    (forall u i, In u l -> dget Nat.eqb (u_agent u) (u_inits u) = Some i -> length i = S n) ->
    exists r, sim_inits iter sort c n = Some r /\ total r = length (sc_heap c) /\
      (forall agent rows x, dget Nat.eqb agent r = Some rows -> In x rows ->
        exists u i, In u l /\ u_new u = true /\ u_agent u = agent /\ u_mode u = w_mode x /\ dget Nat.eqb agent (u_inits u) = Some i /\
          Forall2 Qeq (w_init x) i /\ w_len x = length (u_trace u) /\
          forall k, In k (w_trans x) -> exists u' t, In u' l /\ u_agent u' = agent /\ u_mode u' = w_mode x /\ In t (u_trans u') /\ t_at t = k) /\
      (forall u i, In u l -> dget Nat.eqb (u_agent u) (u_inits u) = Some i ->
        exists rows x, dget Nat.eqb (u_agent u) r = Some rows /\ In x rows /\ w_mode x = u_mode u /\ near i (w_init x)).
  Proof.
    intros l c n U Ln. destruct (@sim_updates_holds iter P _ _ _ _ _ empty_holds U) as (os & Hh & _). cbn [app] in Hh.
    assert (Ix : index_ok c). { eapply updates_index; [|exact U]. split; [constructor|]. split; [intros k es []|reflexivity]. }
    assert (Er : forall k es, In (k, es) (sc_index c) -> exists r, iter_tree iter (read_segment (sc_heap c)) n es = Some r /\ length r = length es /\
      (forall p, In p r <-> exists e, In e es /\ iter_tree iter (read_segment (sc_heap c)) n [e] = Some [p])).
    { intros k es Ik. apply report_ok; [exact P|]. intros e Ie. destruct (@entry_row l c os n Hh Ix Ln k es e Ik Ie) as (a & o & s & v & _ & _ & _ & E & _). eexists. exact E. }
    destruct (@extend_ok iter _ _ (read_segment (sc_heap c)) (fun md v x => mk_row md v (fst x) (snd x)) n (sc_index c)) with (d := @nil (nat * list row)) as (d & Ed & Td & Sd).
    { intros k es Ik. split; [destruct Ix as (_ & K & _); exact (K k es Ik)|]. destruct (Er k es Ik) as (r & E & Lr & _). exists r. auto. }
    unfold sim_inits. rewrite Ed. cbn [obind]. eexists. split; [reflexivity|]. split; [|split].
    - destruct Ix as (_ & _ & T). rewrite <- T. cbn in Td. rewrite <- Td. unfold total. clear -Sort. induction d as [|[k v] d IH]; [reflexivity|]. cbn [map snd fst concat]. rewrite !app_length, IH. f_equal. symmetry. apply Permutation_length. apply Sort.
    - intros agent rows x G Ir. rewrite dget_sorted in G. destruct (dget Nat.eqb agent d) as [rows0|] eqn:G0; [|discriminate]. injection G as <-.
      assert (Hr : has_row d agent x) by (exists rows0; split; [exact G0|]; eapply Permutation_in; [apply Permutation_sym, Sort|exact Ir]).
      apply Sd in Hr. destruct Hr as [(? & ? & _)|(md & es & r & s & Ik & E & Is & ->)]; [discriminate|]. destruct (Er _ _ Ik) as (r' & E' & _ & Sr). rewrite E in E'. injection E' as <-. apply Sr in Is. destruct Is as (e & Ie & Ee).
      destruct (@entry_row l c os n Hh Ix Ln _ es e Ik Ie) as (a & o & sg & v & Eo & K & Es & E2 & F). rewrite Ee in E2. injection E2 as ->. cbn [fst snd w_mode w_init w_trans w_len]. injection K as Ka Km.
      destruct Hh as (_ & _ & _ & Ho). destruct (Ho a o Eo) as (A & B & C & D & s' & E1 & E3 & E4). rewrite Es in E1. injection E1 as <-.
      exists (o_upd o), (o_init o). split; [exact A|]. split; [exact B|]. split; [exact Ka|]. split; [exact Km|]. split; [rewrite <- Ka; exact C|]. split; [exact F|]. split; [rewrite E3; reflexivity|].
      intros k Ikk. apply in_map_iff in Ikk. destruct Ikk as (t & <- & It). destruct (E4 t It) as (u' & i' & I' & A' & M' & _ & _ & T'). exists u', t. split; [exact I'|]. split; [congruence|]. split; [congruence|]. auto.
    - intros u i Iu Di. destruct (in_split _ _ Iu) as (l1 & l2 & El). assert (U1 : exists c1, sim_updates iter empty_sim l1 = Some c1). { rewrite El, sim_updates_app in U. destruct (sim_updates iter empty_sim l1) as [c1|]; [eauto|discriminate]. } destruct U1 as (c1 & U1).
      destruct (@stored_near l c os u i Hh l1 l2 c1 El U1 U Di) as (os' & a & o & Hh' & Eo & Ka & Km & Nr).
      destruct (@row_entry l c os' n Hh' Ln a o Eo) as (es & e & s & v & Ik & Ie & Es & E & F). unfold o_key in Ik. rewrite Ka, Km in Ik.
      destruct (Er _ _ Ik) as (r & E' & _ & Sr). assert (Hr : has_row d (u_agent u) (mk_row (u_mode u) v (map t_at (g_trans s)) (length (g_trace s)))).
      { apply Sd. right. exists (u_mode u), es, r. eexists. split; [exact Ik|]. split; [exact E'|]. split; [apply Sr; exists e; split; [exact Ie|exact E]|]. reflexivity. }
      destruct Hr as (rows & G & Ir). exists (sort rows). eexists. split; [rewrite dget_sorted, G; reflexivity|]. split; [eapply Permutation_in; [apply Sort|exact Ir]|]. cbn [w_mode w_init]. split; [reflexivity|].
      clear -Nr F. unfold near in *. revert v F. induction Nr as [|x y i j Hxy _ IH]; intros v F; inversion F as [|z ? v' ? Hz Fz]; subst; constructor; [rewrite Hz; exact Hxy|apply IH; assumption].
  Qed.

  (** What C121 does not say.  If two agents have different numbers of variables, no [n] gives a report. *)
  Theorem C121_mixed_refuted : exists l c, sim_updates iter empty_sim l = Some c /\ forall n, sim_inits iter sort c n = None.
  Proof.
    pose (l := [mk_update true 0 [] [(0, [1%Q]); (1, [1; 2]%Q)] [] []; mk_update true 1 [] [(0, [1%Q]); (1, [1; 2]%Q)] [] []]).
    exists l. eexists. split.
    - unfold l. cbn [sim_updates]. unfold sim_update at 1. cbn. reflexivity.
    - intros n. unfold sim_inits. destruct n as [|n].
      + erewrite extend_none; [reflexivity|right; left; reflexivity|]. rewrite report_one by exact P. reflexivity.
      + erewrite extend_none; [reflexivity|left; reflexivity|]. rewrite report_one by exact P. reflexivity.
  Qed.

  (** The report of the cache of transitions of reachable sets raises as soon as anything is stored. *)
  Theorem C121_tubes_refuted : forall (l : list store) s n, In s l -> proper (s_lo s) (s_hi s) -> reach_inits iter (tube_history l) n = None.
  Proof.
    intros l s n Is Pr. unfold reach_inits.
    assert (Ok : snd (chain (tube_ivs (s_lo s) (s_hi s)) (s_addr s)) = true).
    { destruct Pr as [Ne F]. apply chain_ok. split; [destruct F; [congruence|discriminate]|]. clear Ne Is. unfold tube_ivs, pairs. induction F; cbn; constructor; [cbn; pose proof eps_pos; lra|exact IHF]. }
    destruct (chain_one _ _ Ok) as [e Ee].
    assert (Ie : In e (at_key (s_key s) (tube_history l))). { rewrite tube_entries. apply in_flat_map. exists s. split; [exact Is|]. rewrite key_eqb_refl. unfold s_entries. rewrite Ee. left. reflexivity. }
    unfold at_key in Ie. destruct (dget key_eqb (s_key s) (tube_history l)) as [es|] eqn:G; [|destruct Ie]. apply dget_In in G; [|exact key_eqb_eq].
    eapply extend_none; [exact G|].
    assert (No : forall n ivs a e, snd (chain ivs a) = true -> fst (chain ivs a) = [e] -> iter_tree iter read_trans n [e] = None).
    { clear -P. induction n as [|n IH]; intros ivs a e K E; rewrite report_one by exact P.
      - destruct (leaf (snd e)); reflexivity.
      - apply chain_ok in K. destruct K as [_ K]. destruct (chain_nil_or ivs a) as [N|(b & en & rest & -> & _ & N)]; rewrite N in E; [discriminate|]. injection E as <-. cbn [snd]. destruct rest as [|p rest]; [reflexivity|].
        inversion K as [|? ? _ K']; subst. assert (Ok' : snd (chain (p :: rest) a) = true) by (apply chain_ok; split; [discriminate|exact K']). destruct (chain_one _ _ Ok') as [e' E']. rewrite E'. rewrite (IH _ _ _ Ok' E'). reflexivity. }
    eapply report_none; [exact P|exact Ie|]. exact (No n _ _ _ Ok Ee).
  Qed.
End Sim.
Print Assumptions C121_reported.
Print Assumptions C121_mixed_refuted.
Print Assumptions C121_tubes_refuted.

(** Three updates of two agents with two variables: two segments for the first, the second update found the first. *)
Module Example_inits.
  Local Open Scope Q_scope.
  Definition same {A} (l : list A) := l.
  Lemma same_perm A : forall l : list A, Permutation l (same l). Proof. intros l. apply Permutation_refl. Qed.
  Definition st (x : Q) : dict nat vec := [(0%nat, [x; 1]); (1%nat, [7; 2])].
  Definition us : list update := [
    mk_update true 0 [4%nat] (st 3) [[0; 3; 1]; [1; 4; 1]] [];
    mk_update false 0 [4%nat] (st (3 + (1 # 3000000))) [[0; 0; 0]] [mk_ctrans (st 3) 1 [] []];
    mk_update true 0 [4%nat] (st 5) [[0; 5; 1]] [];
    mk_update true 1 [6%nat] (st 5) [[0; 7; 2]] []].
  Definition c : sim_cache := match sim_updates same empty_sim us with Some c => c | None => empty_sim end.
  Example updates : sim_updates same empty_sim us = Some c. Proof. vm_compute. reflexivity. Qed.
  Example dims : forall u i, In u us -> dget Nat.eqb (u_agent u) (u_inits u) = Some i -> length i = 2%nat.
  Proof. intros u i [<-|[<-|[<-|[<-|[]]]]] E; cbn in E; injection E as <-; reflexivity. Qed.
  Example report : option_map (map (fun kv => (fst kv, map (fun x => (w_mode x, map Qred (w_init x), w_trans x, w_len x)) (snd kv)))) (sim_inits same same c 1) =
    Some [(0%nat, [([4%nat], [3; 1], [1%nat], 2%nat); ([4%nat], [5; 1], [], 1%nat)]); (1%nat, [([6%nat], [7; 2], [], 1%nat)])].
  Proof. vm_compute. reflexivity. Qed.
  Example a_box : proper [0; 0] [1; 2] /\ reach_inits same (tube_history [mk_store 0 [4%nat] [0; 0] [1; 2] 0]) 1 = None.
  Proof. split; [split; [discriminate|repeat constructor; discriminate]|vm_compute; reflexivity]. Qed.
End Example_inits.
