(** Proofs for ParserProps.v: programs. *)
From Coq Require Import Ascii String Lia.
From Verif Require Import Base BaseFacts Dict PyText Parser PySem ParserSpec ScanProofs ParserProofs.
Set Implicit Arguments.
Open Scope nat_scope.

(** ** Lists *)
Lemma In_remove1 {A} (eqb : A -> A -> bool) (x y : A) l : In y l -> In y (remove1 eqb x l) \/ eqb x y = true.
Proof.
  induction l as [|z l IH]; cbn; [easy|]. intros [->|H].
  - destruct (eqb x y) eqn:E; [now right|left; now left].
  - destruct (eqb x z); [left; exact H|]. destruct (IH H) as [H'|H']; [left; now right|now right].
Qed.
Lemma remove1_sub {A} (eqb : A -> A -> bool) (x y : A) l : In y (remove1 eqb x l) -> In y l.
Proof. induction l as [|z l IH]; cbn; [easy|]. destruct (eqb x z); [auto|]. intros [->|H]; auto. Qed.
Lemma In_subtract {A} (eqb : A -> A -> bool) (orig : list A) : forall l y, In y l -> In y (subtract eqb l orig) \/ exists o, In o orig /\ eqb o y = true.
Proof.
  unfold subtract. induction orig as [|o orig IH]; intros l y H; cbn [fold_left]; [now left|].
  destruct (In_remove1 eqb o y l H) as [H'|H']; [|right; exists o; split; [now left|exact H']].
  destruct (IH _ _ H') as [K|(o' & K1 & K2)]; [now left|right; exists o'; split; [now right|exact K2]].
Qed.
Lemma subtract_sub {A} (eqb : A -> A -> bool) (orig : list A) : forall l y, In y (subtract eqb l orig) -> In y l.
Proof. unfold subtract. induction orig as [|o orig IH]; intros l y H; cbn [fold_left] in *; [exact H|]. apply IH in H. now apply remove1_sub in H. Qed.

Lemma In_add_cond t cs e l : In (cs, e) (add_cond t l) <-> exists cs', cs = cs' ++ [t] /\ In (cs', e) l.
Proof.
  unfold add_cond. rewrite in_map_iff. split.
  - intros ([cs' e'] & [= <- <-] & H). eauto.
  - intros (cs' & -> & H). exists (cs', e). auto.
Qed.

(** ** Merging dictionaries *)
Lemma get_In_keys {V} k (d : dict word V) v : get k d = Some v -> In k (map fst d).
Proof. unfold get. intros H. apply (dget_In _ word_eqb_iff) in H. apply in_map_iff. exists (k, v). auto. Qed.
Lemma keys_of_get {V} k (T F : dict word V) : ~ In k (keys_of T F) -> get k T = None /\ get k F = None.
Proof.
  unfold keys_of. rewrite nodup_In, in_app_iff. intros H. split.
  - destruct (get k T) eqn:E; [|reflexivity]. apply get_In_keys in E. tauto.
  - destruct (get k F) eqn:E; [|reflexivity]. apply get_In_keys in E. tauto.
Qed.
Lemma merge_dict_spec {V} (f : option V -> option V -> option V -> option (option V)) T F S M : merge_dict f T F S = Some M -> forall k,
  (In k (keys_of T F) /\ exists r, f (get k T) (get k F) (get k S) = Some r /\ get k M = match r with Some v => Some v | None => get k S end) \/
  (~ In k (keys_of T F) /\ get k M = get k S).
Proof.
  unfold merge_dict. assert (ND : NoDup (keys_of T F)) by apply NoDup_nodup. revert ND. generalize (keys_of T F). intros ks ND. revert S.
  induction ks as [|k0 ks IH]; intros S E k; cbn [fold_left] in E.
  - right. split; [easy|]. now injection E as <-.
  - apply NoDup_cons_iff in ND as [N1 N2]. cbn [obind] in E.
    destruct (f (get k0 T) (get k0 F) (get k0 S)) as [r|] eqn:Ef.
    2:{ cbn [obind] in E. exfalso. clear -E. induction ks as [|a ks IH]; cbn in E; [discriminate|exact (IH E)]. }
    cbn [obind] in E. specialize (IH N2 _ E k).
    assert (G : forall k', k0 <> k' -> get k' (match r with Some v => set k0 v S | None => S end) = get k' S).
    { intros k' Hk. destruct r; [now apply get_set_other|reflexivity]. }
    destruct (word_eqb k0 k) eqn:Ek.
    + apply word_eqb_iff in Ek. subst k0. left. split; [now left|]. exists r. split; [exact Ef|].
      destruct IH as [[Hin _]|[_ HM]]; [contradiction|]. rewrite HM. destruct r; [apply get_set_same|reflexivity].
    + assert (Hne : k0 <> k) by (intros ->; rewrite word_eqb_refl in Ek; discriminate). rewrite (G k Hne) in IH.
      destruct IH as [[Hin (r' & E1 & E2)]|[Hni HM]]; [left; split; [now right|eauto]|right; split; [intros [?|?]; auto|exact HM]].
Qed.

Section Progs.
  Variable V : Type.
  Variable truth : V -> bool.
  Variable v_bool : bool -> V.
  Variable v_const : word -> V.
  Variable v_attr : V -> word -> option V.
  Variable v_un : word -> V -> option V.
  Variable v_bin : word -> V -> V -> option V.
  Variable v_cmp : word -> V -> V -> option V.
  Variable v_call : V -> list V -> option V.
  Variable v_items : V -> option (list V).
  Variable modes : list word.
  Variable fields_of : word -> option (list word).
  Hypothesis truth_bool : forall b, truth (v_bool b) = b.
  Notation ev := (ev truth v_bool v_const v_attr v_un v_bin v_cmp v_call v_items).
  Notation value_in := (value_in truth v_bool v_const v_attr v_un v_bin v_cmp v_call v_items).
  Notation holds_in := (holds_in truth v_bool v_const v_attr v_un v_bin v_cmp v_call v_items).
  Notation fails_in := (fails_in truth v_bool v_const v_attr v_un v_bin v_cmp v_call v_items).
  Notation shortcut := (shortcut truth v_bool).
  Notation quantify := (quantify truth v_bool).
  Notation store := (word -> option (pyval V)).
  Notation venv := (word -> option V).
  Notation proc_e := (proc_e modes).
  Notation proc_s := (proc_s modes fields_of).
  Notation proc_b := (proc_b modes fields_of).
  Notation tidy_e := (tidy_e truth v_bool v_const v_attr v_un v_bin v_cmp v_call v_items modes).
  Notation tidy_s := (tidy_s truth v_bool v_const v_attr v_un v_bin v_cmp v_call v_items modes fields_of).
  Notation tidy_b := (tidy_b truth v_bool v_const v_attr v_un v_bin v_cmp v_call v_items modes fields_of).
  Notation run_s := (run_s truth v_bool v_const v_attr v_un v_bin v_cmp v_call v_items fields_of).
  Notation run_b := (run_b truth v_bool v_const v_attr v_un v_bin v_cmp v_call v_items fields_of).
  Notation value_in_ext := (@value_in_ext V truth v_bool v_const v_attr v_un v_bin v_cmp v_call v_items).
  Notation ev_mono := (@ev_mono V truth v_bool v_const v_attr v_un v_bin v_cmp v_call v_items).
  Notation extends := (@extends V).

  (** ** What the parser's environment says about a store *)
  Definition denotes (r : venv) (c : cval) (v : V) : Prop := exists cs e, In (cs, e) (as_cv c) /\ Forall (holds_in r) cs /\ value_in r e = Some v.
  Definition matches (r : venv) (pv : pyval V) (s : sval) : Prop :=
    match s with
    | SV c => exists v, pv = PV v /\ denotes r c v
    | SO fs => exists o, pv = PO o /\ forall a v, o a = Some v -> exists c, get a fs = Some c /\ denotes r c v
    | SL ps body => exists d, pv = PF d /\ forall vs v, d vs = Some v -> length vs = length ps /\ value_in (bindv ps vs r) body = Some v
    end.
  Record R (r : venv) (G : store) (E : penv) : Prop := mk_R {
    R_match : forall x pv, G x = Some pv -> exists s, get x E = Some s /\ matches r pv s;
    R_modes : forall x, In x modes -> get x E <> None /\ forall pv, G x = Some pv -> exists v, pv = PV v /\ forall a u, v_attr v a = Some u -> u = v_const a;
    R_dom : forall x, r x <> None -> get x E <> None;
    R_hole : forall x y, get x E = Some (SV (CE (EHole y))) -> y = x }.

  Lemma holds_mono r r' e : extends r r' -> holds_in r e -> holds_in r' e.
  Proof. intros H (v & E & T). exists v. split; [|exact T]. eapply value_in_ext; [|exact E]. intros; now apply H. Qed.
  Lemma denotes_mono r r' c v : extends r r' -> denotes r c v -> denotes r' c v.
  Proof.
    intros H (cs & e & H1 & H2 & H3). exists cs, e. split; [exact H1|]. split; [|eapply value_in_ext; [|exact H3]; intros; now apply H].
    eapply Forall_impl; [|exact H2]. intros a. now apply holds_mono.
  Qed.
  Lemma bindv_extends ps : forall vs r r', extends r r' -> extends (bindv ps vs r) (bindv ps vs r').
  Proof.
    induction ps as [|p ps IH]; intros [|u vs] r r' H; try exact H. unfold bindv. cbn. apply IH.
    intros x w. unfold upd. destruct (word_eqb p x); auto.
  Qed.
  Lemma matches_mono r r' pv s : extends r r' -> matches r pv s -> matches r' pv s.
  Proof.
    intros H. destruct s as [c|fs|ps body]; cbn.
    - intros (v & -> & D). exists v. split; [reflexivity|]. now apply denotes_mono with r.
    - intros (o & -> & D). exists o. split; [reflexivity|]. intros a v Ho. destruct (D a v Ho) as (c & Hc & Dc). exists c. split; [exact Hc|]. now apply denotes_mono with r.
    - intros (d & -> & D). exists d. split; [reflexivity|]. intros vs v Hd. destruct (D vs v Hd) as [L Ev]. split; [exact L|].
      eapply value_in_ext; [|exact Ev]. intros x u _. now apply bindv_extends.
  Qed.

  Lemma R_arg r G E x pv : R r G E -> is_arg E x -> G x = Some pv -> exists v, pv = PV v /\ r x = Some v.
  Proof.
    intros HR Ha Hx. destruct (R_match HR _ Hx) as (s & Es & M). unfold is_arg in Ha. rewrite Ha in Es. injection Es as <-.
    destruct M as (v & -> & cs & e & [[= <- <-]|[]] & _ & Ev). exists v. split; [reflexivity|]. now rewrite value_hole in Ev.
  Qed.

  (** ** Quantifiers *)
  Lemma quantify_rel ex (k1 k2 e1 e2 : V -> option V) items v :
    (forall u k b, In u items -> k1 u = Some k -> truth k = true -> e1 u = Some b -> exists k' b', k2 u = Some k' /\ truth k' = true /\ e2 u = Some b' /\ truth b' = truth b) ->
    (forall u k, In u items -> k1 u = Some k -> truth k = false -> exists k', k2 u = Some k' /\ (truth k' = false \/ exists b', e2 u = Some b' /\ truth b' = negb ex)) ->
    quantify ex k1 e1 items = Some v -> quantify ex k2 e2 items = Some v.
  Proof.
    intros H1 H2. induction items as [|u items IH]; intros E; [exact E|]. cbn [PySem.quantify] in *.
    assert (IH' : quantify ex k1 e1 items = Some v -> quantify ex k2 e2 items = Some v).
    { apply IH; [intros ? ? ? Hin; apply H1; now right|intros ? ? Hin; apply H2; now right]. }
    destruct (k1 u) as [k|] eqn:Ek; [|discriminate]. cbn [obind] in E. destruct (truth k) eqn:Tk.
    - destruct (e1 u) as [b|] eqn:Eb; [|discriminate]. cbn [obind] in E.
      destruct (H1 u k b (or_introl eq_refl) Ek Tk Eb) as (k' & b' & -> & T' & E2 & T2). cbn [obind]. rewrite T', E2. cbn [obind]. rewrite T2.
      destruct (Bool.eqb (truth b) ex); auto.
    - destruct (H2 u k (or_introl eq_refl) Ek Tk) as (k' & -> & [T'|(b' & Eb & T')]); cbn [obind]; [rewrite T'; auto|].
      destruct (truth k'); [|auto]. rewrite Eb. cbn [obind]. rewrite T'. destruct ex; cbn; auto.
  Qed.

  (** ** Expressions *)
  Lemma get_combine_None ps (args : list pex) y : ~ In y ps -> get y (combine ps args) = None.
  Proof.
    intros H. destruct (get y (combine ps args)) eqn:E; [|reflexivity]. apply get_In_keys in E. apply in_map_iff in E as ((k & a) & <- & Hin).
    apply in_combine_l in Hin. contradiction.
  Qed.
  Lemma bindv_out ps : forall vs (r : venv) x, ~ In x ps -> bindv ps vs r x = r x.
  Proof.
    induction ps as [|p ps IH]; intros [|v vs] r x H; try reflexivity. unfold bindv in *. cbn [combine fold_left fst snd]. rewrite IH by (intros K; apply H; now right).
    apply upd_other. intros ->. apply H. now left.
  Qed.
  Lemma bindv_args r0 ps : NoDup ps -> forall args vs (r : venv) x u, length args = length ps -> Forall2 (fun a v => value_in r0 a = Some v) args vs ->
    bindv ps vs r x = Some u -> match get x (combine ps args) with Some a => value_in r0 a = Some u | None => r x = Some u end.
  Proof.
    induction 1 as [|p ps Hp ND IH]; intros args vs r x u L F E.
    - destruct args; [|discriminate]. exact E.
    - destruct args as [|a args]; [discriminate|]. injection L as L. inversion F as [|? v ? vs' Fa F']; subst. unfold bindv in *. cbn [combine fold_left fst snd] in *.
      unfold get. cbn [dget fst snd]. destruct (word_eqb x p) eqn:Ex.
      + apply word_eqb_iff in Ex. subst x. fold (bindv ps vs' (upd r p v)) in E. rewrite bindv_out in E by exact Hp. rewrite upd_same in E. now injection E as <-.
      + specialize (IH args vs' (upd r p v) x u L F' E). unfold get in IH. destruct (dget word_eqb x (combine ps args)); [exact IH|].
        rewrite upd_other in IH; [exact IH|]. intros ->. rewrite word_eqb_refl in Ex. discriminate.
  Qed.

  Lemma proc_e_sound : forall e (r : venv) (G : store) E e' v, R r G E -> tidy_e r E e -> proc_e E e = Some e' -> ev G e = Some v -> value_in r e' = Some v.
  Proof.
    induction e using pex_ind'; intros r G E e' v HR HT EP EV; cbn [ParserSpec.tidy_e] in HT.
    - injection EP as <-. exact EV.
    - cbn [Parser.proc_e PySem.ev] in *. destruct (G x) as [[u|o|d]|] eqn:Ex; try discriminate. injection EV as <-.
      destruct (R_match HR _ Ex) as (s & Es & M). rewrite Es in EP. destruct s as [[e|]| |]; try discriminate. injection EP as <-.
      destruct M as (u' & [= <-] & cs & e0 & [[= <- <-]|[]] & _ & Hv). exact Hv.
    - contradiction.
    - cbn [Parser.proc_e] in EP. destruct e as [| x | | | | | | | | | | |]; try discriminate. cbn [PySem.ev] in EV.
      destruct (mem x modes) eqn:Em.
      + injection EP as <-. apply mem_iff in Em. destruct (R_modes HR _ Em) as [_ HM]. destruct (G x) as [pv|] eqn:Ex; [|discriminate].
        destruct (HM pv eq_refl) as (u & -> & Hu). cbn [obind] in EV. unfold PySem.value_in. cbn. now rewrite (Hu _ _ EV).
      + destruct (G x) as [pv|] eqn:Ex; [|discriminate]. destruct (R_match HR _ Ex) as (s & Es & M). rewrite Es in EP.
        destruct s as [[e|]|fs|]; try discriminate.
        * destruct e; try discriminate. assert (x0 = x) by exact (R_hole HR _ Es). subst x0. rewrite Em in EP. injection EP as <-.
          destruct M as (u & -> & cs & e0 & [[= <- <-]|[]] & _ & Hv). rewrite value_attr, Hv. exact EV.
        * destruct M as (o & -> & Ho). destruct (Ho _ _ EV) as (c & Hc & cs & e0 & Hin & Hcs & Hv). rewrite Hc in EP. destruct c as [e1|]; [|discriminate].
          injection EP as <-. destruct Hin as [[= <- <-]|[]]. exact Hv.
    - cbn [Parser.proc_e PySem.ev] in *. destruct (proc_e E e) as [e1|] eqn:E1; [|discriminate]. injection EP as <-. destruct (ev G e) as [u|] eqn:Eu; [|discriminate].
      assert (K := IHe _ _ _ _ _ HR HT E1 Eu). unfold PySem.value_in in *. cbn [PySem.ev]. now rewrite K.
    - cbn [Parser.proc_e PySem.ev] in *. destruct (proc_e E e) as [e1|] eqn:E1; [|discriminate]. injection EP as <-. destruct (ev G e) as [u|] eqn:Eu; [|discriminate].
      assert (K := IHe _ _ _ _ _ HR HT E1 Eu). unfold PySem.value_in in *. cbn [PySem.ev]. now rewrite K.
    - cbn [Parser.proc_e PySem.ev] in *. destruct HT as [HT1 HT2]. destruct (proc_e E e1) as [p1|] eqn:E1; [|discriminate]. cbn [obind] in EP. destruct (proc_e E e2) as [p2|] eqn:E2; [|discriminate].
      injection EP as <-. destruct (ev G e1) as [u1|] eqn:Eu1; [|discriminate]. cbn [obind] in EV. destruct (ev G e2) as [u2|] eqn:Eu2; [|discriminate]. cbn [obind] in EV.
      assert (K1 := IHe1 _ _ _ _ _ HR HT1 E1 Eu1). assert (K2 := IHe2 _ _ _ _ _ HR HT2 E2 Eu2). unfold PySem.value_in in *. cbn [PySem.ev]. rewrite K1. cbn [obind]. rewrite K2. exact EV.
    - cbn [Parser.proc_e PySem.ev] in *. destruct (omap (proc_e E) es) as [es'|] eqn:Ees; [|discriminate]. injection EP as <-.
      change (shortcut b (value_in r) es' = Some v). apply omap_Forall2 in Ees. rewrite all_of_In in HT. rewrite Forall_forall in H.
      revert v EV. induction Ees as [|e e1 es es' He Hes IH]; intros v EV; [exact EV|]. cbn [PySem.shortcut] in *.
      assert (Ke : forall u, ev G e = Some u -> value_in r e1 = Some u) by (intros u; apply (H e (or_introl eq_refl) _ _ _ _ _ HR (HT e (or_introl eq_refl)) He)).
      destruct es as [|e2 es]; inversion Hes; subst; [exact (Ke _ EV)|].
      destruct (ev G e) as [u|] eqn:Eu; [|discriminate]. rewrite (Ke _ eq_refl). cbn [obind] in *. destruct (Bool.eqb (truth u) b); [|exact EV].
      apply IH; [intros x Hx; apply H; now right|intros x Hx; apply HT; now right|exact EV].
    - destruct HT as [HT1 HT2]. cbn [Parser.proc_e PySem.ev] in *.
      destruct (omap _ rest) as [rest'|] eqn:Er; [|discriminate]. cbn [obind] in EP. destruct (proc_e E e) as [l'|] eqn:El; [|discriminate]. cbn [obind] in EP.
      destruct (ev G e) as [lv|] eqn:Elv; [|discriminate]. cbn [obind] in EV. assert (Kl := IHe _ _ _ _ _ HR HT1 El Elv). clear IHe HT1 El Elv e.
      apply omap_Forall2 in Er. assert (Hne : rest' <> []) by (destruct Er; [discriminate EV|discriminate]).
      assert (K : chain truth v_cmp (value_in r) lv rest' = Some v).
      { clear EP Kl Hne. revert lv EV. rewrite all_of_In in HT2. induction Er as [|[o e] [o' e1] rest rest' Hp Hr IH]; intros lv EV; [exact EV|].
        apply Forall_cons_iff in H as [H1 H2]. cbn [snd] in *. cbn [PySem.chain] in *.
        destruct (proc_e E e) as [e1'|] eqn:Ee; [|discriminate]. cbn [obind] in Hp. injection Hp as -> ->.
        destruct (ev G e) as [u|] eqn:Eu; [|discriminate]. rewrite (H1 _ _ _ _ _ HR (HT2 _ (or_introl eq_refl)) Ee Eu). cbn [obind] in *.
        destruct (v_cmp o' lv u) as [c|]; [|discriminate]. cbn [obind] in *. destruct rest as [|p rest]; inversion Hr; subst; [exact EV|].
        destruct (truth c); [|exact EV]. apply IH; [exact H2|intros x Hx; apply HT2; now right|exact EV]. }
      assert (K' : shortcut true (value_in r) (comparisons l' rest') = Some v).
      { rewrite <- (chain_comparisons truth v_bool v_const v_attr v_un v_bin v_cmp v_call v_items r l' Hne), Kl. exact K. }
      destruct (comparisons l' rest') as [|c [|c2 cs]]; [discriminate| |]; injection EP as <-; exact K'.
    - destruct HT as [HT1 HT2].
      assert (Hargs : forall args' vs, omap (proc_e E) args = Some args' -> omap (ev G) args = Some vs -> Forall2 (fun a v => value_in r a = Some v) args' vs).
      { intros args' vs A1 A2. apply omap_Forall2 in A1, A2. rewrite all_of_In in HT1. clear EP EV HT2. revert vs A2. induction A1 as [|a a' args args' Ha A1 IH]; intros vs A2; inversion A2; subst; [constructor|].
        apply Forall_cons_iff in H as [H1' H2']. constructor; [eapply H1'; [exact HR|apply HT1; now left|exact Ha|assumption]|]. apply IH; [exact H2'|intros x Hx; apply HT1; now right|assumption]. }
      cbn [Parser.proc_e] in EP. destruct e as [|g| |e a| | | | | | | | |]; try discriminate.
      + cbn [PySem.ev] in EV. destruct (get g E) as [[[[]|]| |ps body]|] eqn:Eg; try discriminate.
        * destruct (omap (proc_e E) args) as [args'|] eqn:Ea; [|discriminate]. injection EP as <-.
          assert (x = g) by exact (R_hole HR _ Eg). subst x. destruct (G g) as [pv|] eqn:EG; [|discriminate]. destruct (R_arg HR Eg EG) as (u & -> & Hu).
          cbn [obind] in EV. destruct (omap (ev G) args) as [vs|] eqn:Evs; [|discriminate]. cbn [obind] in EV. rewrite value_call, value_name, Hu. cbn [obind].
          assert (Ev' : omap (value_in r) args' = Some vs) by (apply omap_Forall2, Hargs; reflexivity). rewrite Ev'. exact EV.
        * destruct (omap (proc_e E) args) as [args'|] eqn:Ea; [|discriminate]. injection EP as <-. destruct (HT2 _ eq_refl) as (C1 & C2 & C3 & C4).
          destruct (G g) as [pv|] eqn:EG; [|discriminate]. destruct (R_match HR _ EG) as (s & Es & M). rewrite Eg in Es. injection Es as <-. destruct M as (d & -> & Hd).
          destruct (omap (ev G) args) as [vs|] eqn:Evs; [|discriminate]. cbn [obind] in EV. destruct (Hd _ _ EV) as [L Hb].
          eapply subst_sound with (r0 := r) (r' := bindv ps vs r); [now intros x u| | | |exact Hb].
          -- intros y Hy. destruct (C3 y Hy) as [Y1 Y2]. split; [|now apply get_combine_None]. destruct (r y) eqn:Ey; [|reflexivity]. exfalso. apply (R_dom HR y); congruence.
          -- exact C4.
          -- intros x u. apply bindv_args; [exact C2|exact C1|]. apply Hargs; reflexivity.
      + destruct e as [|x| | | | | | | | | | |]; try discriminate. cbn [PySem.ev] in EV. destruct (get x E) as [[[[]|]| |]|] eqn:Eg; try discriminate.
        destruct (mem x modes || mem x0 modes)%bool; [discriminate|]. destruct (omap (proc_e E) args) as [args'|] eqn:Ea; [|discriminate]. injection EP as <-.
        assert (x0 = x) by exact (R_hole HR _ Eg). subst x0. destruct (G x) as [pv|] eqn:EG; [|discriminate]. destruct (R_arg HR Eg EG) as (u & -> & Hu).
        cbn [obind] in EV. destruct (v_attr u a) as [fv|] eqn:Efv; [|discriminate]. cbn [obind] in EV. destruct (omap (ev G) args) as [vs|] eqn:Evs; [|discriminate].
        cbn [obind] in EV. rewrite value_call, value_attr, value_name, Hu. cbn [obind]. rewrite Efv. cbn [obind].
        assert (Ev' : omap (value_in r) args' = Some vs) by (apply omap_Forall2, Hargs; reflexivity). rewrite Ev'. exact EV.
    - destruct HT as (HT1 & HT2 & HT3 & HT4). cbn [Parser.proc_e] in EP. destruct (bound x E) eqn:Bx; [discriminate|].
      assert (Ux : get x E = None) by (unfold bound in Bx; destruct (get x E); [discriminate|reflexivity]).
      set (E' := set x (SV (CE (EHole x))) E) in *. destruct (proc_e E' e1) as [b|] eqn:E1; [|discriminate]. cbn [obind] in EP.
      destruct (proc_e E' e2) as [i|] eqn:E2; [|discriminate]. cbn [obind] in EP. injection EP as <-. cbn [PySem.ev] in EV.
      destruct (ev G e2) as [l|] eqn:El; [|discriminate]. cbn [obind] in EV. destruct (v_items l) as [items|] eqn:Ei; [|discriminate]. cbn [obind] in EV.
      assert (Gx : forall y, x <> y -> get y E' = get y E) by (intros y Hy; now apply get_set_other).
      assert (Hbound : forall y, get y E <> None -> get y E' <> None).
      { intros y Hy. destruct (word_eqb x y) eqn:Exy; [apply word_eqb_iff in Exy; subst y; congruence|]. rewrite Gx; [exact Hy|]. intros ->. rewrite word_eqb_refl in Exy. discriminate. }
      assert (Hhole : forall y z, get y E' = Some (SV (CE (EHole z))) -> z = y).
      { intros y z. unfold E'. rewrite get_set. destruct (word_eqb x y) eqn:Exy; [apply word_eqb_iff in Exy; congruence|apply (R_hole HR)]. }
      assert (Hi : value_in r i = Some l).
      { apply (IHe2 r (fun y => if word_eqb x y then None else G y) E'); [|exact HT2|exact E2|].
        - constructor; [| |intros y Hy; now apply Hbound, (R_dom HR)|exact Hhole].
          + intros y pv. destruct (word_eqb x y) eqn:Exy; [discriminate|]. intros Hy. destruct (R_match HR _ Hy) as (s & Hs & M). exists s. split; [|exact M].
            rewrite Gx; [exact Hs|]. intros ->. rewrite word_eqb_refl in Exy. discriminate.
          + intros y Hy. split; [apply Hbound, (R_modes HR _ Hy)|]. intros pv. destruct (word_eqb x y); [discriminate|]. apply (R_modes HR _ Hy).
        - apply (@ev_mono e2 G); [|exact El]. intros y pv Hy HG. rewrite word_eqb_neq; [exact HG|]. intros ->. contradiction. }
      assert (HRx : forall u, R (upd r x u) (upd G x (PV u)) E').
      { intros u. assert (Hext : extends r (upd r x u)).
        { intros y w Hy. unfold upd. destruct (word_eqb x y) eqn:Exy; [|exact Hy]. apply word_eqb_iff in Exy. subst y. exfalso. apply (R_dom HR x); congruence. }
        constructor; [| | |exact Hhole].
        - intros y pv. unfold upd at 1. destruct (word_eqb x y) eqn:Exy.
          + intros [= <-]. apply word_eqb_iff in Exy. subst y. exists (SV (CE (EHole x))). split; [unfold E'; apply get_set_same|]. exists u. split; [reflexivity|].
            exists [], (EHole x). split; [now left|]. split; [constructor|]. rewrite value_hole. apply upd_same.
          + intros Hy. destruct (R_match HR _ Hy) as (s & Hs & M). exists s. split; [|now apply matches_mono with r].
            rewrite Gx; [exact Hs|]. intros ->. rewrite word_eqb_refl in Exy. discriminate.
        - intros y Hy. destruct (R_modes HR _ Hy) as [M1 M2]. split; [now apply Hbound|]. rewrite upd_other; [exact M2|]. intros ->. contradiction.
        - intros y Hy. unfold upd in Hy. destruct (word_eqb x y) eqn:Exy; [|now apply Hbound, (R_dom HR)]. apply word_eqb_iff in Exy. subst y. unfold E'. rewrite get_set_same. discriminate. }
      assert (Hitem : forall u, In u items -> item_of truth v_bool v_const v_attr v_un v_bin v_cmp v_call v_items modes r E' e2 u).
      { intros u Hu. exists i, l, items. auto. }
      assert (Kelt : forall u c, In u items -> ev (upd G x (PV u)) e1 = Some c -> value_in (upd r x u) b = Some c).
      { intros u c Hu Ec. apply (IHe1 _ _ _ _ _ (HRx u) (HT1 u (Hitem u Hu)) E1 Ec). }
      assert (Hred : forall B, (forall u, In u items -> forall v', ev (upd (wrap r) x (PV u)) B = Some v' <-> value_in (upd r x u) B = Some v')) by (intros B u _ v'; apply value_under).
      unfold PySem.value_in at 1. cbn [PySem.ev]. unfold PySem.value_in in Hi. rewrite Hi. cbn [obind]. rewrite Ei. cbn [obind].
      destruct ifs as [|f0 ifs].
      + eapply quantify_rel; [| |exact EV]; cbn [PySem.shortcut].
        * intros u k b0 Hu [= <-] Tk Eb. exists (v_bool true), b0. rewrite truth_bool. repeat split. apply (Hred b u Hu). auto.
        * intros u k Hu [= <-] Tk. rewrite truth_bool in Tk. discriminate.
      + destruct (HT4 ltac:(discriminate)) as [F1 F2]. set (FS := f0 :: ifs) in *.
        assert (Kif : forall u k, shortcut true (ev (upd G x (PV u))) FS = Some k -> value_in (upd r x u) (EBool true FS) = Some k).
        { intros u k. change (shortcut true (ev (upd G x (PV u))) FS) with (ev (upd G x (PV u)) (EBool true FS)). apply ev_mono. cbn [free].
          intros y pv Hy. destruct (F2 y Hy) as [->|Ha]; [rewrite !upd_same; cbn; auto|]. intros HG.
          assert (Hne : x <> y) by (intros <-; unfold is_arg in Ha; congruence). rewrite upd_other in HG by exact Hne. rewrite upd_other by exact Hne.
          destruct (R_arg HR Ha HG) as (u' & -> & ->). reflexivity. }
        eapply quantify_rel; [| |exact EV].
        * intros u k b0 Hu Ek Tk Eb. apply Kif in Ek. apply Kelt in Eb; [|exact Hu]. exists (v_bool true). rewrite truth_bool.
          destruct q.
          -- exists (if truth b0 then k else b0). repeat split; [|destruct (truth b0) eqn:Tb; congruence]. apply (Hred _ u Hu). unfold PySem.value_in in *. cbn [PySem.ev PySem.shortcut] in *.
             rewrite Eb. cbn [obind]. destruct (truth b0); [cbn [Bool.eqb]; exact Ek|reflexivity].
          -- exists (if truth b0 then b0 else v_bool false). repeat split; [|destruct (truth b0) eqn:Tb; [congruence|now rewrite truth_bool]]. apply (Hred _ u Hu). unfold PySem.value_in in *. cbn [PySem.ev PySem.shortcut] in *.
             rewrite Eb. cbn [obind]. destruct (truth b0); [reflexivity|]. cbn [Bool.eqb]. rewrite Ek. cbn [obind]. now rewrite Tk.
        * intros u k Hu Ek Tk. apply Kif in Ek. exists (v_bool true). split; [reflexivity|]. right. destruct (F1 u b (Hitem u Hu) eq_refl) as (b0 & Eb).
          destruct q.
          -- exists (if truth b0 then k else b0). split; [|destruct (truth b0) eqn:Tb; cbn; congruence]. apply (Hred _ u Hu). unfold PySem.value_in in *. cbn [PySem.ev PySem.shortcut] in *.
             rewrite Eb. cbn [obind]. destruct (truth b0); [cbn [Bool.eqb]; exact Ek|reflexivity].
          -- exists (if truth b0 then b0 else v_bool true). split; [|destruct (truth b0) eqn:Tb; cbn; [congruence|now rewrite truth_bool]]. apply (Hred _ u Hu). unfold PySem.value_in in *. cbn [PySem.ev PySem.shortcut] in *.
             rewrite Eb. cbn [obind]. destruct (truth b0); [reflexivity|]. cbn [Bool.eqb]. rewrite Ek. cbn [obind]. now rewrite Tk.
    - contradiction.
    - cbn [Parser.proc_e] in EP. injection EP as <-. apply (@ev_mono _ G); [|exact EV]. intros y pv Hy HG. destruct (R_arg HR (HT y Hy) HG) as (u & -> & ->). reflexivity.
  Qed.

  (** ** New names *)
  Lemma get_eq_dec (x y : word) : x = y \/ x <> y.
  Proof. destruct (word_eqb x y) eqn:E; [left; now apply word_eqb_iff|right; intros ->; rewrite word_eqb_refl in E; discriminate]. Qed.

  Lemma R_new r G E x u : R r G E -> get x E = None -> R (upd r x u) (upd G x (PV u)) (set x (SV (CE (EHole x))) E).
  Proof.
    intros HR Ux. assert (Hext : extends r (upd r x u)).
    { intros y v Hy. rewrite upd_other; [exact Hy|]. intros ->. apply (R_dom HR y); congruence. }
    assert (Hb : forall y, get y E <> None -> get y (set x (SV (CE (EHole x))) E) <> None).
    { intros y Hy. rewrite get_set. destruct (word_eqb x y); [discriminate|exact Hy]. }
    constructor.
    - intros y pv. destruct (get_eq_dec x y) as [->|Hne].
      + rewrite upd_same. intros [= <-]. exists (SV (CE (EHole y))). split; [apply get_set_same|]. exists u. split; [reflexivity|].
        exists [], (EHole y). split; [now left|]. split; [constructor|]. rewrite value_hole. apply upd_same.
      + rewrite upd_other by exact Hne. intros Hy. destruct (R_match HR _ Hy) as (s & Hs & M). exists s. split; [now rewrite get_set_other|now apply matches_mono with r].
    - intros y Hy. destruct (R_modes HR _ Hy) as [M1 M2]. split; [now apply Hb|]. rewrite upd_other; [exact M2|]. intros ->. contradiction.
    - intros y Hy. destruct (get_eq_dec x y) as [->|Hne]; [rewrite get_set_same; discriminate|]. rewrite upd_other in Hy by exact Hne. now apply Hb, (R_dom HR).
    - intros y z. rewrite get_set. destruct (word_eqb x y) eqn:Exy; [apply word_eqb_iff in Exy; congruence|apply (R_hole HR)].
  Qed.

  Lemma R_args ps : forall vs r G E, NoDup ps -> length vs = length ps -> (forall p, In p ps -> get p E = None) -> R r G E ->
    R (bindv ps vs r) (bind ps vs G) (holes ps E).
  Proof.
    induction ps as [|p ps IH]; intros [|u vs] r G E ND L U HR; try discriminate; [exact HR|]. apply NoDup_cons_iff in ND as [N1 N2].
    unfold bindv, bind, holes in *. cbn [combine fold_left fst snd]. apply IH; [exact N2|now injection L| |].
    - intros q Hq. rewrite get_set_other; [apply U; now right|]. intros ->. contradiction.
    - apply R_new; [exact HR|apply U; now left].
  Qed.

  (** ** Merging *)
  Definition side {A} (b : bool) (x y : A) : A := if b then x else y.
  Definition lit (b : bool) (t : pex) : pex := if b then t else ENot t.

  Definition cases_of (o : option cval) : list (list pex * pex) := match o with Some c => as_cv c | None => [] end.
  Lemma merge_val_is t tv fv orig c : merge_val t tv fv orig = Some c ->
    c = CC (add_cond t (subtract case_eqb (cases_of tv) (cases_of orig)) ++ add_cond (ENot t) (subtract case_eqb (cases_of fv) (cases_of orig)) ++ cases_of orig).
  Proof.
    unfold merge_val. fold (cases_of tv) (cases_of fv) (cases_of orig).
    destruct (subtract case_eqb (cases_of tv) (cases_of orig)), (subtract case_eqb (cases_of fv) (cases_of orig)); [discriminate| | |]; intros [= <-]; reflexivity.
  Qed.
  Lemma merge_val_denotes b r t tv fv orig c v c1 : merge_val t tv fv orig = Some c -> holds_in r (lit b t) -> side b tv fv = Some c1 -> denotes r c1 v -> denotes r c v.
  Proof.
    intros E Ht Es (cs & e & Hin & Hcs & Hv).
    apply merge_val_is in E.
    subst c. assert (Hin' : In (cs, e) (cases_of (side b tv fv))) by (rewrite Es; exact Hin).
    destruct (In_subtract case_eqb (cases_of orig) _ _ Hin') as [K|(o & Ho & Eo)].
    - exists (cs ++ [lit b t]), e. split; [|split; [apply Forall_app; split; [exact Hcs|repeat constructor; exact Ht]|exact Hv]]. cbn [as_cv].
      destruct b; cbn [side lit] in *; rewrite !in_app_iff, !In_add_cond; [left|right; left]; eauto.
    - apply case_eqb_iff in Eo. subst o. exists cs, e. split; [|auto]. cbn [as_cv]. rewrite !in_app_iff. auto.
  Qed.
  Lemma merge_val_cases t tv fv orig c cs e : merge_val t tv fv orig = Some c -> In (cs, e) (as_cv c) ->
    (exists b cs' c1, cs = cs' ++ [lit b t] /\ side b tv fv = Some c1 /\ In (cs', e) (as_cv c1)) \/ (exists c0, orig = Some c0 /\ In (cs, e) (as_cv c0)).
  Proof.
    intros E Hin.
    apply merge_val_is in E.
    subst c. cbn [as_cv] in Hin. rewrite !in_app_iff, !In_add_cond in Hin. destruct Hin as [(cs' & -> & H)|[(cs' & -> & H)|H]].
    - left. apply subtract_sub in H. destruct tv as [c1|]; [|easy]. exists true, cs', c1. auto.
    - left. apply subtract_sub in H. destruct fv as [c1|]; [|easy]. exists false, cs', c1. auto.
    - right. destruct orig as [c0|]; [|easy]. eauto.
  Qed.

  Local Arguments merge_val_cases {t tv fv orig c cs e} _ _.
  Lemma opt_eqb_iff {A} (eqb : A -> A -> bool) (H : forall a b, eqb a b = true <-> a = b) x y : opt_eqb eqb x y = true <-> x = y.
  Proof. destruct x, y; cbn; rewrite ?H; split; congruence. Qed.

  Lemma merge_fields_denotes b r t ft ff fs fs' a c v : merge_dict (merge_field t) ft ff fs = Some fs' -> holds_in r (lit b t) ->
    (get a ft = Some c -> get a ff = Some c -> get a fs = Some c) -> get a (side b ft ff) = Some c -> denotes r c v -> exists c', get a fs' = Some c' /\ denotes r c' v.
  Proof.
    intros E Ht Hd Ha Hv. destruct (merge_dict_spec _ _ _ _ E a) as [[_ (res & Ef & Eg)]|[Hn _]].
    - unfold merge_field in Ef. destruct (opt_eqb cval_eqb (get a ft) (get a ff)) eqn:Eq.
      + injection Ef as <-. apply (opt_eqb_iff cval_eqb cval_eqb_iff) in Eq. exists c. split; [|exact Hv]. rewrite Eg. destruct b; cbn [side] in Ha; apply Hd; congruence.
      + destruct (merge_val t (get a ft) (get a ff) (get a fs)) as [c'|] eqn:Em; [|discriminate]. injection Ef as <-. exists c'. split; [exact Eg|].
        apply (merge_val_denotes b _ _ _ _ Em Ht (c1 := c)); [destruct b; exact Ha|exact Hv].
    - apply keys_of_get in Hn as [N1 N2]. destruct b; cbn [side] in Ha; congruence.
  Qed.

  Lemma merge_matches b r t T F S M k pv s : merge_env t T F S = Some M -> holds_in r (lit b t) -> branches_differ T F S ->
    get k (side b T F) = Some s -> matches r pv s -> exists s', get k M = Some s' /\ matches r pv s'.
  Proof.
    intros E Ht [Hd1 Hd2] Hk Hm. specialize (Hd1 k). specialize (Hd2 k). unfold fields_in in Hd2.
    destruct (merge_dict_spec _ _ _ _ E k) as [[_ (res & Ef & Eg)]|[Hn _]].
    - unfold merge_var in Ef. destruct (opt_eqb sval_eqb (get k T) (get k F)) eqn:Eq.
      + injection Ef as <-. apply (opt_eqb_iff sval_eqb sval_eqb_iff) in Eq. exists s. split; [|exact Hm]. rewrite Eg. destruct b; cbn [side] in Hk; apply Hd1; congruence.
      + assert (Hk' : side b (get k T) (get k F) = Some s) by (destruct b; exact Hk).
        assert (KO : forall ft ff fs fs', merge_dict (merge_field t) ft ff fs = Some fs' -> (forall a c, get a ft = Some c -> get a ff = Some c -> get a fs = Some c) ->
                  s = SO (side b ft ff) -> get k M = Some (SO fs') -> exists s', get k M = Some s' /\ matches r pv s').
        { intros ft ff fs fs' Ed Hd Es HM. exists (SO fs'). split; [exact HM|]. subst s. destruct Hm as (o & -> & Ho). exists o. split; [reflexivity|].
          intros a v Hav. destruct (Ho a v Hav) as (c & Hc & Dc). eapply merge_fields_denotes; eauto. }
        assert (KV : forall tv fv sv c, merge_val t tv fv sv = Some c -> get k M = Some (SV c) ->
                  (exists c1, side b tv fv = Some c1 /\ s = SV c1) -> exists s', get k M = Some s' /\ matches r pv s').
        { intros tv fv sv c Ev HM (c1 & Hc1 & ->). exists (SV c). split; [exact HM|]. destruct Hm as (v & -> & D). exists v. split; [reflexivity|].
          eapply merge_val_denotes; eauto. }
        destruct (get k T) as [[ct|ft|]|], (get k F) as [[cf|ff|]|]; try discriminate;
          destruct (get k S) as [[cs|fs|]|]; try discriminate;
          first [destruct (merge_val t _ _ _) as [c|] eqn:Ev; [|discriminate]; injection Ef as <-; eapply KV; [exact Ev|exact Eg|]; destruct b; cbn [side] in Hk' |- *;
                   first [discriminate|injection Hk' as <-; eauto]
                |destruct (merge_dict (merge_field t) _ _ _) as [fs'|] eqn:Ed; [|discriminate]; injection Ef as <-; eapply KO; [exact Ed|exact Hd2| |exact Eg];
                   destruct b; cbn [side] in Hk' |- *; congruence].
    - apply keys_of_get in Hn as [N1 N2]. destruct b; cbn [side] in Hk; congruence.
  Qed.
  (** A merged variable keeps the old value or gets a conditional value or an object. *)
  Lemma merge_shape t T F S M k s : merge_env t T F S = Some M -> get k M = Some s ->
    get k S = Some s \/ (exists l, s = SV (CC l)) \/
    (exists ft ff fs fs', s = SO fs' /\ merge_dict (merge_field t) ft ff fs = Some fs' /\ (get k T = Some (SO ft)) /\ (get k F = Some (SO ff) \/ ff = []) /\ (get k S = Some (SO fs) \/ fs = [])).
  Proof.
    intros E Hk. destruct (merge_dict_spec _ _ _ _ E k) as [[_ (res & Ef & Eg)]|[_ Eg]]; [|left; congruence].
    unfold merge_var in Ef. destruct (opt_eqb sval_eqb (get k T) (get k F)); [injection Ef as <-; left; congruence|].
    assert (KV : forall tv fv sv c, merge_val t tv fv sv = Some c -> exists l, c = CC l).
    { intros tv fv sv c. unfold merge_val. destruct (subtract _ _ _), (subtract _ _ _); intros [= <-]; eauto. }
    destruct (get k T) as [[ct|ft|]|] eqn:ET, (get k F) as [[cf|ff|]|] eqn:EF; try discriminate;
      destruct (get k S) as [[cs|fs|]|] eqn:ES; try discriminate;
      first [destruct (merge_val t _ _ _) as [c|] eqn:Ev; [|discriminate]; injection Ef as <-; right; left; rewrite Hk in Eg; injection Eg as ->; destruct (KV _ _ _ _ Ev) as [l ->]; eauto; fail
            |destruct (merge_dict (merge_field t) _ _ _) as [fs'|] eqn:Ed; [|discriminate]; injection Ef as <-; right; right; rewrite Hk in Eg; injection Eg as ->;
               do 4 eexists; split; [reflexivity|]; split; [exact Ed|]; auto].
  Qed.
  Local Arguments merge_shape {t T F S M k s} _ _.
  Lemma merge_bound t T F S M k : merge_env t T F S = Some M -> get k S <> None -> get k M <> None.
  Proof.
    intros E Hk. destruct (merge_dict_spec _ _ _ _ E k) as [[_ (res & Ef & Eg)]|[_ Eg]]; [|congruence]. destruct res; congruence.
  Qed.

  Lemma R_merge b r G G0 t T F S M : merge_env t T F S = Some M -> holds_in r (lit b t) -> branches_differ T F S ->
    R r G (side b T F) -> R r G0 S -> R r G M.
  Proof.
    intros E Ht Hd HR HS. constructor.
    - intros x pv Hx. destruct (R_match HR _ Hx) as (s & Hs & M0). eapply merge_matches; eauto.
    - intros x Hx. split; [|apply (R_modes HR _ Hx)]. eapply merge_bound; [exact E|]. apply (R_modes HS _ Hx).
    - intros x Hx. eapply merge_bound; [exact E|]. now apply (R_dom HS).
    - intros x y Hx. destruct (merge_shape E Hx) as [K|[(l & K)|(? & ? & ? & ? & K & _)]]; [|discriminate|discriminate]. exact (R_hole HS _ K).
  Qed.

  Local Arguments R_merge b {r G G0 t T F S M} _ _ _ _ _.

  (** ** Running *)
  Lemma tidy_block_app (f : penv * list passert -> stmt -> Prop) l m : forall st, tidy_block modes fields_of f st (l ++ m) ->
    tidy_block modes fields_of f st l /\ forall st', proc_b st l = Some st' -> tidy_block modes fields_of f st' m.
  Proof.
    induction l as [|s l IH]; intros st H; cbn in H.
    - split; [exact I|]. intros st' [= <-]. exact H.
    - destruct H as [H1 H2]. split.
      + cbn. split; [exact H1|]. intros st' E. apply (IH st' (H2 st' E)).
      + intros st'. unfold Parser.proc_b. cbn [block]. destruct (proc_s st s) as [st1|] eqn:E1; [|discriminate]. cbn [obind]. apply (IH st1 (H2 st1 eq_refl)).
  Qed.
  Lemma proc_b_app l m st : proc_b st (l ++ m) = do st' <- proc_b st l; proc_b st' m.
  Proof. unfold Parser.proc_b. revert st. induction l as [|s l IH]; intros st; [reflexivity|]. cbn [app block]. destruct (proc_s st s); [cbn [obind]; apply IH|reflexivity]. Qed.
  Lemma run_b_app l m st : run_b st (l ++ m) = do r <- run_b st l; match snd r with Some _ => Some r | None => run_b (fst r) m end.
  Proof.
    unfold PySem.run_b. revert st. induction l as [|s l IH]; intros st; [reflexivity|]. cbn [app runs]. destruct (run_s st s) as [[st1 [o|]]|]; cbn [obind fst snd]; [reflexivity|apply IH|reflexivity].
  Qed.
  Lemma last_return_app b e : last_return (b ++ [SReturn e]) = Some e.
  Proof.
    induction b as [|s b IH]; [reflexivity|]. cbn [app last_return]. rewrite IH. destruct s; try reflexivity. destruct (b ++ [SReturn e]) eqn:Eb; [|reflexivity]. destruct b; discriminate.
  Qed.
  Lemma fold_copy y vars a : forall fs, get a (fold_left (fun fs a => set a (CE (EAttr (EHole y) a)) fs) vars fs) = if mem a vars then Some (CE (EAttr (EHole y) a)) else get a fs.
  Proof.
    induction vars as [|b vars IH]; intros fs; [reflexivity|]. cbn [fold_left]. rewrite IH. change (mem a (b :: vars)) with (word_eqb a b || mem a vars)%bool.
    destruct (mem a vars); [now rewrite orb_true_r|]. rewrite orb_false_r, get_set. destruct (word_eqb b a) eqn:E.
    - apply word_eqb_iff in E. subst b. now rewrite word_eqb_refl.
    - rewrite word_eqb_neq; [reflexivity|]. intros ->. rewrite word_eqb_refl in E. discriminate.
  Qed.

  Definition P_R (s : stmt) : Prop := forall r st pst st' pst' o, no_return s -> R r (p_store pst) (fst st) -> tidy_s r st s ->
    proc_s st s = Some st' -> run_s pst s = Some (pst', o) -> o = None /\ R r (p_store pst') (fst st').

  Lemma block_R b : Forall P_R b -> forall r st pst st' pst' o, all_of no_return b -> R r (p_store pst) (fst st) -> tidy_b r st b ->
    proc_b st b = Some st' -> run_b pst b = Some (pst', o) -> o = None /\ R r (p_store pst') (fst st').
  Proof.
    induction 1 as [|s b Hs Hb IH]; intros r st pst st' pst' o HN HR HT EP ER.
    - injection EP as <-. injection ER as <- <-. auto.
    - destruct HN as [N1 N2]. destruct HT as [T1 T2]. unfold Parser.proc_b, PySem.run_b in *. cbn [block runs] in *.
      destruct (proc_s st s) as [st1|] eqn:E1; [|discriminate]. cbn [obind] in EP. destruct (run_s pst s) as [[pst1 o1]|] eqn:E2; [|discriminate]. cbn [obind snd fst] in ER.
      destruct (Hs r st pst st1 pst1 o1 N1 HR T1 E1 E2) as [-> HR1]. eapply IH; eauto.
  Qed.

  Lemma holds_not r t v : value_in r t = Some v -> truth v = false -> holds_in r (ENot t).
  Proof. intros E T. exists (v_bool true). rewrite truth_bool. split; [|reflexivity]. unfold PySem.value_in in *. cbn [PySem.ev]. rewrite E. cbn. now rewrite T. Qed.

  Lemma R_set r G E x pv s : R r G E -> ~ In x modes -> matches r pv s -> (forall y, s <> SV (CE (EHole y))) -> R r (upd G x pv) (set x s E).
  Proof.
    intros HR Hx Hm Hs. assert (Hb : forall y, get y E <> None -> get y (set x s E) <> None).
    { intros y Hy. rewrite get_set. destruct (word_eqb x y); [discriminate|exact Hy]. }
    constructor.
    - intros y pv'. destruct (get_eq_dec x y) as [->|Hne]; [rewrite upd_same, get_set_same; intros [= <-]; eauto|]. rewrite upd_other, get_set_other by exact Hne. apply (R_match HR).
    - intros y Hy. split; [apply Hb, (R_modes HR _ Hy)|]. rewrite upd_other by (intros ->; contradiction). apply (R_modes HR _ Hy).
    - intros y Hy. now apply Hb, (R_dom HR).
    - intros y z. rewrite get_set. destruct (word_eqb x y); [intros [= K]; exfalso; eapply Hs; eauto|apply (R_hole HR)].
  Qed.

  Theorem step_R : forall s, P_R s.
  Proof.
    induction s using stmt_ind'; intros r [E A] pst st' pst' oo HN HR HT EP ER; cbn [fst] in *.
    - cbn [Parser.proc_s PySem.run_s ParserSpec.tidy_s fst snd] in *. destruct HT as [T1 T2]. destruct (proc_e E e) as [e'|] eqn:E1; [|discriminate]. cbn [obind] in EP.
      destruct (is_hole e') eqn:Eh; [discriminate|]. injection EP as <-. destruct (ev (p_store pst) e) as [v|] eqn:Ev; [|discriminate]. injection ER as <- <-.
      split; [reflexivity|]. cbn [p_store fst]. apply R_set; [exact HR|exact T1| |intros y [= ->]; discriminate]. exists v. split; [reflexivity|].
      exists [], e'. split; [now left|]. split; [constructor|]. eapply proc_e_sound; eauto.
    - cbn [Parser.proc_s PySem.run_s ParserSpec.tidy_s fst snd] in *. destruct HT as [T1 T2]. destruct (p_store pst o) as [[|ob|]|] eqn:Eo; try discriminate.
      destruct (R_match HR _ Eo) as (s & Es & Hm). assert (Bo : bound o E = true) by (unfold bound; now rewrite Es). rewrite Bo in *. rewrite Es in EP.
      destruct s as [|fs|]; try discriminate. destruct (proc_e E e) as [e'|] eqn:E1; [|discriminate]. injection EP as <-. destruct (ev (p_store pst) e) as [v|] eqn:Ev; [|discriminate]. injection ER as <- <-.
      split; [reflexivity|]. cbn [p_store fst]. apply R_set; [exact HR|exact T1| |discriminate]. destruct Hm as (o' & [= <-] & Ho). eexists. split; [reflexivity|].
      intros a' v'. destruct (get_eq_dec a a') as [->|Hne].
      + rewrite upd_same, get_set_same. intros [= <-]. eexists. split; [reflexivity|]. exists [], e'. split; [now left|]. split; [constructor|]. eapply proc_e_sound; eauto.
      + rewrite upd_other, get_set_other by exact Hne. apply Ho.
    - cbn [Parser.proc_s PySem.run_s ParserSpec.tidy_s fst snd] in *. destruct (get y E) as [[[[]|]| |]|] eqn:Ey; try discriminate.
      assert (x0 = y) by exact (R_hole HR _ Ey). subst x0. destruct (fields_of y) as [vars|]; [|discriminate]. cbn [obind] in EP.
      destruct (p_store pst y) as [[v| |]|] eqn:Gy; try discriminate. injection ER as <- <-. split; [reflexivity|].
      destruct (R_arg HR Ey Gy) as (v' & [= <-] & Ry).
      set (Ex := if bound x E then E else set x (SO []) E) in *. destruct (get x Ex) as [[|fs|]|] eqn:Efs; try discriminate. injection EP as <-. cbn [p_store fst].
      assert (Em : matches r (PO (fun a => if mem a vars then v_attr v a else None)) (SO (fold_left (fun fs a => set a (CE (EAttr (EHole y) a)) fs) vars fs))).
      { eexists. split; [reflexivity|]. intros a u. rewrite fold_copy. destruct (mem a vars); [|discriminate]. intros Hu. eexists. split; [reflexivity|].
        exists [], (EAttr (EHole y) a). split; [now left|]. split; [constructor|]. rewrite value_attr, value_hole, Ry. exact Hu. }
      assert (HRx : R r (upd (p_store pst) x (PO (fun a => if mem a vars then v_attr v a else None))) (set x (SO (fold_left (fun fs a => set a (CE (EAttr (EHole y) a)) fs) vars fs)) E)) by (apply R_set; [exact HR|exact HT|exact Em|discriminate]).
      unfold Ex in *. clear Ex. destruct (bound x E); [exact HRx|]. assert (Ge : forall k, get k (set x (SO (fold_left (fun fs a => set a (CE (EAttr (EHole y) a)) fs) vars fs)) (set x (SO []) E)) = get k (set x (SO (fold_left (fun fs a => set a (CE (EAttr (EHole y) a)) fs) vars fs)) E)).
      { intros k. rewrite !get_set. destruct (word_eqb x k); reflexivity. }
      constructor; intros k; rewrite ?Ge; apply HRx.
    - destruct HT as (T1 & T2 & T3 & T4). destruct HN as [N1 N2]. cbn [Parser.proc_s PySem.run_s fst snd] in EP, ER.
      destruct (proc_e E t) as [t'|] eqn:Et; [|discriminate]. cbn [obind] in EP. fold (proc_b (E, A) b) in EP. fold (proc_b (E, A) c) in EP.
      destruct (proc_b (E, A) b) as [T|] eqn:ET; [|discriminate]. cbn [obind] in EP. destruct (proc_b (E, A) c) as [F|] eqn:EF; [|discriminate]. cbn [obind] in EP.
      destruct (merge_env t' (fst T) (fst F) E) as [M|] eqn:EM; [|discriminate]. injection EP as <-. destruct (ev (p_store pst) t) as [v|] eqn:Ev; [|discriminate]. cbn [obind] in ER.
      assert (Vt := proc_e_sound _ HR T1 Et Ev). specialize (T4 _ _ eq_refl eq_refl). cbn [fst].
      destruct (truth v) eqn:Tv.
      + destruct (@block_R b H r (E, A) pst T pst' oo N1 HR T2 ET ER) as [-> HR1]. split; [reflexivity|]. apply (R_merge true EM (G0 := p_store pst)); auto. exists v. auto.
      + destruct (@block_R c H0 r (E, A) pst F pst' oo N2 HR T3 EF ER) as [-> HR1]. split; [reflexivity|]. apply (R_merge false EM (G0 := p_store pst)); auto. now apply holds_not with v.
    - cbn [Parser.proc_s PySem.run_s fst snd] in *. destruct (proc_e E e); [|discriminate]. injection EP as <-. destruct (ev (p_store pst) e); [|discriminate]. injection ER as <- <-. auto.
    - contradiction.
    - destruct HT as (T1 & T2 & (b & er & -> & Nb) & T4). cbn [Parser.proc_s PySem.run_s fst snd] in EP, ER. injection ER as <- <-. split; [reflexivity|]. cbn [p_store].
      destruct (existsb _ _) eqn:Ex; [discriminate|]. fold (proc_b (holes ps E, []) (b ++ [SReturn er])) in EP.
      destruct (proc_b (holes ps E, []) (b ++ [SReturn er])) as [[Eb Ab]|] eqn:Eb0; [|discriminate]. cbn [obind fst snd] in EP. destruct Ab; [|discriminate].
      rewrite last_return_app in EP. destruct (proc_e Eb er) as [e'|] eqn:Ee; [|discriminate]. injection EP as <-. cbn [fst].
      assert (Up : forall p, In p ps -> get p E = None).
      { intros p Hp. destruct (get p E) eqn:Ep; [|reflexivity]. exfalso. assert (K : existsb (fun x => bound x E) (ps ++ concat_map assigned (b ++ [SReturn er])) = true); [|congruence].
        apply existsb_exists. exists p. split; [apply in_or_app; now left|]. unfold bound. now rewrite Ep. }
      apply R_set; [exact HR|exact T1| |discriminate]. eexists. split; [reflexivity|]. intros vs v. cbv beta.
      destruct (length vs =? length ps) eqn:L; [|discriminate]. apply Nat.eqb_eq in L. intros Hd. split; [exact L|].
      destruct (T4 vs L) as [T5 T6]. specialize (T6 _ _ Eb0 (last_return_app _ _)). cbn [fst] in T6. apply tidy_block_app in T5 as [T5 _].
      assert (HRb := R_args vs T2 L Up HR). rewrite proc_b_app in Eb0.
      destruct (proc_b (holes ps E, []) b) as [[E1 A1]|] eqn:Ebb; [|discriminate]. unfold Parser.proc_b in Eb0. cbn [obind block Parser.proc_s] in Eb0. injection Eb0 as -> ->.
      fold (run_b (mk_pst (bind ps vs (p_store pst)) [] []) (b ++ [SReturn er])) in Hd. rewrite run_b_app in Hd.
      destruct (run_b (mk_pst (bind ps vs (p_store pst)) [] []) b) as [[p1 o1]|] eqn:Erb; [|discriminate]. cbn [obind] in Hd.
      apply Forall_app in H as [H _]. destruct (@block_R b H _ (holes ps E, []) (mk_pst (bind ps vs (p_store pst)) [] []) (Eb, []) p1 o1 Nb HRb T5 Ebb Erb) as [-> HR1].
      cbn [fst snd] in *. unfold PySem.run_b in Hd. cbn [runs PySem.run_s] in Hd.
      eapply proc_e_sound; [exact HR1|exact T6|exact Ee|]. destruct er; cbn [obind snd fst] in Hd |- *;
        try (destruct (ev (p_store p1) _) as [u|] eqn:Eu in Hd; cbn [obind snd fst] in Hd; [|discriminate]; injection Hd as <-; exact Eu).
      cbn [PySem.ev]. destruct (p_store p1 x) as [[u| |]|]; cbn [obind snd fst] in Hd; try discriminate. exact Hd.
  Qed.

  (** ** Assignments made and assertions failed *)
  Definition J (r : venv) (E : penv) (log : list (word * option word * V)) : Prop := forall k fs a c cs e v,
    get k E = Some (SO fs) -> get a fs = Some c -> In (cs, e) (as_cv c) -> Forall (holds_in r) cs -> value_in r e = Some v -> In (k, Some a, v) log.
  Definition violated (r : venv) (a : passert) : Prop := Forall (holds_in r) (pa_pre a) /\ fails_in r (pa_cond a).
  Record Q (r : venv) (pst : pst V) (st : penv * list passert) : Prop := mk_Q {
    Q_log : J r (fst st) (p_log pst);
    Q_viol : forall a, In a (snd st) -> violated r a -> In (pa_label a) (p_failed pst);
    Q_first : forall l rest, p_failed pst = l :: rest -> exists a, In a (snd st) /\ violated r a /\ pa_label a = l }.

  Definition grows (p p' : pst V) : Prop := (exists l, p_log p' = p_log p ++ l) /\ (exists l, p_failed p' = p_failed p ++ l).
  Lemma grows_refl p : grows p p.
  Proof. split; exists []; now rewrite app_nil_r. Qed.
  Lemma grows_trans p q s : grows p q -> grows q s -> grows p s.
  Proof. intros [(a & Ea) (b & Eb)] [(c & Ec) (d & Ed)]. split; [exists (a ++ c)|exists (b ++ d)]; rewrite ?Ec, ?Ed, ?Ea, ?Eb, app_assoc; reflexivity. Qed.
  Lemma run_grows : forall s p p' o, run_s p s = Some (p', o) -> grows p p'.
  Proof.
    assert (KB : forall b, Forall (fun s => forall p p' o, run_s p s = Some (p', o) -> grows p p') b -> forall p p' o, run_b p b = Some (p', o) -> grows p p').
    { induction 1 as [|s b Hs Hb IH]; intros p p' o Hr; unfold PySem.run_b in *; cbn [runs] in Hr; [injection Hr as <- _; apply grows_refl|].
      destruct (run_s p s) as [[p1 [o1|]]|] eqn:E1; cbn [obind fst snd] in Hr; [injection Hr as <- <-; eauto|eapply grows_trans; eauto|discriminate]. }
    induction s using stmt_ind'; intros p p' oo Hr; cbn [PySem.run_s] in Hr.
    - destruct (ev (p_store p) e); [|discriminate]. injection Hr as <- _. split; cbn; [eauto|exists []; now rewrite app_nil_r].
    - destruct (p_store p o) as [[| |]|]; try discriminate. destruct (ev (p_store p) e); [|discriminate]. injection Hr as <- _. split; cbn; [eauto|exists []; now rewrite app_nil_r].
    - destruct (p_store p y) as [[| |]|]; try discriminate. destruct (fields_of y); [|discriminate]. injection Hr as <- _. split; cbn; [eauto|exists []; now rewrite app_nil_r].
    - destruct (ev (p_store p) t) as [v|]; [|discriminate]. cbn [obind] in Hr. destruct (truth v); [exact (KB b H _ _ _ Hr)|exact (KB c H0 _ _ _ Hr)].
    - destruct (ev (p_store p) e) as [v|]; [|discriminate]. injection Hr as <- _. split; cbn; [exists []; now rewrite app_nil_r|]. destruct (truth v); [exists []; now rewrite app_nil_r|eauto].
    - assert (p' = p). { destruct e; try (destruct (ev (p_store p) _); [|discriminate]; cbn in Hr; congruence). destruct (p_store p x); [|discriminate]. congruence. }
      subst. apply grows_refl.
    - injection Hr as <- _. split; cbn; exists []; now rewrite app_nil_r.
  Qed.
  Lemma run_b_grows b : forall p p' o, run_b p b = Some (p', o) -> grows p p'.
  Proof.
    unfold PySem.run_b. induction b as [|s b IH]; intros p p' o Hr; cbn [runs] in Hr; [injection Hr as <- _; apply grows_refl|].
    destruct (run_s p s) as [[p1 [o1|]]|] eqn:E1; cbn [obind fst snd] in Hr; [injection Hr as <- <-; eapply run_grows; eauto|eapply grows_trans; [eapply run_grows; eauto|eauto]|discriminate].
  Qed.
  Lemma grows_log p p' x : grows p p' -> In x (p_log p) -> In x (p_log p').
  Proof. intros [(l & ->) _] H. apply in_or_app. now left. Qed.
  Lemma grows_failed p p' x : grows p p' -> In x (p_failed p) -> In x (p_failed p').
  Proof. intros [_ (l & ->)] H. apply in_or_app. now left. Qed.

  Lemma holds_unique r t v : value_in r t = Some v -> forall b, holds_in r (lit b t) -> truth v = b.
  Proof.
    intros E [] (u & Eu & T); cbn [lit] in Eu; [congruence|]. unfold PySem.value_in in *. cbn [PySem.ev] in Eu. rewrite E in Eu. injection Eu as <-. rewrite truth_bool in T.
    now destruct (truth v).
  Qed.

  Local Arguments holds_unique {r t v} _ b _.
  Lemma J_merge r t v T F S M log0 log : merge_env t T F S = Some M -> value_in r t = Some v -> J r (side (truth v) T F) log -> J r S log0 -> (forall x, In x log0 -> In x log) -> J r M log.
  Proof.
    intros E Vt HT HS Hl k fs' a c cs e u Hk Ha Hin Hcs Hv.
    destruct (merge_shape E Hk) as [K|[(l & K)|(ft & ff & fs & fs1 & K & Em & KT & KF & KS)]]; [apply Hl; eapply HS; eauto|discriminate|]. injection K as <-.
    assert (Old : forall c0, get a fs = Some c0 -> In (cs, e) (as_cv c0) -> In (k, Some a, u) log).
    { intros c0 Hc0 Hin0. apply Hl. destruct KS as [KS| ->]; [|discriminate]. eapply HS; eauto. }
    destruct (merge_dict_spec _ _ _ _ Em a) as [[_ (res & Ef & Eg)]|[_ Eg]]; [|eapply Old; [|exact Hin]; congruence].
    unfold merge_field in Ef. destruct (opt_eqb cval_eqb (get a ft) (get a ff)); [injection Ef as <-; eapply Old; [|exact Hin]; congruence|].
    destruct (merge_val t (get a ft) (get a ff) (get a fs)) as [c'|] eqn:Ev; [|discriminate]. injection Ef as <-. rewrite Ha in Eg. injection Eg as <-.
    destruct (merge_val_cases Ev Hin) as [(b & cs' & c1 & -> & Hs & Hin1)|(c0 & Hc0 & Hin0)]; [|eapply Old; eauto].
    apply Forall_app in Hcs as [Hcs Ht]. apply Forall_inv in Ht. assert (Tb := holds_unique Vt _ Ht). subst b.
    destruct (truth v); cbn [side] in *.
    - eapply HT; eauto.
    - destruct KF as [KF| ->]; [|discriminate]. eapply HT; eauto.
  Qed.

  Definition P_Q (s : stmt) : Prop := forall r st p st' p' o, no_return s -> R r (p_store p) (fst st) -> Q r p st -> tidy_s r st s ->
    proc_s st s = Some st' -> run_s p s = Some (p', o) -> Q r p' st'.

  Lemma block_Q b : Forall P_Q b -> forall r st p st' p' o, all_of no_return b -> R r (p_store p) (fst st) -> Q r p st -> tidy_b r st b ->
    proc_b st b = Some st' -> run_b p b = Some (p', o) -> Q r p' st'.
  Proof.
    induction 1 as [|s b Hs Hb IH]; intros r st p st' p' o HN HR HQ HT EP ER.
    - injection EP as <-. injection ER as <- <-. auto.
    - destruct HN as [N1 N2]. destruct HT as [T1 T2]. unfold Parser.proc_b, PySem.run_b in *. cbn [block runs] in *.
      destruct (proc_s st s) as [st1|] eqn:E1; [|discriminate]. cbn [obind] in EP. destruct (run_s p s) as [[p1 o1]|] eqn:E2; [|discriminate]. cbn [obind snd fst] in ER.
      destruct (@step_R s r st p st1 p1 o1 N1 HR T1 E1 E2) as [-> HR1]. exact (IH r st1 p1 st' p' o N2 HR1 (Hs r st p st1 p1 None N1 HR HQ T1 E1 E2) (T2 _ eq_refl) EP ER).
  Qed.

  Lemma J_set_other r E x s log : J r E log -> (forall fs, s <> SO fs) -> J r (set x s E) log.
  Proof.
    intros H Hs k fs a c cs e v Hk. rewrite get_set in Hk. destruct (word_eqb x k); [exfalso; injection Hk as Hk; exact (Hs _ Hk)|]. eapply H; eauto.
  Qed.
  Lemma J_incl r E log log' : J r E log -> (forall x, In x log -> In x log') -> J r E log'.
  Proof. intros H Hl k fs a c cs e v H1 H2 H3 H4 H5. apply Hl. eapply H; eauto. Qed.
  Lemma assert_eqb_viol r a b : assert_eqb a b = true -> violated r b -> violated r a.
  Proof.
    unfold assert_eqb. rewrite andb_true_iff, (all2_eq _ pex_eqb_iff), pex_eqb_iff. intros [E1 E2] [H1 H2]. split; [now rewrite E1|now rewrite E2].
  Qed.

  Theorem step_Q : forall s, P_Q s.
  Proof.
    induction s using stmt_ind'; intros r [E A] p st' p' oo HN HR HQ HT EP ER; cbn [fst] in *.
    - cbn [Parser.proc_s PySem.run_s ParserSpec.tidy_s fst snd] in *. destruct (proc_e E e) as [e'|] eqn:E1; [|discriminate]. cbn [obind] in EP.
      destruct (is_hole e') eqn:Eh; [discriminate|]. injection EP as <-. destruct (ev (p_store p) e) as [v|] eqn:Ev; [|discriminate]. injection ER as <- <-.
      constructor; cbn [fst snd p_log p_failed]; [|apply (Q_viol HQ)|apply (Q_first HQ)]. apply J_set_other; [|discriminate]. eapply J_incl; [apply (Q_log HQ)|]. intros; apply in_or_app; auto.
    - cbn [Parser.proc_s PySem.run_s ParserSpec.tidy_s fst snd] in *. destruct HT as [T1 T2]. destruct (p_store p o) as [[|ob|]|] eqn:Eo; try discriminate.
      destruct (R_match HR _ Eo) as (s & Es & Hm). assert (Bo : bound o E = true) by (unfold bound; now rewrite Es). rewrite Bo in *. rewrite Es in EP.
      destruct s as [|fs|]; try discriminate. destruct (proc_e E e) as [e'|] eqn:E1; [|discriminate]. injection EP as <-. destruct (ev (p_store p) e) as [v|] eqn:Ev; [|discriminate]. injection ER as <- <-.
      constructor; cbn [fst snd p_log p_failed]; [|apply (Q_viol HQ)|apply (Q_first HQ)].
      assert (Ve := proc_e_sound _ HR T2 E1 Ev).
      intros k fs' a' c cs e0 u Hk Ha Hin Hcs Hu. rewrite get_set in Hk. apply in_or_app. destruct (word_eqb o k) eqn:Eok; [|left; eapply (Q_log HQ); eauto].
      apply word_eqb_iff in Eok. subst k. injection Hk as <-. rewrite get_set in Ha. destruct (word_eqb a a') eqn:Ea; [|left; eapply (Q_log HQ); eauto].
      apply word_eqb_iff in Ea. subst a'. injection Ha as <-. destruct Hin as [[= <- <-]|[]]. right. left. congruence.
    - cbn [Parser.proc_s PySem.run_s ParserSpec.tidy_s fst snd] in *. destruct (get y E) as [[[[]|]| |]|] eqn:Ey; try discriminate.
      assert (x0 = y) by exact (R_hole HR _ Ey). subst x0. destruct (fields_of y) as [vars|]; [|discriminate]. cbn [obind] in EP.
      destruct (p_store p y) as [[v| |]|] eqn:Gy; try discriminate. injection ER as <- <-. destruct (R_arg HR Ey Gy) as (v' & [= <-] & Ry).
      set (Ex := if bound x E then E else set x (SO []) E) in *. destruct (get x Ex) as [[|fs|]|] eqn:Efs; try discriminate. injection EP as <-.
      constructor; cbn [fst snd p_log p_failed]; [|apply (Q_viol HQ)|apply (Q_first HQ)].
      assert (JEx : J r Ex (p_log p)).
      { unfold Ex. destruct (bound x E); [apply (Q_log HQ)|]. intros k fs0 a0 c0 cs0 e0 u0 Hk. rewrite get_set in Hk. destruct (word_eqb x k); [injection Hk as <-; discriminate|]. eapply (Q_log HQ); eauto. }
      intros k fs' a' c cs e0 u Hk Ha Hin Hcs Hu. rewrite get_set in Hk. apply in_or_app. destruct (word_eqb x k) eqn:Exk; [|left; eapply JEx; eauto].
      apply word_eqb_iff in Exk. subst k. injection Hk as <-. rewrite fold_copy in Ha. destruct (mem a' vars) eqn:Em; [|left; eapply JEx; eauto].
      injection Ha as <-. destruct Hin as [[= <- <-]|[]]. right. rewrite value_attr, value_hole, Ry in Hu. cbn [obind] in Hu.
      apply in_flat_map. exists a'. split; [now apply mem_iff|]. rewrite Hu. now left.
    - destruct HT as (T1 & T2 & T3 & T4). destruct HN as [N1 N2]. assert (ER0 := ER). cbn [Parser.proc_s PySem.run_s fst snd] in EP, ER.
      destruct (proc_e E t) as [t'|] eqn:Et; [|discriminate]. cbn [obind] in EP. fold (proc_b (E, A) b) in EP. fold (proc_b (E, A) c) in EP.
      destruct (proc_b (E, A) b) as [T|] eqn:ET; [|discriminate]. cbn [obind] in EP. destruct (proc_b (E, A) c) as [F|] eqn:EF; [|discriminate]. cbn [obind] in EP.
      destruct (merge_env t' (fst T) (fst F) E) as [M|] eqn:EM; [|discriminate]. injection EP as <-. destruct (ev (p_store p) t) as [v|] eqn:Ev; [|discriminate]. cbn [obind] in ER.
      assert (Vt := proc_e_sound _ HR T1 Et Ev).
      assert (HB : Q r p' (side (truth v) T F)).
      { destruct (truth v); cbn [side]; [exact (@block_Q b H r (E, A) p T p' oo N1 HR HQ T2 ET ER)|exact (@block_Q c H0 r (E, A) p F p' oo N2 HR HQ T3 EF ER)]. }
      assert (Hg := run_grows _ _ ER0).
      assert (Hlit : holds_in r (lit (truth v) t')) by (destruct (truth v) eqn:Tv; [exists v; auto|now apply holds_not with v]).
      constructor; cbn [fst snd].
      + eapply J_merge; [exact EM|exact Vt| |apply (Q_log HQ)|intros; eapply grows_log; eauto]. destruct (truth v); exact (Q_log HB).
      + intros a Ha [V1 V2]. unfold merge_assert, add_pre in Ha. rewrite !in_app_iff, !in_map_iff in Ha. destruct Ha as [(a0 & <- & Ha0)|[(a0 & <- & Ha0)|Ha]].
        * cbn [pa_pre pa_cond pa_label] in *. apply Forall_app in V1 as [V1 Vl]. apply Forall_inv in Vl. assert (Tb := holds_unique Vt true Vl). rewrite Tb in HB. cbn [side] in HB.
          apply subtract_sub in Ha0. apply (Q_viol HB Ha0). split; assumption.
        * cbn [pa_pre pa_cond pa_label] in *. apply Forall_app in V1 as [V1 Vl]. apply Forall_inv in Vl. assert (Tb := holds_unique Vt false Vl). rewrite Tb in HB. cbn [side] in HB.
          apply subtract_sub in Ha0. apply (Q_viol HB Ha0). split; assumption.
        * eapply grows_failed; [exact Hg|]. apply (Q_viol HQ Ha). split; assumption.
      + intros l rest Hl. destruct (p_failed p) as [|l0 rest0] eqn:Ef.
        * destruct (Q_first HB Hl) as (a & Ha & [V1 V2] & Hla).
          assert (Ha' : In a (subtract assert_eqb (snd (side (truth v) T F)) A)).
          { destruct (In_subtract assert_eqb A _ _ Ha) as [K|(a0 & Ha0 & Eq)]; [exact K|]. exfalso. assert (K := Q_viol HQ Ha0 (assert_eqb_viol a0 Eq (conj V1 V2))). rewrite Ef in K. exact K. }
          exists (mk_passert (pa_pre a ++ [lit (truth v) t']) (pa_cond a) (pa_label a)). split; [|split; [split; [cbn; apply Forall_app; split; [exact V1|repeat constructor; exact Hlit]|exact V2]|exact Hla]].
          unfold merge_assert, add_pre. rewrite !in_app_iff, !in_map_iff. destruct (truth v); cbn [side lit] in *; [left|right; left]; exists a; auto.
        * destruct Hg as [_ (more & Em)]. rewrite Ef in Em. rewrite Em in Hl. injection Hl as <- _. destruct (Q_first HQ Ef) as (a & Ha & Hv & Hla). exists a.
          split; [|auto]. unfold merge_assert. rewrite !in_app_iff. auto.
    - cbn [Parser.proc_s PySem.run_s ParserSpec.tidy_s fst snd] in *. destruct (proc_e E e) as [e'|] eqn:E1; [|discriminate]. injection EP as <-. destruct (ev (p_store p) e) as [v|] eqn:Ev; [|discriminate]. injection ER as <- <-.
      assert (Ve := proc_e_sound _ HR HT E1 Ev). constructor; cbn [fst snd p_log p_failed]; [apply (Q_log HQ)| |].
      + intros a Ha Hv. apply in_app_iff in Ha as [Ha|[<-|[]]].
        * assert (K := Q_viol HQ Ha Hv). destruct (truth v); [exact K|apply in_or_app; now left].
        * destruct Hv as [_ (u & Eu & Tu)]. cbn [pa_cond] in Eu. assert (u = v) by congruence. subst u. rewrite Tu. apply in_or_app. right. now left.
      + intros l0 rest Hl. destruct (p_failed p) as [|l1 rest1] eqn:Ef.
        * destruct (truth v) eqn:Tv; [discriminate|]. injection Hl as <- _. exists (mk_passert [] e' l). split; [apply in_or_app; right; now left|]. split; [|reflexivity]. split; [constructor|]. exists v. auto.
        * assert (l0 = l1) by (destruct (truth v); cbn in Hl; congruence). subst l1. destruct (Q_first HQ Ef) as (a & Ha & Hv). exists a. split; [apply in_or_app; now left|exact Hv].
    - contradiction.
    - cbn [Parser.proc_s PySem.run_s fst snd] in EP, ER. injection ER as <- <-. destruct (existsb _ _); [discriminate|].
      fold (proc_b (holes ps E, []) body) in EP. destruct (proc_b (holes ps E, []) body) as [[Eb Ab]|]; [|discriminate]. cbn [obind fst snd] in EP. destruct Ab; [|discriminate].
      destruct (last_return body) as [er|]; [|discriminate]. destruct (proc_e Eb er) as [e'|]; [|discriminate]. injection EP as <-.
      constructor; cbn [fst snd p_log p_failed]; [|apply (Q_viol HQ)|apply (Q_first HQ)]. apply J_set_other; [apply (Q_log HQ)|discriminate].
  Qed.

  (** ** Conditions of paths *)
  Lemma shortcut_all r c cs v : shortcut true (value_in r) (c :: cs) = Some v -> truth v = true -> Forall (holds_in r) (c :: cs).
  Proof.
    revert c. induction cs as [|c2 cs IH]; intros c E T; [repeat constructor; exists v; auto|]. cbn [PySem.shortcut] in E.
    destruct (value_in r c) as [u|] eqn:Eu; [|discriminate]. cbn [obind] in E. destruct (truth u) eqn:Tu; cbn [Bool.eqb] in E.
    - constructor; [exists u; auto|]. now apply IH.
    - injection E as <-. congruence.
  Qed.
  Lemma all_shortcut r c cs : Forall (holds_in r) (c :: cs) -> exists v, shortcut true (value_in r) (c :: cs) = Some v /\ truth v = true.
  Proof.
    revert c. induction cs as [|c2 cs IH]; intros c H; apply Forall_cons_iff in H as [(v & Ev & Tv) H2]; [exists v; auto|]. cbn [PySem.shortcut]. rewrite Ev. cbn [obind]. rewrite Tv. cbn [Bool.eqb].
    now apply IH.
  Qed.
  Lemma merge_conds_holds r cs : cs <> [] -> (holds_in r (merge_conds cs) <-> Forall (holds_in r) cs).
  Proof.
    destruct cs as [|c [|c2 cs]]; intros Hne; [easy|cbn; split; [intros H; repeat constructor; exact H|intros H; now apply Forall_inv in H]|]. cbn [merge_conds]. split.
    - intros (v & E & T). now apply shortcut_all with v.
    - intros H. apply all_shortcut in H. exact H.
  Qed.
  Lemma In_paths fs p : In p (paths_of fs) <-> exists cs cases, In (pp_var p, CC cases) fs /\ In (cs, pp_val p) cases /\ cs <> [] /\ pp_cond p = merge_conds cs.
  Proof.
    unfold paths_of. rewrite in_flat_map. split.
    - intros ([k [e|cases]] & Hin & H); cbn [fst snd] in H; [easy|]. apply in_flat_map in H as ([cs e] & Hc & H). cbn [fst snd] in H. destruct cs as [|c cs]; [easy|]. destruct H as [<-|[]].
      exists (c :: cs), cases. cbn. repeat split; auto. discriminate.
    - intros (cs & cases & Hin & Hc & Hne & He). exists (pp_var p, CC cases). split; [exact Hin|]. cbn [fst snd]. apply in_flat_map. exists (cs, pp_val p). split; [exact Hc|]. cbn [fst snd].
      destruct cs; [easy|]. left. destruct p as [c0 k0 v0]. cbn in *. now rewrite He.
  Qed.

  (** ** Unconditional values of the output *)
  Definition copies (out y : word) (E : penv) : Prop := forall fs a c e, get out E = Some (SO fs) -> get a fs = Some c -> In ([], e) (as_cv c) -> e = EAttr (EHole y) a.

  Lemma top_copies out y s st st' : only_in_ifs out s -> copies out y (fst st) -> proc_s st s = Some st' -> copies out y (fst st').
  Proof.
    destruct st as [E A]. intros Ht HC EP. destruct s as [x e|o a e|x z|t b c|e l|e|f ps body]; cbn [Parser.proc_s fst snd only_in_ifs] in *.
    - destruct (proc_e E e) as [e'|]; [|discriminate]. cbn [obind] in EP. destruct (is_hole e'); [discriminate|]. injection EP as <-. cbn [fst].
      intros fs a c e0 Hk. rewrite get_set in Hk. destruct (word_eqb x out); [discriminate|]. apply HC; exact Hk.
    - set (Ex := if bound o E then E else set o (SO []) E) in *. destruct (get o Ex) as [[|fs0|]|]; try discriminate. destruct (proc_e Ex e) as [e'|]; [|discriminate]. injection EP as <-. cbn [fst].
      intros fs a' c e0 Hk. rewrite get_set_other in Hk by exact Ht. apply HC. unfold Ex in Hk. destruct (bound o E); [exact Hk|]. now rewrite get_set_other in Hk by exact Ht.
    - destruct (get z E) as [[[[]|]| |]|]; try discriminate. destruct (fields_of x0) as [vars|]; [|discriminate]. cbn [obind] in EP.
      set (Ex := if bound x E then E else set x (SO []) E) in *. destruct (get x Ex) as [[|fs0|]|]; try discriminate. injection EP as <-. cbn [fst].
      intros fs a' c e0 Hk. rewrite get_set_other in Hk by exact Ht. apply HC. unfold Ex in Hk. destruct (bound x E); [exact Hk|]. now rewrite get_set_other in Hk by exact Ht.
    - destruct (proc_e E t) as [t'|]; [|discriminate]. cbn [obind] in EP. destruct (block _ (E, A) b) as [T|]; [|discriminate]. cbn [obind] in EP. destruct (block _ (E, A) c) as [F|]; [|discriminate]. cbn [obind] in EP.
      destruct (merge_env t' (fst T) (fst F) E) as [M|] eqn:EM; [|discriminate]. injection EP as <-. cbn [fst]. intros fs' a c0 e Hk Ha Hin.
      destruct (merge_shape EM Hk) as [K|[(l & K)|(ft & ff & fs & fs1 & K & Em & KT & KF & KS)]]; [eapply HC; eauto|discriminate|]. injection K as <-.
      assert (Old : forall c0, get a fs = Some c0 -> In ([], e) (as_cv c0) -> e = EAttr (EHole y) a).
      { intros c1 Hc1 Hin1. destruct KS as [KS| ->]; [|discriminate]. eapply HC; eauto. }
      destruct (merge_dict_spec _ _ _ _ Em a) as [[_ (res & Ef & Eg)]|[_ Eg]]; [|eapply Old; [|exact Hin]; congruence].
      unfold merge_field in Ef. destruct (opt_eqb cval_eqb (get a ft) (get a ff)); [injection Ef as <-; eapply Old; [|exact Hin]; congruence|].
      destruct (merge_val t' (get a ft) (get a ff) (get a fs)) as [c'|] eqn:Ev; [|discriminate]. injection Ef as <-. rewrite Ha in Eg. injection Eg as <-.
      destruct (merge_val_cases Ev Hin) as [(b0 & cs' & c1 & Hcs & _)|(c1 & Hc1 & Hin1)]; [destruct cs'; discriminate|eapply Old; eauto].
    - destruct (proc_e E e) as [e'|]; [|discriminate]. injection EP as <-. exact HC.
    - injection EP as <-. exact HC.
    - destruct (existsb _ _); [discriminate|]. destruct (block _ _ body) as [[Eb Ab]|]; [|discriminate]. cbn [obind fst snd] in EP. destruct Ab; [|discriminate].
      destruct (last_return body) as [er|]; [|discriminate]. destruct (proc_e Eb er) as [e'|]; [|discriminate]. injection EP as <-. cbn [fst].
      intros fs a c e0 Hk. rewrite get_set in Hk. destruct (word_eqb f out); [discriminate|]. apply HC; exact Hk.
  Qed.
  Lemma tops_copies out y l : all_of (only_in_ifs out) l -> forall st st', copies out y (fst st) -> proc_b st l = Some st' -> copies out y (fst st').
  Proof.
    unfold Parser.proc_b. induction l as [|s l IH]; intros Ht st st' HC EP; cbn [block] in EP; [now injection EP as <-|]. destruct Ht as [H1 H2].
    destruct (proc_s st s) as [st1|] eqn:E1; [|discriminate]. cbn [obind] in EP. eapply IH; [exact H2|eapply top_copies; eauto|exact EP].
  Qed.

  (** ** Attributes occur once *)
  Definition keys_once (E : penv) : Prop := forall k fs, get k E = Some (SO fs) -> NoDup (map fst fs).
  Lemma set_nodup {A} k (v : A) d : NoDup (map fst d) -> NoDup (map fst (set k v d)).
  Proof. unfold set, dset. apply (dalter_nodup _ word_eqb_iff). Qed.
  Lemma merge_dict_nodup {A} (f : option A -> option A -> option A -> option (option A)) T F : forall S M, NoDup (map fst S) -> merge_dict f T F S = Some M -> NoDup (map fst M).
  Proof.
    unfold merge_dict. generalize (keys_of T F). intros ks. induction ks as [|k ks IH]; intros S M HS E; cbn [fold_left] in E; [now injection E as <-|]. cbn [obind] in E.
    destruct (f (get k T) (get k F) (get k S)) as [res|].
    - cbn [obind] in E. eapply IH; [|exact E]. destruct res; [now apply set_nodup|exact HS].
    - cbn [obind] in E. exfalso. clear -E. induction ks as [|a ks IH]; cbn in E; [discriminate|exact (IH E)].
  Qed.
  Lemma proc_nodup s st st' : keys_once (fst st) -> proc_s st s = Some st' -> keys_once (fst st').
  Proof.
    destruct st as [E A]. intros HC EP. destruct s as [x e|o a e|x z|t b c|e l|e|f ps body]; cbn [Parser.proc_s fst snd] in *.
    - destruct (proc_e E e) as [e'|]; [|discriminate]. cbn [obind] in EP. destruct (is_hole e'); [discriminate|]. injection EP as <-. cbn [fst].
      intros k fs Hk. rewrite get_set in Hk. destruct (word_eqb x k); [discriminate|]. eapply HC; exact Hk.
    - set (Ex := if bound o E then E else set o (SO []) E) in *. assert (HCx : keys_once Ex).
      { unfold Ex. destruct (bound o E); [exact HC|]. intros k fs Hk. rewrite get_set in Hk. destruct (word_eqb o k); [injection Hk as <-; constructor|eapply HC; exact Hk]. }
      destruct (get o Ex) as [[|fs0|]|] eqn:Efs; try discriminate. destruct (proc_e Ex e) as [e'|]; [|discriminate]. injection EP as <-. cbn [fst].
      intros k fs Hk. rewrite get_set in Hk. destruct (word_eqb o k); [injection Hk as <-; apply set_nodup; eapply HCx; exact Efs|eapply HCx; exact Hk].
    - destruct (get z E) as [[[[]|]| |]|]; try discriminate. destruct (fields_of x0) as [vars|]; [|discriminate]. cbn [obind] in EP.
      set (Ex := if bound x E then E else set x (SO []) E) in *. assert (HCx : keys_once Ex).
      { unfold Ex. destruct (bound x E); [exact HC|]. intros k fs Hk. rewrite get_set in Hk. destruct (word_eqb x k); [injection Hk as <-; constructor|eapply HC; exact Hk]. }
      destruct (get x Ex) as [[|fs0|]|] eqn:Efs; try discriminate. injection EP as <-. cbn [fst].
      intros k fs Hk. rewrite get_set in Hk. destruct (word_eqb x k); [|eapply HCx; exact Hk]. injection Hk as <-.
      assert (N0 := HCx _ _ Efs). clear -N0. revert fs0 N0. induction vars as [|a vars IH]; intros fs0 N0; [exact N0|]. cbn [fold_left]. apply IH. now apply set_nodup.
    - destruct (proc_e E t) as [t'|]; [|discriminate]. cbn [obind] in EP. destruct (block _ (E, A) b) as [T|]; [|discriminate]. cbn [obind] in EP. destruct (block _ (E, A) c) as [F|]; [|discriminate]. cbn [obind] in EP.
      destruct (merge_env t' (fst T) (fst F) E) as [M|] eqn:EM; [|discriminate]. injection EP as <-. cbn [fst]. intros k fs' Hk.
      destruct (merge_shape EM Hk) as [K|[(l & K)|(ft & ff & fs & fs1 & K & Em & KT & KF & KS)]]; [eapply HC; eauto|discriminate|]. injection K as <-.
      eapply merge_dict_nodup; [|exact Em]. destruct KS as [KS| ->]; [eapply HC; exact KS|constructor].
    - destruct (proc_e E e) as [e'|]; [|discriminate]. injection EP as <-. exact HC.
    - injection EP as <-. exact HC.
    - destruct (existsb _ _); [discriminate|]. destruct (block _ _ body) as [[Eb Ab]|]; [|discriminate]. cbn [obind fst snd] in EP. destruct Ab; [|discriminate].
      destruct (last_return body) as [er|]; [|discriminate]. destruct (proc_e Eb er) as [e'|]; [|discriminate]. injection EP as <-. cbn [fst].
      intros k fs Hk. rewrite get_set in Hk. destruct (word_eqb f k); [discriminate|]. eapply HC; exact Hk.
  Qed.
  Lemma procs_nodup l : forall st st', keys_once (fst st) -> proc_b st l = Some st' -> keys_once (fst st').
  Proof.
    unfold Parser.proc_b. induction l as [|s l IH]; intros st st' HC EP; cbn [block] in EP; [now injection EP as <-|].
    destruct (proc_s st s) as [st1|] eqn:E1; [|discriminate]. cbn [obind] in EP. eapply IH; [eapply proc_nodup; eauto|exact EP].
  Qed.

  (** ** Whole modules *)
  Definition no_objects (E : penv) : Prop := forall k fs, get k E <> Some (SO fs).
  Lemma holes_get ps : forall E k, get k (holes ps E) = Some (SV (CE (EHole k))) /\ In k ps \/ get k (holes ps E) = get k E /\ ~ In k ps.
  Proof.
    unfold holes. induction ps as [|p ps IH]; intros E k; cbn [fold_left]; [right; auto|]. destruct (IH (set p (SV (CE (EHole p))) E) k) as [[H1 H2]|[H1 H2]]; [left; cbn; auto|].
    rewrite get_set in H1. destruct (word_eqb p k) eqn:Ek.
    - apply word_eqb_iff in Ek. subst p. left. cbn; auto.
    - right. split; [exact H1|]. intros [->|K]; [rewrite word_eqb_refl in Ek; discriminate|contradiction].
  Qed.
  Lemma no_objects_holes ps E : no_objects E -> no_objects (holes ps E).
  Proof. intros H k fs K. destruct (holes_get ps E k) as [[H1 _]|[H1 _]]; rewrite H1 in K; [discriminate|exact (H k fs K)]. Qed.
  Lemma defines_spec pre : all_of defines pre -> all_of no_return pre /\ forall st st', no_objects (fst st) -> proc_b st pre = Some st' -> no_objects (fst st').
  Proof.
    unfold Parser.proc_b. induction pre as [|s pre IH]; intros H; [split; [exact I|now intros st st' Hn [= <-]]|]. destruct H as [H1 H2]. destruct (IH H2) as [IH1 IH2].
    split; [split; [destruct s; easy|exact IH1]|]. intros [E A] st' Hn EP. cbn [block] in EP. destruct (proc_s (E, A) s) as [st1|] eqn:E1; [|discriminate]. cbn [obind] in EP.
    apply (IH2 st1); [|exact EP]. destruct s; try easy; cbn [Parser.proc_s fst snd] in E1.
    - destruct (proc_e E e) as [e'|]; [|discriminate]. cbn [obind] in E1. destruct (is_hole e'); [discriminate|]. injection E1 as <-. cbn [fst].
      intros k fs. rewrite get_set. destruct (word_eqb x k); [discriminate|apply Hn].
    - destruct (existsb _ _); [discriminate|]. destruct (block _ _ body) as [[Eb Ab]|]; [|discriminate]. cbn [obind fst snd] in E1. destruct Ab; [|discriminate].
      destruct (last_return body) as [er|]; [|discriminate]. destruct (proc_e Eb er) as [e'|]; [|discriminate]. injection E1 as <-. cbn [fst].
      intros k fs. rewrite get_set. destruct (word_eqb f k); [discriminate|apply Hn].
  Qed.

  Notation tidy_program := (tidy_program truth v_bool v_const v_attr v_un v_bin v_cmp v_call v_items modes fields_of).
  Notation parse := (parse modes fields_of).
  Notation run := (run truth v_bool v_const v_attr v_un v_bin v_cmp v_call v_items fields_of).
  Lemma start_R iv imports : imports_ok v_const v_attr modes iv imports -> R iv (fun x => option_map (@PV V) (iv x)) (holes imports []).
  Proof.
    intros [H1 H2]. assert (Hin : forall x, In x imports -> get x (holes imports []) = Some (SV (CE (EHole x)))).
    { intros x Hx. destruct (holes_get imports [] x) as [[K _]|[_ K]]; [exact K|contradiction]. }
    constructor.
    - intros x pv. destruct (iv x) as [v|] eqn:Ex; [|discriminate]. intros [= <-]. exists (SV (CE (EHole x))). split; [apply Hin, H1; congruence|].
      exists v. split; [reflexivity|]. exists [], (EHole x). split; [now left|]. split; [constructor|]. now rewrite value_hole.
    - intros x Hx. destruct (H2 x Hx) as [K1 K2]. split; [rewrite (Hin x K1); discriminate|]. intros pv. destruct (iv x) as [v|]; [|discriminate]. intros [= <-]. exists v. split; [reflexivity|].
      intros a u. now apply K2.
    - intros x Hx. rewrite (Hin x (H1 x Hx)). discriminate.
    - intros x y Hx. destruct (holes_get imports [] x) as [[K _]|[K _]]; rewrite K in Hx; [congruence|discriminate].
  Qed.

  Lemma parse_run iv imports pre ps vs b out paths asserts st ret :
    tidy_program iv imports pre ps vs (b ++ [SReturn (EName out)]) -> all_of no_return b ->
    parse imports pre ps (b ++ [SReturn (EName out)]) = Some (paths, asserts) ->
    run iv pre ps vs (b ++ [SReturn (EName out)]) = Some (st, ret) ->
    exists E0 E A fs, no_objects E0 /\ (forall x y, get x E0 = Some (SV (CE (EHole y))) -> y = x) /\ proc_b (E0, []) b = Some (E, A) /\
      R (bindv ps vs iv) (p_store st) E /\ Q (bindv ps vs iv) st (E, A) /\ ret = p_store st out /\ get out E = Some (SO fs) /\
      paths = paths_of fs /\ asserts = map (fun a => mk_xassert (merge_conds (pa_pre a)) (pa_cond a) (pa_label a)) A.
  Proof.
    intros (I1 & I2 & I3 & I4 & I5) Nb EP ER. unfold Parser.parse, PySem.run in *.
    destruct (proc_b (holes imports [], []) pre) as [[Eg Ag]|] eqn:Ep; [|discriminate]. cbn [obind fst] in EP. destruct (existsb _ ps) eqn:Ex; [discriminate|].
    destruct (run_b (mk_pst (fun x => option_map (@PV V) (iv x)) [] []) pre) as [[pg og]|] eqn:Erg; [|discriminate]. cbn [obind fst snd] in ER. destruct og; [discriminate|].
    destruct (length vs =? length ps) eqn:L; [|discriminate]. apply Nat.eqb_eq in L.
    destruct (defines_spec _ I2) as [Np Np2].
    assert (FR : forall l, Forall P_R l) by (intros l; apply Forall_forall; intros s _; apply step_R).
    assert (FQ : forall l, Forall P_Q l) by (intros l; apply Forall_forall; intros s _; apply step_Q).
    destruct (@block_R pre (FR pre) iv (holes imports [], []) (mk_pst (fun x => option_map (@PV V) (iv x)) [] []) (Eg, Ag) pg None Np (start_R I1) I4 Ep Erg) as [_ HRg]. cbn [fst] in HRg.
    assert (Up : forall p, In p ps -> get p Eg = None).
    { intros p Hp. destruct (get p Eg) eqn:Epp; [|reflexivity]. exfalso. assert (K : existsb (fun x => bound x Eg) ps = true); [|congruence].
      apply existsb_exists. exists p. split; [exact Hp|]. unfold bound. now rewrite Epp. }
    assert (HR0 := R_args vs I3 L Up HRg). specialize (I5 _ eq_refl). cbn [fst] in I5. apply tidy_block_app in I5 as [I5 _].
    rewrite proc_b_app in EP. destruct (proc_b (holes ps Eg, []) b) as [[E A]|] eqn:Eb; [|discriminate]. unfold Parser.proc_b in EP at 1. cbn [obind block Parser.proc_s fst snd] in EP.
    rewrite last_return_app in EP. destruct (get out E) as [[|fs|]|] eqn:Eout; try discriminate. injection EP as <- <-.
    rewrite run_b_app in ER. set (p0 := mk_pst (bind ps vs (p_store pg)) [] []) in *. destruct (run_b p0 b) as [[p1 o1]|] eqn:Erb; [|discriminate]. cbn [obind fst snd] in ER.
    assert (N0 : no_objects Eg). { apply (Np2 (holes imports [], []) (Eg, Ag)); [cbn [fst]; apply no_objects_holes; intros k fs0; discriminate|exact Ep]. }
    assert (N1 := no_objects_holes ps N0).
    assert (HQ0 : Q (bindv ps vs iv) p0 (holes ps Eg, [])).
    { constructor; cbn [fst snd p_failed p0]; [|easy|discriminate]. intros k fs0 a c cs e v Hk. exfalso. exact (N1 _ _ Hk). }
    destruct (@block_R b (FR b) (bindv ps vs iv) (holes ps Eg, []) p0 (E, A) p1 o1 Nb HR0 I5 Eb Erb) as [-> HR1].
    assert (HQ1 := @block_Q b (FQ b) (bindv ps vs iv) (holes ps Eg, []) p0 (E, A) p1 None Nb HR0 HQ0 I5 Eb Erb).
    unfold PySem.run_b in ER. cbn [runs PySem.run_s] in ER. destruct (p_store p1 out) as [pv|] eqn:Epo; [|discriminate]. cbn [obind fst snd] in ER. injection ER as <- <-.
    exists (holes ps Eg), E, A, fs. split; [exact N1|]. split; [apply (R_hole HR0)|]. split; [exact Eb|]. split; [exact HR1|]. split; [exact HQ1|]. auto.
  Qed.

  Lemma paths_complete iv imports pre ps vs rest out y paths asserts st o a v :
    tidy_program iv imports pre ps vs (SCopy out y :: rest ++ [SReturn (EName out)]) -> all_of no_return rest -> all_of (only_in_ifs out) rest ->
    parse imports pre ps (SCopy out y :: rest ++ [SReturn (EName out)]) = Some (paths, asserts) ->
    run iv pre ps vs (SCopy out y :: rest ++ [SReturn (EName out)]) = Some (st, Some (PO o)) -> o a = Some v ->
    covered truth v_bool v_const v_attr v_un v_bin v_cmp v_call v_items (bindv ps vs iv) y paths a v.
  Proof.
    change (SCopy out y :: rest ++ [SReturn (EName out)]) with ((SCopy out y :: rest) ++ [SReturn (EName out)]). intros HT HN HO EP ER Ho.
    destruct (@parse_run iv imports pre ps vs (SCopy out y :: rest) out paths asserts st (Some (PO o)) HT (conj I HN) EP ER) as (E0 & E & A & fs & N0 & H0 & Eb & HR & HQ & Eret & Eout & -> & ->).
    symmetry in Eret. destruct (R_match HR _ Eret) as (s & Es & M). rewrite Eout in Es. injection Es as <-. destruct M as (o' & [= <-] & Hd).
    destruct (Hd a v Ho) as (c & Hc & cs & e & Hin & Hcs & Hv).
    unfold Parser.proc_b in Eb. cbn [block] in Eb. destruct (proc_s (E0, []) (SCopy out y)) as [[E1 A1]|] eqn:E1e; [|discriminate]. cbn [obind] in Eb.
    assert (HC1 : copies out y E1).
    { cbn [Parser.proc_s fst snd] in E1e. destruct (get y E0) as [[[[]|]| |]|] eqn:Ey; try discriminate. rewrite (H0 _ _ Ey) in E1e. destruct (fields_of y) as [vars|]; [|discriminate]. cbn [obind] in E1e.
      set (Ex := if bound out E0 then E0 else set out (SO []) E0) in *. destruct (get out Ex) as [[|fs0|]|] eqn:Ef0; try discriminate. injection E1e as <- <-.
      assert (Efs : fs0 = []). { unfold Ex in Ef0. destruct (bound out E0); [exfalso; exact (N0 _ _ Ef0)|]. rewrite get_set_same in Ef0. congruence. }
      subst fs0. intros fs1 a1 c1 e1 Hk Ha Hin1. rewrite get_set_same in Hk. injection Hk as <-. rewrite fold_copy in Ha. destruct (mem a1 vars); [|discriminate]. injection Ha as <-.
      destruct Hin1 as [[= <-]|[]]. reflexivity. }
    assert (HC : copies out y E) by exact (@tops_copies out y rest HO (E1, A1) (E, A) HC1 Eb).
    destruct cs as [|c0 cs].
    - right. assert (e = EAttr (EHole y) a) by exact (HC _ _ _ _ Eout Hc Hin). subst e. rewrite value_attr, value_hole in Hv.
      destruct (bindv ps vs iv y) as [u|]; [|discriminate]. exists u. auto.
    - left. exists (mk_ppath (merge_conds (c0 :: cs)) a e). split; [|split; [reflexivity|split; [|exact Hv]]].
      + apply In_paths. destruct c as [e1|cases]; [destruct Hin as [K|[]]; discriminate|]. exists (c0 :: cs), cases. cbn [pp_var pp_val pp_cond]. repeat split; [|exact Hin|discriminate].
        unfold get in Hc. now apply (dget_In _ word_eqb_iff) in Hc.
      + apply merge_conds_holds; [discriminate|exact Hcs].
  Qed.

  Lemma paths_sound iv imports pre ps vs b out paths asserts st ret p v :
    tidy_program iv imports pre ps vs (b ++ [SReturn (EName out)]) -> all_of no_return b ->
    parse imports pre ps (b ++ [SReturn (EName out)]) = Some (paths, asserts) ->
    run iv pre ps vs (b ++ [SReturn (EName out)]) = Some (st, ret) ->
    In p paths -> holds_in (bindv ps vs iv) (pp_cond p) -> value_in (bindv ps vs iv) (pp_val p) = Some v -> In (out, Some (pp_var p), v) (p_log st).
  Proof.
    intros HT HN EP ER Hp Hc Hv. destruct (@parse_run iv imports pre ps vs b out paths asserts st ret HT HN EP ER) as (E0 & E & A & fs & N0 & H0 & Eb & HR & HQ & Eret & Eout & -> & ->).
    apply In_paths in Hp as (cs & cases & Hin & Hcs & Hne & Ec). rewrite Ec in Hc. apply merge_conds_holds in Hc; [|exact Hne].
    assert (ND : NoDup (map fst fs)).
    { eapply (@procs_nodup b (E0, []) (E, A)); [|exact Eb|exact Eout]. intros k fs0 K. exfalso. exact (N0 _ _ K). }
    eapply (Q_log HQ) with (c := CC cases); [exact Eout| |exact Hcs|exact Hc|exact Hv]. unfold get. now apply (In_dget _ word_eqb_iff).
  Qed.

  Lemma asserts_sound iv imports pre ps vs b out paths asserts st ret x :
    tidy_program iv imports pre ps vs (b ++ [SReturn (EName out)]) -> all_of no_return b ->
    parse imports pre ps (b ++ [SReturn (EName out)]) = Some (paths, asserts) ->
    run iv pre ps vs (b ++ [SReturn (EName out)]) = Some (st, ret) ->
    In x asserts -> broken truth v_bool v_const v_attr v_un v_bin v_cmp v_call v_items (bindv ps vs iv) x -> In (xa_label x) (p_failed st).
  Proof.
    intros HT HN EP ER Hx [Hp Hf]. destruct (@parse_run iv imports pre ps vs b out paths asserts st ret HT HN EP ER) as (E0 & E & A & fs & N0 & H0 & Eb & HR & HQ & Eret & Eout & -> & ->).
    apply in_map_iff in Hx as (a & <- & Ha). cbn [xa_pre xa_cond xa_label] in *. apply (Q_viol HQ); [exact Ha|]. split; [|exact Hf].
    destruct (pa_pre a) eqn:Epre; [constructor|]. rewrite <- Epre in *. apply merge_conds_holds; [congruence|exact Hp].
  Qed.
  Lemma asserts_complete iv imports pre ps vs b out paths asserts st ret l more :
    truth (v_const (w "True")) = true ->
    tidy_program iv imports pre ps vs (b ++ [SReturn (EName out)]) -> all_of no_return b ->
    parse imports pre ps (b ++ [SReturn (EName out)]) = Some (paths, asserts) ->
    run iv pre ps vs (b ++ [SReturn (EName out)]) = Some (st, ret) ->
    p_failed st = l :: more -> exists x, In x asserts /\ broken truth v_bool v_const v_attr v_un v_bin v_cmp v_call v_items (bindv ps vs iv) x /\ xa_label x = l.
  Proof.
    intros Htrue HT HN EP ER Hl. destruct (@parse_run iv imports pre ps vs b out paths asserts st ret HT HN EP ER) as (E0 & E & A & fs & N0 & H0 & Eb & HR & HQ & Eret & Eout & -> & ->).
    destruct (Q_first HQ Hl) as (a & Ha & [Hp Hf] & Hla). exists (mk_xassert (merge_conds (pa_pre a)) (pa_cond a) (pa_label a)). split; [apply in_map_iff; exists a; auto|].
    split; [|exact Hla]. split; [|exact Hf]. cbn [xa_pre]. destruct (pa_pre a) eqn:Epre; [exists (v_const (w "True")); split; [reflexivity|exact Htrue]|].
    rewrite <- Epre in *. apply merge_conds_holds; [congruence|exact Hp].
  Qed.

  (** A helper function whose only return is its last statement. *)
  Lemma helper_value iv imports f ps body E A e st d vs v :
    imports_ok v_const v_attr modes iv imports -> tidy_s iv (holes imports [], []) (SDef f ps body) ->
    proc_s (holes imports [], []) (SDef f ps body) = Some (E, A) -> get f E = Some (SL ps e) ->
    run_s (mk_pst (fun x => option_map (@PV V) (iv x)) [] []) (SDef f ps body) = Some (st, None) -> p_store st f = Some (PF d) ->
    d vs = Some v -> value_in (bindv ps vs iv) e = Some v.
  Proof.
    intros HI HT EP Ef ER Ed Hv. destruct (@step_R (SDef f ps body) iv (holes imports [], []) (mk_pst (fun x => option_map (@PV V) (iv x)) [] []) (E, A) st None I (start_R HI) HT EP ER) as [_ HR].
    destruct (R_match HR _ Ed) as (s & Es & M). cbn [fst] in Es. rewrite Ef in Es. injection Es as <-. destruct M as (d' & [= <-] & Hd). now apply Hd.
  Qed.

  (** Filters. *)
  Lemma red_value r ex body x iter : value_in r (ERed ex body x iter) = do l <- value_in r iter; do items <- v_items l; quantify ex (fun _ => Some (v_bool true)) (fun u => value_in (upd r x u) body) items.
  Proof.
    unfold PySem.value_in at 1. cbn [PySem.ev]. fold (value_in r iter). destruct (value_in r iter) as [l|]; [|reflexivity]. cbn [obind]. destruct (v_items l) as [items|]; [|reflexivity]. cbn [obind].
    induction items as [|u items IH]; [reflexivity|]. cbn [PySem.quantify obind]. rewrite truth_bool.
    assert (K : ev (upd (fun y => option_map (@PV V) (r y)) x (PV u)) body = value_in (upd r x u) body).
    { destruct (value_in (upd r x u) body) as [v|] eqn:E; [now apply (value_under truth v_bool v_const v_attr v_un v_bin v_cmp v_call v_items)|].
      destruct (ev _ body) as [v|] eqn:E2; [|reflexivity]. apply (value_under truth v_bool v_const v_attr v_un v_bin v_cmp v_call v_items) in E2. congruence. }
    rewrite K. destruct (value_in (upd r x u) body); [|reflexivity]. cbn [obind]. destruct (Bool.eqb (truth v) ex); [reflexivity|]. exact IH.
  Qed.
  Lemma gen_value r ex body x iter ifs : value_in r (EGen ex body x iter ifs) = do l <- value_in r iter; do items <- v_items l; quantify ex (fun u => value_in (upd r x u) (EBool true ifs)) (fun u => value_in (upd r x u) body) items.
  Proof.
    unfold PySem.value_in at 1. cbn [PySem.ev]. fold (value_in r iter). destruct (value_in r iter) as [l|]; [|reflexivity]. cbn [obind]. destruct (v_items l) as [items|]; [|reflexivity]. cbn [obind].
    induction items as [|u items IH]; [reflexivity|]. cbn [PySem.quantify obind].
    assert (K : forall e, ev (upd (fun y => option_map (@PV V) (r y)) x (PV u)) e = value_in (upd r x u) e).
    { intros e. destruct (value_in (upd r x u) e) as [v|] eqn:E; [now apply (value_under truth v_bool v_const v_attr v_un v_bin v_cmp v_call v_items)|].
      destruct (ev _ e) as [v|] eqn:E2; [|reflexivity]. apply (value_under truth v_bool v_const v_attr v_un v_bin v_cmp v_call v_items) in E2. congruence. }
    change (shortcut true (ev (upd (fun y => option_map (@PV V) (r y)) x (PV u))) ifs) with (ev (upd (fun y => option_map (@PV V) (r y)) x (PV u)) (EBool true ifs)).
    rewrite !K. destruct (value_in (upd r x u) (EBool true ifs)) as [k|]; [|reflexivity]. cbn [obind]. destruct (truth k); [|exact IH].
    destruct (value_in (upd r x u) body); [|reflexivity]. cbn [obind]. destruct (Bool.eqb (truth v) ex); [reflexivity|]. exact IH.
  Qed.
  Lemma filter_value r ex b x i ifs : ifs <> [] ->
    (forall l items u, value_in r i = Some l -> v_items l = Some items -> In u items -> (exists v, value_in (upd r x u) b = Some v) /\ (exists v, value_in (upd r x u) (EBool true ifs) = Some v)) ->
    value_in r (ERed ex (if ex then EBool true [b; EBool true ifs] else EBool false [b; ENot (EBool true ifs)]) x i) = value_in r (EGen ex b x i ifs).
  Proof.
    intros Hne Hev. rewrite red_value, gen_value. destruct (value_in r i) as [l|] eqn:El; [|reflexivity]. cbn [obind]. destruct (v_items l) as [items|] eqn:Ei; [|reflexivity]. cbn [obind].
    specialize (Hev l items). assert (Hev' : forall u, In u items -> (exists v, value_in (upd r x u) b = Some v) /\ (exists v, value_in (upd r x u) (EBool true ifs) = Some v)) by (intros; auto). clear Hev El Ei.
    induction items as [|u items IH]; [reflexivity|]. cbn [PySem.quantify obind]. rewrite truth_bool.
    destruct (Hev' u (or_introl eq_refl)) as [(vb & Eb) (vk & Ek)]. assert (IH' := IH (fun u' Hu => Hev' u' (or_intror Hu))). rewrite Ek. cbn [obind].
    assert (Kb : value_in (upd r x u) (if ex then EBool true [b; EBool true ifs] else EBool false [b; ENot (EBool true ifs)])
                 = Some (if ex then (if truth vb then vk else vb) else (if truth vb then vb else v_bool (negb (truth vk))))).
    { destruct ex.
      - change (shortcut true (value_in (upd r x u)) [b; EBool true ifs] = Some (if truth vb then vk else vb)). cbn [PySem.shortcut]. rewrite Eb. cbn [obind]. destruct (truth vb); cbn [Bool.eqb]; [exact Ek|reflexivity].
      - change (shortcut false (value_in (upd r x u)) [b; ENot (EBool true ifs)] = Some (if truth vb then vb else v_bool (negb (truth vk)))). cbn [PySem.shortcut]. rewrite Eb. cbn [obind]. destruct (truth vb); cbn [Bool.eqb]; [reflexivity|].
        change (value_in (upd r x u) (ENot (EBool true ifs))) with (do v <- value_in (upd r x u) (EBool true ifs); Some (v_bool (negb (truth v)))). rewrite Ek. reflexivity. }
    rewrite Kb, Eb. cbn [obind]. destruct ex, (truth vb) eqn:Tb, (truth vk) eqn:Tk; rewrite ?Tb, ?Tk, ?truth_bool; cbn [Bool.eqb negb]; rewrite ?Tb, ?Tk; try exact IH'; reflexivity.
  Qed.
End Progs.
