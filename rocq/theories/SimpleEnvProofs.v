(** Proofs about the arguments of a controller. *)
From Coq Require Import Ascii String.
From Verif Require Import Base BaseFacts Dict PyText ResetProofs Sensor SensorSpec SensorProofs SensorProps SimpleEnv SimpleEnvSpec.
Set Implicit Arguments.
Open Scope nat_scope.

Notation weq := word_eqb_eq.

Lemma dict_ext {V} (a b : dict word V) : map fst a = map fst b -> NoDup (map fst a) -> (forall k, In k (map fst a) -> dget word_eqb k a = dget word_eqb k b) -> a = b.
Proof.
  revert b. induction a as [|[k v] a IH]; intros [|[k' v'] b] E ND H; try discriminate; [reflexivity|]. cbn [map fst] in *. injection E as <- E.
  apply NoDup_cons_iff in ND. destruct ND as [N1 N2].
  pose proof (H k (or_introl eq_refl)) as H0. cbn [dget] in H0. rewrite (eqb_refl' _ weq k) in H0. injection H0 as <-.
  f_equal. apply IH; [exact E|exact N2|]. intros x Hx. specialize (H x (or_intror Hx)). cbn [dget] in H.
  rewrite (eqb_neq' _ weq) in H by (intros ->; contradiction). exact H.
Qed.

(** ** Keys with one dot *)
Lemma split_key thing x : ~ In "."%char thing -> ~ In "."%char x -> split_dot (key thing x) = Some (thing, x).
Proof.
  intros Ht Hx. unfold key. induction thing as [|c r IH]; cbn.
  - replace (existsb _ x) with false; [reflexivity|]. symmetry. apply not_true_is_false. intros E. apply existsb_exists in E. destruct E as (c & Hc & E).
    change (Ascii.eqb "."%char c = true) in E. apply Ascii.eqb_eq in E. subst c. contradiction.
  - cbn in IH. rewrite IH by (intros I; apply Ht; right; exact I). destruct (Ascii.eqb c ".") eqn:E; [apply Ascii.eqb_eq in E; exfalso; apply Ht; left; symmetry; exact (eq_sym E)|reflexivity].
Qed.

(** A dictionary of sensed values, all of whose keys have one dot. *)
Definition dotted {V} (d : dict word V) : Prop := forall k, In k (map fst d) -> exists thing x, ~ In "."%char thing /\ ~ In "."%char x /\ k = key thing x.

(** Adding the names that are not there yet. *)
Definition memb (x : word) (l : list word) : bool := existsb (word_eqb x) l.
Lemma memb_In x l : memb x l = true <-> In x l.
Proof.
  unfold memb. rewrite existsb_exists. split; [intros (y & Hy & E); apply weq in E; now subst|intros H; exists x; split; [exact H|apply weq; reflexivity]].
Qed.
Definition add_name (l : list word) (x : word) : list word := if memb x l then l else l ++ [x].
Lemma add_names_fresh : forall xs l, NoDup (l ++ xs) -> fold_left add_name xs l = l ++ xs.
Proof.
  induction xs as [|x xs IH]; intros l ND; cbn [fold_left]; [now rewrite app_nil_r|].
  unfold add_name at 2. destruct (memb x l) eqn:E.
  - exfalso. apply memb_In in E. apply NoDup_remove_2 in ND. apply ND. apply in_app_iff. now left.
  - rewrite IH; [now rewrite <- app_assoc|]. now rewrite <- app_assoc.
Qed.
Lemma add_names_old : forall xs l, (forall x, In x xs -> In x l) -> fold_left add_name xs l = l.
Proof.
  induction xs as [|x xs IH]; intros l H; cbn [fold_left]; [reflexivity|]. unfold add_name at 2.
  replace (memb x l) with true by (symmetry; apply memb_In; apply H; now left). apply IH. intros y Hy. apply H. now right.
Qed.

(** The names bound for [thing], in order. *)
Definition fkeys {V} (thing : word) (d : dict word V) : list word :=
  flat_map (fun k => match split_dot k with Some (t, x) => if word_eqb t thing then [x] else [] | None => [] end) (map fst d).
Lemma fkeys_In {V} thing (d : dict word V) x : ~ In "."%char thing -> ~ In "."%char x -> dotted d -> In x (fkeys thing d) <-> In (key thing x) (map fst d).
Proof.
  intros Ht Hx Hd. unfold fkeys. rewrite in_flat_map. split.
  - intros (k & Hk & H). destruct (Hd k Hk) as (t' & x' & A & B & ->). rewrite (split_key _ _ A B) in H. destruct (word_eqb t' thing) eqn:E; [|destruct H].
    apply weq in E. subst t'. destruct H as [<-|[]]. exact Hk.
  - intros H. exists (key thing x). split; [exact H|]. rewrite (split_key _ _ Ht Hx), (eqb_refl' _ weq). now left.
Qed.
Lemma fkeys_alter {V} (f : option V -> V) thing' x thing (d : dict word V) : ~ In "."%char thing -> ~ In "."%char thing' -> ~ In "."%char x -> dotted d ->
  fkeys thing (dalter word_eqb f (key thing' x) d) = if word_eqb thing' thing then add_name (fkeys thing d) x else fkeys thing d.
Proof.
  intros Ht Ht' Hx Hd. unfold fkeys at 1. rewrite dalter_keys. unfold dmem. destruct (dget word_eqb (key thing' x) d) eqn:E.
  - fold (fkeys thing d). destruct (word_eqb thing' thing) eqn:Eq; [|reflexivity]. apply weq in Eq. subst thing'. unfold add_name.
    replace (memb x (fkeys thing d)) with true; [reflexivity|]. symmetry. apply memb_In. apply fkeys_In; auto. apply (dget_In _ weq) in E. apply in_map_iff. eexists (_, _). split; [|exact E]. reflexivity.
  - rewrite flat_map_app. cbn [flat_map]. rewrite (split_key _ _ Ht' Hx). fold (fkeys thing d). destruct (word_eqb thing' thing) eqn:Eq; [|now rewrite !app_nil_r].
    apply weq in Eq. subst thing'. unfold add_name. replace (memb x (fkeys thing d)) with false; [reflexivity|]. symmetry. apply not_true_is_false. intros M. apply memb_In in M.
    apply fkeys_In in M; auto. apply (dget_None _ weq) in E. contradiction.
Qed.
Lemma dotted_alter {V} (f : option V -> V) thing x (d : dict word V) : ~ In "."%char thing -> ~ In "."%char x -> dotted d -> dotted (dalter word_eqb f (key thing x) d).
Proof.
  intros Ht Hx Hd k Hk. rewrite dalter_keys in Hk. destruct (dmem word_eqb (key thing x) d); [now apply Hd|]. apply in_app_iff in Hk. destruct Hk as [Hk|[<-|[]]]; [now apply Hd|]. eauto.
Qed.

Definition nodots (l : list word) : Prop := forall x, In x l -> ~ In "."%char x.
Lemma sets_fkeys {V} thing' thing : ~ In "."%char thing -> ~ In "."%char thing' -> forall attrs vals (d : dict word (entry V)), nodots attrs -> length attrs <= length vals -> dotted d ->
  dotted (sets d thing' attrs vals) /\
  fkeys thing (sets d thing' attrs vals) = if word_eqb thing' thing then fold_left add_name attrs (fkeys thing d) else fkeys thing d.
Proof.
  intros Ht Ht'. unfold sets. induction attrs as [|x r IH]; intros [|v vs] d Hn L Hd; cbn [length] in L; try lia; cbn [combine fold_left fst snd].
  - split; [exact Hd|]. destruct (word_eqb thing' thing); reflexivity.
  - split; [exact Hd|]. destruct (word_eqb thing' thing); reflexivity.
  - assert (Hx : ~ In "."%char x) by (apply Hn; now left). destruct (IH vs (dset word_eqb (key thing' x) (One v) d)) as [A B].
    + intros y Hy. apply Hn. now right.
    + lia.
    + now apply dotted_alter.
    + split; [exact A|]. rewrite B. unfold dset. rewrite fkeys_alter by assumption. destruct (word_eqb thing' thing); reflexivity.
Qed.
Lemma adds_fkeys {V} thing' thing : ~ In "."%char thing -> ~ In "."%char thing' -> forall attrs vals (d d' : dict word (entry V)), nodots attrs -> length attrs <= length vals -> dotted d ->
  adds d thing' attrs vals = Some d' ->
  dotted d' /\ fkeys thing d' = if word_eqb thing' thing then fold_left add_name attrs (fkeys thing d) else fkeys thing d.
Proof.
  intros Ht Ht'. unfold adds. induction attrs as [|x r IH]; intros [|v vs] d d' Hn L Hd E; cbn [length] in L; try lia; cbn [combine fold_opt] in E.
  - injection E as <-. split; [exact Hd|]. destruct (word_eqb thing' thing); reflexivity.
  - injection E as <-. split; [exact Hd|]. destruct (word_eqb thing' thing); reflexivity.
  - destruct (add1 thing' d (x, v)) as [d1|] eqn:E1; [|discriminate]. cbn [obind] in E.
    assert (Hx : ~ In "."%char x) by (apply Hn; now left).
    assert (D1 : exists e, d1 = dset word_eqb (key thing' x) e d).
    { unfold add1 in E1. cbn [fst snd] in E1. destruct (dget word_eqb (key thing' x) d) as [[z|l]|]; try discriminate; injection E1 as <-; eauto. }
    destruct D1 as (e & ->). destruct (IH vs (dset word_eqb (key thing' x) e d) d') as [A B].
    + intros y Hy. apply Hn. now right.
    + lia.
    + now apply dotted_alter.
    + exact E.
    + split; [exact A|]. rewrite B. unfold dset. rewrite fkeys_alter by assumption. cbn [fold_left]. destruct (word_eqb thing' thing); reflexivity.
Qed.

(** ** Packing *)
Lemma pack1_spec (d : dict word ns) thing x e : ~ In "."%char thing -> ~ In "."%char x ->
  pack1 d (key thing x, e) = Some (dalter word_eqb (fun o => dset word_eqb x (value_of e) (match o with Some n => n | None => [] end)) thing d).
Proof. intros Ht Hx. unfold pack1. cbn [fst snd]. rewrite (split_key _ _ Ht Hx). reflexivity. Qed.

Definition field (x : word) (o : option ns) : option pyval := do n <- o; dget word_eqb x n.
Definition fields (o : option ns) : list word := match o with Some n => map fst n | None => [] end.
Lemma dset_keys {V} x (v : V) n : map fst (dset word_eqb x v n) = add_name (map fst n) x.
Proof.
  unfold dset. rewrite dalter_keys. unfold dmem, add_name. destruct (dget word_eqb x n) eqn:E.
  - apply (dget_In _ weq) in E. replace (memb x (map fst n)) with true; [reflexivity|]. symmetry. apply memb_In. apply in_map_iff. exists (x, v0). auto.
  - apply (dget_None _ weq) in E. replace (memb x (map fst n)) with false; [reflexivity|]. symmetry. apply not_true_is_false. intros M. apply memb_In in M. contradiction.
Qed.

Lemma pack_fold thing : ~ In "."%char thing -> forall (d : dict word (entry pyval)) (p : dict word ns), dotted d -> NoDup (map fst d) ->
  exists p', fold_opt pack1 d p = Some p' /\
    fields (dget word_eqb thing p') = fold_left add_name (fkeys thing d) (fields (dget word_eqb thing p)) /\
    (dget word_eqb thing p' = None <-> dget word_eqb thing p = None /\ fkeys thing d = []) /\
    forall x, ~ In "."%char x -> field x (dget word_eqb thing p') =
      match dget word_eqb (key thing x) d with Some e => Some (value_of e) | None => field x (dget word_eqb thing p) end.
Proof.
  intros Ht. induction d as [|[k e] d IH]; intros p Hd ND.
  - exists p. cbn. split; [reflexivity|]. split; [reflexivity|]. split; [tauto|]. intros x _. reflexivity.
  - destruct (Hd k (or_introl eq_refl)) as (t & y & A & B & ->). cbn [map fst] in ND. apply NoDup_cons_iff in ND. destruct ND as [N1 N2].
    cbn [fold_opt]. rewrite (@pack1_spec p t y e A B). cbn [obind].
    set (p1 := dalter word_eqb (fun o => dset word_eqb y (value_of e) (match o with Some n => n | None => [] end)) t p).
    assert (Hd' : dotted d) by (intros k Hk; apply Hd; right; exact Hk).
    destruct (IH p1 Hd' N2) as (p' & E & F & Nn & G). exists p'. split; [exact E|].
    assert (P1 : dget word_eqb thing p1 = if word_eqb t thing then Some (dset word_eqb y (value_of e) (match dget word_eqb thing p with Some n => n | None => [] end)) else dget word_eqb thing p).
    { unfold p1. destruct (word_eqb t thing) eqn:Eq; [apply weq in Eq; subst t; apply dget_alter_same; exact weq|]. apply dget_alter_other; [exact weq|]. intros ->. rewrite (eqb_refl' _ weq) in Eq. discriminate. }
    assert (FK : fkeys thing ((key t y, e) :: d) = (if word_eqb t thing then [y] else []) ++ fkeys thing d).
    { unfold fkeys. cbn [map fst flat_map]. rewrite (split_key _ _ A B). reflexivity. }
    split; [|split].
    + rewrite FK, fold_left_app, F, P1. destruct (word_eqb t thing); [|reflexivity]. cbn [fold_left fields]. rewrite dset_keys. destruct (dget word_eqb thing p); reflexivity.
    + rewrite Nn, FK, P1. destruct (word_eqb t thing); [split; [intros [X _]; discriminate|intros [_ X]; discriminate]|]. reflexivity.
    + intros x Hx. rewrite (G x Hx). cbn [dget]. destruct (word_eqb (key thing x) (key t y)) eqn:Eq.
      * apply weq in Eq. apply key_inj in Eq; [|assumption|assumption]. destruct Eq as [<- <-].
        destruct (dget word_eqb (key thing x) d) eqn:Ed; [exfalso; apply N1; apply (dget_In _ weq) in Ed; apply in_map_iff; eexists (_, _); split; [|exact Ed]; reflexivity|].
        rewrite P1, (eqb_refl' _ weq). cbn [field obind]. unfold dset. apply dget_alter_same. exact weq.
      * destruct (dget word_eqb (key thing x) d); [reflexivity|]. rewrite P1. destruct (word_eqb t thing) eqn:Et; [|reflexivity]. apply weq in Et. subst t. cbn [field obind]. unfold dset.
        assert (y <> x) by (intros ->; rewrite (eqb_refl' _ weq) in Eq; discriminate).
        rewrite dget_alter_other by (exact weq || assumption). destruct (dget word_eqb thing p); reflexivity.
Qed.

Lemma pack_spec cont disc : dotted cont -> dotted disc -> NoDup (map fst cont) -> NoDup (map fst disc) ->
  exists p, pack cont disc = Some p /\
    forall thing, ~ In "."%char thing ->
      fields (dget word_eqb thing p) = fold_left add_name (fkeys thing disc) (fold_left add_name (fkeys thing cont) []) /\
      (dget word_eqb thing p = None <-> fkeys thing cont = [] /\ fkeys thing disc = []) /\
      forall x, ~ In "."%char x -> field x (dget word_eqb thing p) =
        match dget word_eqb (key thing x) disc with Some e => Some (value_of e) | None => option_map value_of (dget word_eqb (key thing x) cont) end.
Proof.
  intros Hc Hd Nc Nd. unfold pack.
  destruct (@pack_fold [] (fun x => x) cont [] Hc Nc) as (p1 & E1 & _). rewrite E1. cbn [obind].
  destruct (@pack_fold [] (fun x => x) disc p1 Hd Nd) as (p2 & E2 & _). exists p2. split; [exact E2|]. intros thing Ht.
  destruct (@pack_fold thing Ht cont [] Hc Nc) as (q1 & F1 & A1 & B1 & C1). rewrite E1 in F1. injection F1 as <-.
  destruct (@pack_fold thing Ht disc p1 Hd Nd) as (q2 & F2 & A2 & B2 & C2). rewrite E2 in F2. injection F2 as <-.
  split; [rewrite A2, A1; reflexivity|]. split.
  - rewrite B2, B1. cbn. tauto.
  - intros x Hx. rewrite (C2 x Hx), (C1 x Hx). cbn [dget field obind]. destruct (dget word_eqb (key thing x) disc), (dget word_eqb (key thing x) cont); reflexivity.
Qed.

(** ** The names that are sensed, in order *)
Lemma sets_nodup {V} thing : forall attrs vals (d : dict word (entry V)), NoDup (map fst d) -> NoDup (map fst (sets d thing attrs vals)).
Proof. unfold sets. induction attrs as [|x r IH]; intros [|v vs] d H; cbn [combine fold_left fst snd]; try exact H. apply IH. apply dalter_nodup; [exact weq|exact H]. Qed.
Lemma adds_nodup {V} thing : forall attrs vals (d d' : dict word (entry V)), NoDup (map fst d) -> adds d thing attrs vals = Some d' -> NoDup (map fst d').
Proof.
  unfold adds. induction attrs as [|x r IH]; intros [|v vs] d d' H E; cbn [combine fold_opt] in E; try (injection E as <-; exact H).
  destruct (add1 thing d (x, v)) as [d1|] eqn:E1; [|discriminate]. cbn [obind] in E. apply (IH vs d1 d'); [|exact E].
  unfold add1 in E1. cbn [fst snd] in E1. destruct (dget word_eqb (key thing x) d) as [[z|l]|]; try discriminate; injection E1 as <-; (apply dalter_nodup; [exact weq|exact H]).
Qed.

Section Keys.
  Variables St V D : Type.
  Variable values : St -> option (list V).
  Variables (args : list arg) (defs : dict word sdef) (me : nat).
  Variables (te to name : word) (de od : sdef).
  Hypothesis He : ego_type args = Some te.
  Hypothesis Hde : dget word_eqb te defs = Some de.
  Hypothesis Ho : other_arg args = Some (name, to).
  Hypothesis Hdo : dget word_eqb to defs = Some od.
  Hypothesis Nname : ~ In "."%char name.
  Hypothesis NDe : NoDup (s_cont de ++ s_disc de ++ s_stat de).
  Hypothesis NDo : NoDup (s_cont od ++ s_disc od ++ s_stat od).
  Hypothesis Dote : nodots (s_cont de ++ s_disc de ++ s_stat de).
  Hypothesis Doto : nodots (s_cont od ++ s_disc od ++ s_stat od).

  (** All or nothing of [l] is bound. *)
  Definition whole {X} (d : dict word (entry X)) (thing : word) (l : list word) : Prop := fkeys thing d = [] \/ fkeys thing d = l.
  Definition keys_ok (vw : views V D) : Prop :=
    (dotted (fst vw) /\ NoDup (map fst (fst vw)) /\ whole (fst vw) (w "ego") (s_cont de) /\ whole (fst vw) name (s_cont od)) /\
    (dotted (snd vw) /\ NoDup (map fst (snd vw)) /\ whole (snd vw) (w "ego") (s_disc de ++ s_stat de) /\ whole (snd vw) name (s_disc od ++ s_stat od)).

  Lemma nodup_parts (a b c : list word) : NoDup (a ++ b ++ c) -> NoDup a /\ NoDup b /\ NoDup c /\ NoDup (b ++ c).
  Proof.
    intros H. assert (A : forall l m : list word, NoDup (l ++ m) -> NoDup l /\ NoDup m).
    { induction l as [|x l IH]; intros m N; cbn in N; [split; [constructor|exact N]|]. apply NoDup_cons_iff in N. destruct N as [N1 N2]. destruct (IH m N2) as [I1 I2]. split; [|exact I2].
      constructor; [intros I; apply N1; apply in_app_iff; now left|exact I1]. }
    destruct (A _ _ H) as [H1 H2]. destruct (A _ _ H2) as [H3 H4]. auto.
  Qed.
  Lemma nodots_parts (a b c : list word) : nodots (a ++ b ++ c) -> nodots a /\ nodots b /\ nodots c.
  Proof. intros H. repeat split; intros x Hx; apply H; rewrite !in_app_iff; auto. Qed.

  Lemma word_eqb_sym_neq a b : a <> b -> word_eqb a b = false.
  Proof. intros H. apply (eqb_neq' _ weq). exact H. Qed.

  Lemma whole_once (l0 l : list word) : NoDup l -> l0 = [] \/ l0 = l -> fold_left add_name l l0 = l.
  Proof. intros N [-> | ->]; [now rewrite add_names_fresh|]. apply add_names_old. auto. Qed.
  Lemma whole_twice (l0 l m : list word) : NoDup (l ++ m) -> l0 = [] \/ l0 = l ++ m -> fold_left add_name m (fold_left add_name l l0) = l ++ m.
  Proof.
    intros N H. assert (E : fold_left add_name (l ++ m) l0 = l ++ m) by (apply whole_once; assumption). now rewrite fold_left_app in E.
  Qed.

  Lemma keys_step vw p vw' : keys_ok vw -> sense1 values args defs me vw p = Some vw' ->
    (fst p = me -> fits values de (snd p)) -> (fst p <> me -> fits values od (snd p)) -> keys_ok vw' /\
    (fst p = me -> fkeys name (fst vw') = fkeys name (fst vw) /\ fkeys name (snd vw') = fkeys name (snd vw)).
  Proof.
    intros [(A1 & A2 & A3 & A4) (B1 & B2 & B3 & B4)] E F1 F2. destruct p as [aid [[st m] sta]]. cbn [fst snd] in *.
    assert (Nne : name <> w "ego") by (eapply name_not_ego; eassumption). assert (Ego : ~ In "."%char (w "ego")) by (cbn; intuition discriminate).
    destruct (nodup_parts _ _ _ NDe) as (Ne1 & Ne2 & Ne3 & Ne4). destruct (nodup_parts _ _ _ NDo) as (No1 & No2 & No3 & No4).
    destruct (nodots_parts _ _ _ Dote) as (De1 & De2 & De3). destruct (nodots_parts _ _ _ Doto) as (Do1 & Do2 & Do3).
    unfold sense1 in E. destruct (aid =? me) eqn:Ea.
    - apply Nat.eqb_eq in Ea. rewrite He, Hde in E. cbn [obind] in E. destruct (F1 Ea) as (V0 & V1 & V2 & V3). unfold cont_of, mode_of, stat_of in V1, V2, V3. cbn [fst snd] in V0, V1, V2, V3.
      destruct (values st) as [vals|]; [|contradiction]. cbn [obind] in E. assert (Ev : forall a : views V D, Some a = Some vw' -> vw' = a) by congruence. apply Ev in E. clear Ev. subst vw'. unfold keys_ok. cbn [fst snd].
      destruct (@sets_fkeys V (w "ego") (w "ego") Ego Ego (s_cont de) vals (fst vw) De1 V1 A1) as [X1 X2]. rewrite (eqb_refl' _ weq) in X2.
      destruct (@sets_fkeys V (w "ego") name Nname Ego (s_cont de) vals (fst vw) De1 V1 A1) as [_ X3]. rewrite word_eqb_sym_neq in X3 by auto.
      destruct (@sets_fkeys D (w "ego") (w "ego") Ego Ego (s_disc de) m (snd vw) De2 V2 B1) as [Y1 Y2]. rewrite (eqb_refl' _ weq) in Y2.
      destruct (@sets_fkeys D (w "ego") name Nname Ego (s_disc de) m (snd vw) De2 V2 B1) as [_ Y3]. rewrite word_eqb_sym_neq in Y3 by auto.
      destruct (@sets_fkeys D (w "ego") (w "ego") Ego Ego (s_stat de) sta _ De3 V3 Y1) as [Z1 Z2]. rewrite (eqb_refl' _ weq) in Z2.
      destruct (@sets_fkeys D (w "ego") name Nname Ego (s_stat de) sta _ De3 V3 Y1) as [_ Z3]. rewrite word_eqb_sym_neq in Z3 by auto.
      split; [|intros _; split; [exact X3|rewrite Z3; exact Y3]]. split.
      + split; [exact X1|]. split; [now apply sets_nodup|]. split; [right; transitivity (fold_left add_name (s_cont de) (fkeys (w "ego") (fst vw))); [exact X2|now apply whole_once]|]. unfold whole. rewrite X3. exact A4.
      + split; [exact Z1|]. split; [now apply sets_nodup, sets_nodup|]. split; [right; rewrite Y2 in Z2; etransitivity; [exact Z2|now apply whole_twice]|]. unfold whole. rewrite Z3, Y3. exact B4.
    - apply Nat.eqb_neq in Ea. rewrite Ho, Hdo in E. cbn [obind] in E. destruct (F2 Ea) as (V0 & V1 & V2 & V3). unfold cont_of, mode_of, stat_of in V1, V2, V3. cbn [fst snd] in V0, V1, V2, V3.
      destruct (values st) as [vals|]; [|contradiction]. cbn [obind] in E.
      destruct (adds (fst vw) name (s_cont od) vals) as [c|] eqn:E1; [|discriminate]. cbn [obind] in E.
      destruct (adds (snd vw) name (s_disc od) m) as [d1|] eqn:E2; [|discriminate]. cbn [obind] in E.
      destruct (adds d1 name (s_stat od) sta) as [d2|] eqn:E3; [|discriminate]. cbn [obind] in E. assert (Ev : forall a : views V D, Some a = Some vw' -> vw' = a) by congruence. apply Ev in E. clear Ev. subst vw'. unfold keys_ok. cbn [fst snd].
      destruct (@adds_fkeys V name name Nname Nname (s_cont od) vals _ _ Do1 V1 A1 E1) as [X1 X2]. rewrite (eqb_refl' _ weq) in X2.
      destruct (@adds_fkeys V name (w "ego") Ego Nname (s_cont od) vals _ _ Do1 V1 A1 E1) as [_ X3]. rewrite word_eqb_sym_neq in X3 by auto.
      destruct (@adds_fkeys D name name Nname Nname (s_disc od) m _ _ Do2 V2 B1 E2) as [Y1 Y2]. rewrite (eqb_refl' _ weq) in Y2.
      destruct (@adds_fkeys D name (w "ego") Ego Nname (s_disc od) m _ _ Do2 V2 B1 E2) as [_ Y3]. rewrite word_eqb_sym_neq in Y3 by auto.
      destruct (@adds_fkeys D name name Nname Nname (s_stat od) sta _ _ Do3 V3 Y1 E3) as [Z1 Z2]. rewrite (eqb_refl' _ weq) in Z2.
      destruct (@adds_fkeys D name (w "ego") Ego Nname (s_stat od) sta _ _ Do3 V3 Y1 E3) as [_ Z3]. rewrite word_eqb_sym_neq in Z3 by auto.
      split; [|intros C; contradiction]. split.
      + split; [exact X1|]. split; [exact (@adds_nodup _ _ _ _ _ _ A2 E1)|]. split; [unfold whole; rewrite X3; exact A3|]. right. etransitivity; [exact X2|now apply whole_once].
      + split; [exact Z1|]. split; [exact (@adds_nodup _ _ _ _ _ _ (@adds_nodup _ _ _ _ _ _ B2 E2) E3)|]. split; [unfold whole; rewrite Z3, Y3; exact B3|]. right. rewrite Y2 in Z2. etransitivity; [exact Z2|now apply whole_twice].
  Qed.

  Lemma keys_fold : forall states vw vw', keys_ok vw -> fold_opt (sense1 values args defs me) states vw = Some vw' ->
    (forall a, In (me, a) states -> fits values de a) -> (forall i a, In (i, a) states -> i <> me -> fits values od a) ->
    keys_ok vw' /\ ((forall i a, In (i, a) states -> i = me) -> fkeys name (fst vw') = fkeys name (fst vw) /\ fkeys name (snd vw') = fkeys name (snd vw)).
  Proof.
    induction states as [|p states IH]; intros vw vw' K E F1 F2; cbn [fold_opt] in E; [injection E as <-; auto|].
    destruct (sense1 values args defs me vw p) as [vw1|] eqn:E1; [|discriminate]. cbn [obind] in E.
    destruct (@keys_step vw p vw1 K E1) as [K1 K2].
    - destruct p as [i a]; cbn [fst snd]. intros ->. apply F1. now left.
    - destruct p as [i a]; cbn [fst snd]. intros Hi. apply (F2 i); [now left|exact Hi].
    - destruct (IH vw1 vw' K1 E) as [K3 K4]; [intros a Ha; apply F1; now right|intros i a Ha Hi; apply (F2 i); [now right|exact Hi]|]. split; [exact K3|].
      intros H. destruct K4 as [-> ->]; [intros i a Ha; apply (H i a); now right|]. apply K2. destruct p as [i a]. apply (H i a). now left.
  Qed.
  Lemma keys_start : keys_ok ([], []).
  Proof. unfold keys_ok, whole, dotted. cbn. repeat split; try constructor; try (intros k []); reflexivity. Qed.
End Keys.

Lemma whole_bound {X} (d : dict word (entry X)) thing l : ~ In "."%char thing -> nodots l -> dotted d -> whole d thing l ->
  (forall x, In x l -> dget word_eqb (key thing x) d <> None) -> fkeys thing d = l.
Proof.
  intros Ht Hl Hd [E|E] H; [|exact E]. destruct l as [|x l]; [exact E|]. exfalso. apply (H x); [now left|]. apply (dget_None _ weq). intros I.
  apply (@fkeys_In _ thing d x) in I; [|exact Ht|apply Hl; now left|exact Hd]. rewrite E in I. exact I.
Qed.

(** ** The view of one agent before the conversion *)
Definition raw (d : fdef) (a : cstate) : ns :=
  combine (s_cont (f_vars d)) (tl (fst (fst a))) ++ combine (s_disc (f_vars d)) (snd (fst a)) ++ combine (s_stat (f_vars d)) (snd a).
Definition enough (d : fdef) (a : cstate) : Prop :=
  length (s_cont (f_vars d)) <= length (tl (fst (fst a))) /\ length (s_disc (f_vars d)) <= length (snd (fst a)) /\ length (s_stat (f_vars d)) <= length (snd a).

Lemma combine_fst {A B} : forall (l : list A) (m : list B), length l <= length m -> map fst (combine l m) = l.
Proof. induction l as [|x l IH]; intros [|y m] H; cbn in *; try lia; [reflexivity|reflexivity|]. f_equal. apply IH. lia. Qed.
Lemma raw_keys d a : enough d a -> map fst (raw d a) = names d.
Proof. intros (A & B & C). unfold raw, names. rewrite !map_app, !combine_fst by assumption. reflexivity. Qed.
Lemma combine_get {B} : forall (l : list word) (m : list B) j x v, NoDup l -> nth_error l j = Some x -> nth_error m j = Some v -> dget word_eqb x (combine l m) = Some v.
Proof.
  induction l as [|y l IH]; intros [|u m] [|j] x v ND Hx Hv; try discriminate; cbn in *; apply NoDup_cons_iff in ND; destruct ND as [N1 N2].
  - injection Hx as ->. injection Hv as ->. now rewrite (eqb_refl' _ weq).
  - rewrite (eqb_neq' _ weq); [eauto|]. intros ->. apply N1. eapply nth_error_In. exact Hx.
Qed.
Lemma dget_app {B} x (l m : dict word B) : dget word_eqb x (l ++ m) = match dget word_eqb x l with Some v => Some v | None => dget word_eqb x m end.
Proof. induction l as [|[k v] l IH]; cbn; [reflexivity|]. destruct (word_eqb x k); [reflexivity|exact IH]. Qed.
Lemma combine_get_none {B} (l : list word) (m : list B) x : ~ In x l -> dget word_eqb x (combine l m) = None.
Proof. intros H. apply (dget_None _ weq). intros I. apply H. apply in_map_iff in I. destruct I as ([k v] & <- & I). apply in_combine_l in I. exact I. Qed.

Lemma nodup_app_notin (l m : list word) x : NoDup (l ++ m) -> In x m -> ~ In x l.
Proof.
  induction l as [|y l IH]; cbn; intros N I; [tauto|]. apply NoDup_cons_iff in N. destruct N as [N1 N2]. intros [->|J]; [apply N1; apply in_app_iff; now right|now apply (IH N2 I)].
Qed.
Section Raw.
  Variables (d : fdef) (a : cstate).
  Hypothesis ND : NoDup (names d).
  Lemma raw_cont j x v : nth_error (s_cont (f_vars d)) j = Some x -> nth_error (tl (fst (fst a))) j = Some v -> dget word_eqb x (raw d a) = Some v.
  Proof.
    intros Hx Hv. unfold raw. rewrite dget_app, (@combine_get _ _ _ j x v); [reflexivity| |exact Hx|exact Hv]. unfold names in ND. now apply nodup_parts in ND.
  Qed.
  Lemma raw_disc j x v : nth_error (s_disc (f_vars d)) j = Some x -> nth_error (snd (fst a)) j = Some v -> dget word_eqb x (raw d a) = Some v.
  Proof.
    intros Hx Hv. unfold raw. rewrite !dget_app, combine_get_none, (@combine_get _ _ _ j x v); [reflexivity| |exact Hx|exact Hv|].
    - unfold names in ND. now apply nodup_parts in ND.
    - apply (@nodup_app_notin _ _ x ND). apply in_app_iff. left. eapply nth_error_In. exact Hx.
  Qed.
  Lemma raw_stat j x v : nth_error (s_stat (f_vars d)) j = Some x -> nth_error (snd a) j = Some v -> dget word_eqb x (raw d a) = Some v.
  Proof.
    intros Hx Hv. assert (I : In x (s_stat (f_vars d))) by (eapply nth_error_In; exact Hx). unfold raw. rewrite !dget_app, (@combine_get_none _ (s_cont (f_vars d))), (@combine_get_none _ (s_disc (f_vars d))), (@combine_get _ _ _ j x v); [reflexivity| |exact Hx|exact Hv| |].
    - unfold names in ND. now apply nodup_parts in ND.
    - unfold names in ND. apply nodup_parts in ND. destruct ND as (_ & _ & _ & N). exact (@nodup_app_notin _ _ x N I).
    - apply (@nodup_app_notin _ _ x ND). apply in_app_iff. now right.
  Qed.
End Raw.
Lemma in_names d x : In x (names d) -> (exists j, nth_error (s_cont (f_vars d)) j = Some x) \/ (exists j, nth_error (s_disc (f_vars d)) j = Some x) \/ (exists j, nth_error (s_stat (f_vars d)) j = Some x).
Proof. unfold names. rewrite !in_app_iff. intros [H|[H|H]]; apply In_nth_error in H; auto. Qed.
Lemma nth_some {A} (l : list A) j : j < length l -> exists v, nth_error l j = Some v.
Proof. intros H. destruct (nth_error l j) eqn:E; [eauto|]. apply nth_error_None in E. lia. Qed.
Lemma nth_lt {A} (l : list A) j v : nth_error l j = Some v -> j < length l.
Proof. intros H. apply nth_error_Some. congruence. Qed.

(** The value of one variable. *)
Definition got (d : fdef) (a : cstate) (x : word) : pyval := match dget word_eqb x (raw d a) with Some v => v | None => Str [] end.
Lemma raw_got d a : NoDup (names d) -> enough d a -> raw d a = map (fun x => (x, got d a x)) (names d).
Proof.
  intros ND E. apply dict_ext.
  - rewrite raw_keys, map_map by exact E. cbn. now rewrite map_id.
  - now rewrite raw_keys.
  - intros k Hk. rewrite raw_keys in Hk by exact E.
    assert (G : dget word_eqb k (map (fun x => (x, got d a x)) (names d)) = Some (got d a k)).
    { clear -Hk. induction (names d) as [|y l IH]; [destruct Hk|]. cbn. destruct (word_eqb k y) eqn:Ek; [apply weq in Ek; now subst|]. apply IH. destruct Hk as [->|H]; [rewrite (eqb_refl' _ weq) in Ek; discriminate|exact H]. }
    rewrite G. unfold got. destruct (dget word_eqb k (raw d a)) eqn:Ed; [reflexivity|]. exfalso. apply (dget_None _ weq) in Ed. apply Ed. now rewrite raw_keys.
Qed.

(** Rows of columns. *)
Lemma zip_rows_map {A X} (g : A -> X -> pyval) (xs : list X) : xs <> [] -> forall l : list A, zip_rows (length l) (map (fun x => map (fun a => g a x) l) xs) = map (fun a => map (g a) xs) l.
Proof.
  intros Hx. induction l as [|a l IH]; cbn [length zip_rows map]; [reflexivity|].
  assert (E : mapM (fun c : list pyval => hd_error c) (map (fun x => g a x :: map (fun a0 => g a0 x) l) xs) = Some (map (g a) xs)).
  { clear. induction xs as [|x xs IH]; cbn; [reflexivity|]. rewrite IH. reflexivity. }
  rewrite E. f_equal. rewrite map_map. cbn [tl]. exact IH.
Qed.
Lemma zip_cols_map {A X} (g : A -> X -> pyval) (xs : list X) (l : list A) : xs <> [] -> zip_cols (map (fun x => map (fun a => g a x) l) xs) = map (fun a => map (g a) xs) l.
Proof.
  intros Hx. destruct xs as [|x xs]; [contradiction|]. unfold zip_cols. cbn [map]. rewrite map_length. apply (@zip_rows_map A X g (x :: xs) Hx l).
Qed.

(** ** Conversion *)
Lemma index_of_none l x : ~ In x l -> index_of l x = None.
Proof.
  unfold index_of. generalize 0 as i. induction l as [|y l IH]; intros i H; [reflexivity|].
  rewrite (eqb_neq' _ weq) by (intros ->; apply H; now left). apply IH. intros I. apply H. now right.
Qed.
Lemma index_of_some l x j : NoDup l -> nth_error l j = Some x -> index_of l x = Some j.
Proof.
  unfold index_of. assert (G : forall i, NoDup l -> nth_error l j = Some x -> (fix go l i := match l with [] => None | y :: r => if word_eqb x y then Some i else go r (S i) end) l i = Some (i + j)).
  { revert j. induction l as [|y l IH]; intros [|j] i N E; try discriminate; cbn in E; apply NoDup_cons_iff in N; destruct N as [N1 N2].
    - injection E as ->. rewrite (eqb_refl' _ weq). f_equal. lia.
    - rewrite (eqb_neq' _ weq) by (intros ->; apply N1; eapply nth_error_In; exact E). rewrite (IH j (S i) N2 E). f_equal. lia. }
  intros N E. rewrite (G 0 N E). reflexivity.
Qed.
Lemma fold_opt_app {A B} (f : A -> B -> option A) (l m : list B) a : fold_opt f (l ++ m) a = do b <- fold_opt f l a; fold_opt f m b.
Proof. revert a. induction l as [|x l IH]; intros a; cbn; [reflexivity|]. destruct (f a x); cbn; [apply IH|reflexivity]. Qed.
Lemma convert_none enums x (l : list fdef) v : (forall d, In d l -> ~ In x (s_disc (f_vars d))) -> fold_opt (fun v d => convert1 enums x v d) l v = Some v.
Proof.
  induction l as [|d l IH]; intros H; cbn; [reflexivity|]. unfold convert1 at 1. rewrite index_of_none by (apply H; now left). cbn. apply IH. intros d' Hd. apply H. now right.
Qed.
Lemma mapM_app' {A B} (f : A -> option B) l m : mapM f (l ++ m) = do x <- mapM f l; do y <- mapM f m; Some (x ++ y).
Proof.
  induction l as [|a l IH]; cbn; [destruct (mapM f m); reflexivity|]. destruct (f a); cbn; [|reflexivity]. rewrite IH. destruct (mapM f l); cbn; [|reflexivity]. destruct (mapM f m); reflexivity.
Qed.
Lemma mapM_all {A B} (f : A -> option B) (g : A -> B) l : (forall a, In a l -> f a = Some (g a)) -> mapM f l = Some (map g l).
Proof. induction l as [|a l IH]; intros H; cbn; [reflexivity|]. rewrite (H a) by now left. cbn. rewrite IH by (intros b Hb; apply H; now right). reflexivity. Qed.
Lemma mapM_nth {A B} (f : A -> option B) l (m : list B) : length l = length m -> (forall j a b, nth_error l j = Some a -> nth_error m j = Some b -> f a = Some b) -> mapM f l = Some m.
Proof.
  revert m. induction l as [|a l IH]; intros [|b m] L H; try discriminate; cbn; [reflexivity|]. rewrite (H 0 a b eq_refl eq_refl). cbn. rewrite (IH m); [reflexivity|cbn in L; lia|].
  intros j x y Hx Hy. exact (H (S j) x y Hx Hy).
Qed.
Lemma nth_combine {A B} : forall (l : list A) (m : list B) j a b, nth_error (combine l m) j = Some (a, b) <-> nth_error l j = Some a /\ nth_error m j = Some b.
Proof.
  induction l as [|x l IH]; intros [|y m] [|j] a b; cbn; try (split; [discriminate|intros [? ?]; discriminate]).
  - split; [intros [= -> ->]; auto|intros [[= ->] [= ->]]; reflexivity].
  - apply IH.
Qed.
Lemma nth_zipw {A B C} (f : A -> B -> C) : forall l m j a b, nth_error l j = Some a -> nth_error m j = Some b -> nth_error (zipw f l m) j = Some (f a b).
Proof. induction l as [|x l IH]; intros [|y m] [|j] a b Ha Hb; try discriminate; cbn in *; [injection Ha as ->; injection Hb as ->; reflexivity|eauto]. Qed.

Section Convert.
  Variables (defs : dict word fdef) (enums : dict word (list word)) (t : word) (d : fdef) (a : cstate).
  Hypothesis Hd : declared defs t d.
  Hypothesis Ha : well_typed enums d a.

  Lemma typed_enough : enough d a.
  Proof. destruct Ha as (A & B & C & _). split; [exact A|]. split; [exact B|exact C]. Qed.

  Lemma convert_plain x v : In x (names d) -> ~ In x (s_disc (f_vars d)) -> fold_opt (fun v d => convert1 enums x v d) (map snd defs) v = Some v.
  Proof.
    destruct Hd as (_ & _ & l1 & l2 & -> & H). intros Hx Hn. apply convert_none. intros d' I. apply in_map_iff in I. destruct I as ([t' d''] & <- & I). cbn [snd].
    apply in_app_iff in I. destruct I as [I|[[= <- <-]|I]]; [| exact Hn|].
    - apply (H t' d'' x); [apply in_app_iff; now left|exact Hx].
    - apply (H t' d'' x); [apply in_app_iff; now right|exact Hx].
  Qed.
  Lemma convert_disc j x ty v : nth_error (s_disc (f_vars d)) j = Some x -> nth_error (f_types d) j = Some ty -> nth_error (snd (fst a)) j = Some v ->
    fold_opt (fun v d => convert1 enums x v d) (map snd defs) v = Some (member ty v).
  Proof.
    destruct Hd as (ND & _ & l1 & l2 & -> & H). intros Hx Ht Hv. assert (In x (names d)) as Hin.
    { unfold names. rewrite !in_app_iff. right. left. eapply nth_error_In. exact Hx. }
    assert (NDd : NoDup (s_disc (f_vars d))) by (unfold names in ND; now apply nodup_parts in ND).
    destruct Ha as (_ & _ & _ & _ & T). destruct (T j ty Ht) as (s & ms & E1 & E2 & E3). rewrite E1 in Hv. injection Hv as <-. cbn [member].
    rewrite map_app. cbn [map snd]. rewrite fold_opt_app, convert_none. 2:{ intros d' I. apply in_map_iff in I. destruct I as ([t' d''] & <- & I). cbn [snd]. apply (H t' d'' x); [apply in_app_iff; now left|exact Hin]. }
    cbn [obind fold_opt]. unfold convert1 at 1. rewrite (index_of_some _ NDd Hx), Ht. cbn [obind]. rewrite E2. cbn [obind].
    replace (existsb (word_eqb s) ms) with true. 2:{ symmetry. apply existsb_exists. exists s. split; [exact E3|apply weq; reflexivity]. }
    cbn [obind]. apply convert_none. intros d' I. apply in_map_iff in I. destruct I as ([t' d''] & <- & I). cbn [snd]. apply (H t' d'' x); [apply in_app_iff; now right|exact Hin].
  Qed.

  Lemma convert_raw : convert defs enums (raw d a) = Some (seen d a).
  Proof.
    pose proof Hd as (ND & _). destruct Ha as (L1 & L2 & L3 & L4 & T). unfold convert, raw, seen.
    assert (Mc : forall l m, (forall x, In x l -> In x (names d) /\ ~ In x (s_disc (f_vars d))) ->
              mapM (fun kv : word * pyval => do v <- fold_opt (fun v d => convert1 enums (fst kv) v d) (map snd defs) (snd kv); Some (fst kv, v)) (combine l m) = Some (combine l m)).
    { intros l m H. rewrite <- (map_id (combine l m)) at 2. apply mapM_all. intros [x v] I. cbn [fst snd]. destruct (H x) as [H1 H2]; [apply in_combine_l in I; exact I|].
      rewrite convert_plain by assumption. reflexivity. }
    rewrite !mapM_app'. rewrite Mc. 2:{ intros x Hx. split; [unfold names; rewrite !in_app_iff; now left|]. intros I. unfold names in ND. apply (@nodup_app_notin _ _ x ND); [apply in_app_iff; now left|exact Hx]. }
    cbn [obind].
    assert (Md : mapM (fun kv : word * pyval => do v <- fold_opt (fun v d => convert1 enums (fst kv) v d) (map snd defs) (snd kv); Some (fst kv, v)) (combine (s_disc (f_vars d)) (snd (fst a)))
       = Some (combine (s_disc (f_vars d)) (zipw member (f_types d) (snd (fst a))))).
    { apply mapM_nth.
      - rewrite !combine_length, zipw_length, L4. lia.
      - intros j [x v] [x' v'] H1 H2. apply nth_combine in H1. apply nth_combine in H2. destruct H1 as [H1 H3], H2 as [H2 H4]. rewrite H1 in H2. injection H2 as <-.
        destruct (nth_some (f_types d) (j := j)) as (ty & Hty); [rewrite L4; exact (nth_lt _ _ H1)|]. rewrite (nth_zipw member _ _ _ Hty H3) in H4. injection H4 as <-.
        cbn [fst snd]. rewrite (@convert_disc j x ty v H1 Hty H3). reflexivity. }
    rewrite Md. cbn [obind]. rewrite Mc; [reflexivity|]. intros x Hx. split; [unfold names; rewrite !in_app_iff; auto|]. unfold names in ND. apply nodup_parts in ND. destruct ND as (_ & _ & _ & N). exact (@nodup_app_notin _ _ x N Hx).
  Qed.
End Convert.

(** ** The arguments *)
Section Args.
  Variables (ag : cagent) (me : nat) (states : dict nat cstate) (own : cstate) (te to name : word) (de od : fdef).
  Hypothesis ND : NoDup (map fst states).
  Hypothesis Hown : dget Nat.eqb me states = Some own.
  Hypothesis He : ego_type (map to_arg (c_args ag)) = Some te.
  Hypothesis Ho : other_arg (map to_arg (c_args ag)) = Some (name, to).
  Hypothesis Nname : ~ In "."%char name.
  Hypothesis Hde : declared (c_defs ag) te de.
  Hypothesis Hod : declared (c_defs ag) to od.
  Hypothesis Town : well_typed (c_enums ag) de own.
  Hypothesis Toth : forall a, In a (others me states) -> well_typed (c_enums ag) od a.
  Hypothesis Hargs : forall a, In a (c_args ag) -> l_name a = w "ego" \/ occurs (w "map") (l_name a) = true \/ l_name a = name /\ l_list a = true.
  Hypothesis Hvars : names od <> [].

  Notation sd := (map (fun p => (fst p, f_vars (snd p))) (c_defs ag)).
  Lemma declared_get t d : declared (c_defs ag) t d -> dget word_eqb t sd = Some (f_vars d).
  Proof.
    intros (_ & _ & l1 & l2 & -> & H). rewrite map_app. cbn [map fst snd]. rewrite dget_app. replace (dget word_eqb t (map _ l1)) with (@None sdef).
    - cbn. now rewrite (eqb_refl' _ weq).
    - symmetry. apply (dget_None _ weq). rewrite map_map. cbn [fst]. intros I. apply in_map_iff in I. destruct I as ([t' d'] & Et & I). cbn in Et. subst t'. destruct (H t d' []) as [H1 _]; [apply in_app_iff; now left|]. contradiction.
  Qed.

  Lemma typed_fits d a : well_typed (c_enums ag) d a -> fits (@values2 pyval) (f_vars d) a.
  Proof. intros (A & B & C & _). unfold fits, cont_of, values2, mode_of, stat_of. split; [discriminate|]. auto. Qed.

  Lemma forall2_map {A B} (g : A -> option B) (f : A -> B) (l : list A) (m : list B) : Forall2 (fun a v => g a = Some v) l m -> (forall a v, In a l -> g a = Some v -> f a = v) -> m = map f l.
  Proof. induction 1 as [|a v l m E _ IH]; intros H; cbn; [reflexivity|]. rewrite (H a v); [|now left|exact E]. f_equal. apply IH. intros b u Hb. apply H. now right. Qed.

  Lemma packed_spec : exists cont disc len packed,
    sense (@values2 pyval) (map to_arg (c_args ag)) sd me states = Some (cont, disc, len) /\ pack cont disc = Some packed /\
    ego_of packed = raw de own /\
    dget word_eqb name packed = match others me states with [] => None | l => Some (map (fun x => (x, Lst (map (fun a => got od a x) l))) (names od)) end.
  Proof.
    pose proof Hde as (Ne & Dote & _). pose proof Hod as (No & Doto & _). pose proof (declared_get Hde) as Ge. pose proof (declared_get Hod) as Go.
    unfold names in Ne, No, Dote, Doto.
    destruct (nodup_parts _ _ _ Ne) as (Ne1 & Ne2 & Ne3 & Ne4). destruct (nodup_parts _ _ _ No) as (No1 & No2 & No3 & No4).
    destruct (@C14_view_partial _ _ _ (@values2 pyval) (map to_arg (c_args ag)) sd me states own te to name (f_vars de) (f_vars od) ND Hown He Ge Ho Go Nname Ne1 Ne4 No1 No4 (typed_fits Town) (fun a Ha => typed_fits (Toth a Ha)))
      as (cont & disc & len & Es & B1 & B2 & B3 & B4 & B5 & B6 & _).
    assert (K : keys_ok name (f_vars de) (f_vars od) (cont, disc) /\ (others me states = [] -> fkeys name cont = [] /\ fkeys name disc = [])).
    { unfold sense in Es. destruct states as [|s0 r] eqn:E0; [discriminate|]. rewrite <- E0 in *.
      destruct (fold_opt (sense1 (@values2 pyval) (map to_arg (c_args ag)) sd me) states ([], [])) as [vw|] eqn:Ef; [|discriminate]. cbn [obind] in Es. injection Es as <- <- _.
      assert (Hme : forall a, In (me, a) states -> fits (@values2 pyval) (f_vars de) a).
      { intros a Hin. rewrite (In_dget Nat.eqb Nat.eqb_eq me a states ND Hin) in Hown. injection Hown as ->. apply typed_fits. exact Town. }
      assert (Hot : forall i a, In (i, a) states -> i <> me -> In a (others me states)).
      { intros i a Hi Hne. unfold others. apply in_map_iff. exists (i, a). split; [reflexivity|]. apply filter_In. split; [exact Hi|]. cbn. apply negb_true_iff. apply Nat.eqb_neq. exact Hne. }
      destruct (@keys_fold _ _ _ (@values2 pyval) _ sd me te to name (f_vars de) (f_vars od) He Ge Ho Go Nname Ne No Dote Doto states ([], []) vw (@keys_start _ _ name (f_vars de) (f_vars od)) Ef Hme (fun i a Hi Hne => typed_fits (Toth a (Hot i a Hi Hne)))) as [K1 K2].
      destruct vw as [cont disc]. split; [exact K1|]. intros Hno. apply K2. intros i a Hi. destruct (Nat.eq_dec i me) as [->|Hne]; [reflexivity|]. exfalso. specialize (Hot i a Hi Hne). rewrite Hno in Hot. exact Hot. }
    destruct K as (((D1 & N1 & W1 & W2) & (D2 & N2 & W3 & W4)) & Kno). cbn [fst snd] in *.
    destruct (pack_spec D1 D2 N1 N2) as (packed & Ep & P). exists cont, disc, len, packed. split; [exact Es|]. split; [exact Ep|].
    assert (Ego : ~ In "."%char (w "ego")) by (cbn; intuition discriminate).
    assert (Bn : forall X (d : dict word (entry X)) thing l bound, binds d thing l bound -> forall x, In x l -> dget word_eqb (key thing x) d <> None).
    { intros X d thing l bound Hb x Hx. apply In_nth_error in Hx. destruct Hx as (j & Hj). destruct (Hb j x Hj) as (e & E & _). unfold key. congruence. }
    destruct (nodots_parts _ _ _ Dote) as (De1 & De2 & De3). destruct (nodots_parts _ _ _ Doto) as (Do1 & Do2 & Do3).
    assert (nodots (s_disc (f_vars de) ++ s_stat (f_vars de))) as De4 by (intros x Hx; apply Dote; apply in_app_iff; now right).
    assert (nodots (s_disc (f_vars od) ++ s_stat (f_vars od))) as Do4 by (intros x Hx; apply Doto; apply in_app_iff; now right).
    (* a dictionary of namespaces agrees with a list *)
    assert (F1 : fkeys (w "ego") cont = s_cont (f_vars de)) by (apply whole_bound; eauto).
    assert (F2 : fkeys (w "ego") disc = s_disc (f_vars de) ++ s_stat (f_vars de)).
    { apply whole_bound; [exact Ego|exact De4|exact D2|exact W3|]. intros x Hx. apply in_app_iff in Hx. destruct Hx as [Hx|Hx]; [exact (Bn _ _ _ _ _ B2 x Hx)|exact (Bn _ _ _ _ _ B3 x Hx)]. }
    assert (Dn : forall x thing nms1 nms2, (forall k, dget word_eqb k disc <> None -> exists t l y, In (t, l) [(w "ego", nms1); (name, nms2)] /\ In y l /\ k = t ++ w "." ++ y) ->
              (thing = w "ego" /\ ~ In x nms1 \/ thing = name /\ ~ In x nms2) -> dget word_eqb (key thing x) disc = None).
    { intros x thing nms1 nms2 H Hc. destruct (dget word_eqb (key thing x) disc) eqn:E; [|reflexivity]. exfalso.
      destruct (H (key thing x)) as (t & l & y & I & Hy & Ek); [congruence|]. change (t ++ w "." ++ y) with (key t y) in Ek.
      assert (Nne : name <> w "ego") by (eapply name_not_ego; eassumption).
      destruct I as [[= <- <-]|[[= <- <-]|[]]]; destruct Hc as [[-> Hc]|[-> Hc]]; apply key_inj in Ek; auto; destruct Ek as [Ek ->]; try contradiction; congruence. }
    split.
    - destruct (P (w "ego") Ego) as (Pk & Pn & Pv). rewrite F1, F2 in Pk. rewrite (@add_names_fresh (s_cont (f_vars de)) []) in Pk by exact Ne1. cbn [app] in Pk. rewrite add_names_fresh in Pk by exact Ne.
      unfold ego_of. assert (G : forall x, In x (names de) -> field x (dget word_eqb (w "ego") packed) = dget word_eqb x (raw de own)).
      { intros x Hx. rewrite Pv by (apply Dote; exact Hx). pose proof (typed_enough Town) as (L1 & L2 & L3). destruct (in_names _ _ Hx) as [(j & Hj)|[(j & Hj)|(j & Hj)]].
        - destruct (nth_some (tl (fst (fst own))) (j := j)) as (v & Hv); [pose proof (nth_lt _ _ Hj); lia|]. rewrite (@raw_cont de own Ne j x v Hj Hv).
          destruct (B1 j x Hj) as (e & E1 & (v' & -> & Hv')). unfold cont_of, values2 in Hv'. rewrite Hv in Hv'. injection Hv' as <-.
          rewrite (Dn x (w "ego") _ _ B6); [unfold key; rewrite E1; reflexivity|]. left. split; [reflexivity|]. intros I. apply (@nodup_app_notin _ _ x Ne I). eapply nth_error_In. exact Hj.
        - destruct (nth_some (snd (fst own)) (j := j)) as (v & Hv); [pose proof (nth_lt _ _ Hj); lia|]. rewrite (@raw_disc de own Ne j x v Hj Hv).
          destruct (B2 j x Hj) as (e & E1 & (v' & -> & Hv')). unfold mode_of in Hv'. rewrite Hv in Hv'. injection Hv' as <-. unfold key. rewrite E1. reflexivity.
        - destruct (nth_some (snd own) (j := j)) as (v & Hv); [pose proof (nth_lt _ _ Hj); lia|]. rewrite (@raw_stat de own Ne j x v Hj Hv).
          destruct (B3 j x Hj) as (e & E1 & (v' & -> & Hv')). unfold stat_of in Hv'. rewrite Hv in Hv'. injection Hv' as <-. unfold key. rewrite E1. reflexivity. }
      pose proof (raw_keys (typed_enough Town)) as Rk. destruct (dget word_eqb (w "ego") packed) as [n|] eqn:En; cbn [fields field obind] in Pk, G.
      + apply dict_ext; [rewrite Rk; exact Pk|rewrite Pk; exact Ne|]. intros k Hk. apply G. unfold names. rewrite <- Pk. exact Hk.
      + symmetry. apply dict_ext; [rewrite Rk; cbn; symmetry; exact Pk|rewrite Rk; exact Ne|]. intros k Hk. rewrite Rk in Hk. unfold names in Hk. rewrite <- Pk in Hk. destruct Hk.
    - destruct (P name Nname) as (Pk & Pn & Pv). destruct (others me states) as [|o os] eqn:Eo.
      + apply Pn. now apply Kno.
      + rewrite <- Eo in *. assert (Hne : others me states <> []) by congruence. destruct (B4 Hne) as (C1 & C2 & C3).
        assert (F3 : fkeys name cont = s_cont (f_vars od)) by (apply whole_bound; eauto).
        assert (F4 : fkeys name disc = s_disc (f_vars od) ++ s_stat (f_vars od)).
        { apply whole_bound; [exact Nname|exact Do4|exact D2|exact W4|]. intros x Hx. apply in_app_iff in Hx. destruct Hx as [Hx|Hx]; [exact (Bn _ _ _ _ _ C2 x Hx)|exact (Bn _ _ _ _ _ C3 x Hx)]. }
        rewrite F3, F4 in Pk. rewrite (@add_names_fresh (s_cont (f_vars od)) []) in Pk by exact No1. cbn [app] in Pk. rewrite add_names_fresh in Pk by exact No.
        assert (G : forall x, In x (names od) -> field x (dget word_eqb name packed) = Some (Lst (map (fun a => got od a x) (others me states)))).
        { intros x Hx. rewrite Pv by (apply Doto; exact Hx). destruct (in_names _ _ Hx) as [(j & Hj)|[(j & Hj)|(j & Hj)]].
          - destruct (C1 j x Hj) as (e & E1 & (vs & -> & Hv')). rewrite (Dn x name _ _ B6); [|right; split; [reflexivity|]; intros I; apply (@nodup_app_notin _ _ x No I); eapply nth_error_In; exact Hj].
            unfold key. rewrite E1. cbn [option_map value_of]. do 2 f_equal. apply (forall2_map _ (fun a => got od a x) Hv'). intros a v Hin Hn. unfold got. rewrite (@raw_cont od a No j x v Hj Hn). reflexivity.
          - destruct (C2 j x Hj) as (e & E1 & (vs & -> & Hv')). unfold key. rewrite E1. cbn [value_of]. do 2 f_equal. apply (forall2_map _ (fun a => got od a x) Hv'). intros a v Hin Hn. unfold got. rewrite (@raw_disc od a No j x v Hj Hn). reflexivity.
          - destruct (C3 j x Hj) as (e & E1 & (vs & -> & Hv')). unfold key. rewrite E1. cbn [value_of]. do 2 f_equal. apply (forall2_map _ (fun a => got od a x) Hv'). intros a v Hin Hn. unfold got. rewrite (@raw_stat od a No j x v Hj Hn). reflexivity. }
        destruct (dget word_eqb name packed) as [n|] eqn:En; cbn [fields field obind] in Pk, G.
        * f_equal. apply dict_ext.
          -- rewrite map_map. cbn [fst]. rewrite map_id. exact Pk.
          -- rewrite Pk. exact No.
          -- intros k Hk. assert (Hk' : In k (names od)) by (unfold names; rewrite <- Pk; exact Hk). rewrite (G k Hk'). clear -Hk'. induction (names od) as [|y l IH]; [destruct Hk'|]. cbn. destruct (word_eqb k y) eqn:Ek; [apply weq in Ek; now subst|]. apply IH.
             destruct Hk' as [->|H]; [rewrite (eqb_refl' _ weq) in Ek; discriminate|exact H].
        * exfalso. apply Hvars. unfold names. symmetry. exact Pk.
  Qed.

  Lemma controller_args_spec : controller_args ag me states =
    Some (seen de own, map (fun a => if word_eqb (l_name a) (w "ego") then ANs (seen de own) else if occurs (w "map") (l_name a) then AMap else AList (map (seen od) (others me states))) (c_args ag)).
  Proof.
    destruct packed_spec as (cont & disc & len & packed & Es & Ep & Pe & Po). unfold controller_args. rewrite Es. cbn [obind fst snd]. rewrite Ep. cbn [obind].
    rewrite Pe. rewrite (convert_raw Hde Town).
    replace (existsb (fun a => word_eqb (l_name a) (w "ego")) (c_args ag)) with true.
    2:{ symmetry. apply existsb_exists. revert He. unfold ego_type. destruct (find _ (map to_arg (c_args ag))) as [x|] eqn:Ef; [|discriminate]. intros _.
        apply find_some in Ef. destruct Ef as [I E]. apply in_map_iff in I. destruct I as (a & <- & I). exists a. auto. }
    cbn [obind]. rewrite (@mapM_all _ _ _ (fun a => if word_eqb (l_name a) (w "ego") then ANs (seen de own) else if occurs (w "map") (l_name a) then AMap else AList (map (seen od) (others me states)))); [reflexivity|].
    intros a Ha. destruct (word_eqb (l_name a) (w "ego")) eqn:Ee; [reflexivity|]. unfold env_of. destruct (occurs (w "map") (l_name a)) eqn:Em; [reflexivity|].
    destruct (Hargs a Ha) as [H|[H|[Hn Hl]]]; [rewrite H in Ee; discriminate|congruence|]. rewrite Hn, Hl, Po. destruct (others me states) as [|o os] eqn:Eo; [reflexivity|]. rewrite <- Eo in *.
    assert (M : mapM (fun kv : word * pyval => as_list (snd kv)) (map (fun x => (x, Lst (map (fun a0 => got od a0 x) (others me states)))) (names od)) = Some (map (fun x => map (fun a0 => got od a0 x) (others me states)) (names od))).
    { clear. induction (names od) as [|y l IH]; cbn; [reflexivity|]. rewrite IH. reflexivity. }
    rewrite M. cbn [obind]. rewrite zip_cols_map by exact Hvars.
    assert (Fn : map fst (map (fun x => (x, Lst (map (fun a0 => got od a0 x) (others me states)))) (names od)) = names od) by (rewrite map_map; apply map_id).
    rewrite Fn, map_map.
    assert (R : map (fun a0 => combine (names od) (map (got od a0) (names od))) (others me states) = map (raw od) (others me states)).
    { apply map_ext_in. intros a0 H0. rewrite (raw_got (proj1 Hod) (typed_enough (Toth _ H0))). clear. induction (names od) as [|y l IH]; cbn; [reflexivity|]. now rewrite IH. }
    rewrite R. assert (C : mapM (convert (c_defs ag) (c_enums ag)) (map (raw od) (others me states)) = Some (map (seen od) (others me states))).
    { assert (G : forall l, (forall a0, In a0 l -> well_typed (c_enums ag) od a0) -> mapM (convert (c_defs ag) (c_enums ag)) (map (raw od) l) = Some (map (seen od) l)); [|apply G; exact Toth].
      induction l as [|a0 l IH]; intros H; cbn [map mapM]; [reflexivity|]. rewrite (convert_raw Hod (H a0 (or_introl eq_refl))). cbn [obind]. rewrite IH by (intros b Hb; apply H; now right). reflexivity. }
    rewrite C. reflexivity.
  Qed.
End Args.

(** ** A controller without other agents *)
Lemma fold_alone {St V D} (values : St -> option (list V)) args defs me : other_arg args = None -> forall (states : dict nat (astate St D)) vw, ~ In me (map fst states) ->
  fold_opt (sense1 values args defs me) states vw = Some vw.
Proof.
  intros Ho. induction states as [|[i [[s m] x]] states IH]; intros vw H; cbn [fold_opt]; [reflexivity|]. cbn [map fst In] in H. unfold sense1 at 1.
  replace (i =? me) with false by (symmetry; apply Nat.eqb_neq; tauto). rewrite Ho. cbn [obind]. apply IH. tauto.
Qed.
Lemma fold_own {St V D} (values : St -> option (list V)) args defs me own : other_arg args = None -> forall (states : dict nat (astate St D)) vw, NoDup (map fst states) -> dget Nat.eqb me states = Some own ->
  fold_opt (sense1 values args defs me) states vw = sense1 values args defs me vw (me, own).
Proof.
  intros Ho. induction states as [|[i s] states IH]; intros vw N H; [discriminate|]. cbn [fold_opt]. cbn [map fst] in N. apply NoDup_cons_iff in N. destruct N as [N1 N2]. cbn [dget] in H. destruct (Nat.eqb_spec me i) as [->|Hne].
  - injection H as ->. destruct (sense1 values args defs i vw (i, own)) as [vw1|]; cbn [obind]; [|reflexivity]. now apply fold_alone.
  - destruct s as [[s m] x]. unfold sense1 at 1. replace (i =? me) with false by (symmetry; apply Nat.eqb_neq; auto). rewrite Ho. cbn [obind]. now apply IH.
Qed.

Section Alone.
  Variables (ag : cagent) (me : nat) (states : dict nat cstate) (own : cstate) (te : word) (de : fdef).
  Hypothesis H : has_ego ag me states te de own.
  Hypothesis Hargs : no_others ag.

  Lemma find_none {A} (f : A -> bool) l : (forall x, In x l -> f x = false) -> find f l = None.
  Proof. induction l as [|x l IH]; cbn; intros E; [reflexivity|]. rewrite (E x (or_introl eq_refl)). apply IH. auto. Qed.
  Lemma find_app_none {A} (f : A -> bool) l m : find f l = None -> find f (l ++ m) = find f m.
  Proof. induction l as [|x l IH]; cbn; [reflexivity|]. destruct (f x); [discriminate|exact IH]. Qed.
  Lemma find_app_some {A} (f : A -> bool) l m x : find f l = Some x -> find f (l ++ m) = Some x.
  Proof. induction l as [|y l IH]; cbn; [discriminate|]. destruct (f y); [auto|exact IH]. Qed.
  Lemma none_found : find (fun a => negb (word_eqb (a_name a) (w "ego")) && negb (occurs (w "map") (a_name a))) (map to_arg (c_args ag)) = None.
  Proof.
    apply find_none. intros x I. apply in_map_iff in I. destruct I as (a & <- & I). cbn [to_arg a_name]. destruct (Hargs _ I) as [-> | ->]; [reflexivity|]. apply andb_false_r.
  Qed.
  Lemma alone_none : other_arg (map to_arg (c_args ag)) = None.
  Proof. unfold other_arg. now rewrite none_found. Qed.
  (** The same agent with one more argument, alone in its scenario. *)
  Definition extra := mk_larg (w "others") (Some te) true.
  Definition more : cagent := mk_cagent (c_args ag ++ [extra]) (c_defs ag) (c_enums ag) (c_logic ag) (c_paths ag).
  Lemma alone_args_spec : controller_args ag me states = Some (seen de own, call ag (seen de own) []).
  Proof.
    destruct H as (ND & Hown & He & Hd & Ht & Hv).
    assert (He' : ego_type (map to_arg (c_args more)) = Some te).
    { revert He. unfold ego_type, more. cbn [c_args]. rewrite map_app. destruct (find _ (map to_arg (c_args ag))) eqn:E; [|discriminate]. now rewrite (find_app_some _ _ _ E). }
    assert (Ho' : other_arg (map to_arg (c_args more)) = Some (w "others", te)).
    { unfold other_arg, more. cbn [c_args]. rewrite map_app, find_app_none by exact none_found. reflexivity. }
    assert (N' : ~ In "."%char (w "others")) by (cbn; intuition discriminate).
    assert (Hargs' : forall a, In a (c_args more) -> l_name a = w "ego" \/ occurs (w "map") (l_name a) = true \/ l_name a = w "others" /\ l_list a = true).
    { intros a I. unfold more in I. cbn [c_args] in I. apply in_app_iff in I. destruct I as [I|[<-|[]]]; [destruct (Hargs _ I); auto|]. right. right. auto. }
    assert (No1 : NoDup (map fst [(me, own)])) by (cbn; constructor; [intros []|constructor]).
    assert (Ow1 : dget Nat.eqb me [(me, own)] = Some own) by (cbn; now rewrite Nat.eqb_refl).
    assert (Oth : others me [(me, own)] = []) by (unfold others; cbn; now rewrite Nat.eqb_refl).
    assert (Ot1 : forall a, In a (others me [(me, own)]) -> well_typed (c_enums ag) de a) by (rewrite Oth; intros a []).
    destruct (@packed_spec more me [(me, own)] own te te (w "others") de de No1 Ow1 He' Ho' N' Hd Hd Ht Ot1 Hv) as (cont & disc & len & packed & Es & Ep & Pe & _).
    assert (Es' : sense (@values2 pyval) (map to_arg (c_args ag)) (map (fun p => (fst p, f_vars (snd p))) (c_defs ag)) me states = Some (cont, disc, [(w "others", length states - 1)])).
    { unfold sense in *. destruct states as [|s0 r] eqn:E0; [discriminate|]. rewrite <- E0 in *. rewrite (@fold_own _ _ _ _ _ _ _ own alone_none states ([], []) ND Hown). cbn [fold_opt] in Es.
      assert (Eq : sense1 (@values2 pyval) (map to_arg (c_args ag)) (map (fun p => (fst p, f_vars (snd p))) (c_defs ag)) me ([], []) (me, own) =
                   sense1 (@values2 pyval) (map to_arg (c_args more)) (map (fun p => (fst p, f_vars (snd p))) (c_defs more)) me ([], []) (me, own)).
      { unfold sense1. destruct own as [[? ?] ?]. rewrite Nat.eqb_refl, He, He'. reflexivity. }
      rewrite Eq. destruct (sense1 _ _ _ _ _ _) as [vw|]; [|discriminate]. cbn [obind] in *. congruence. }
    unfold controller_args. rewrite Es'. cbn [obind fst snd]. rewrite Ep. cbn [obind]. rewrite Pe. rewrite (convert_raw Hd Ht).
    replace (existsb (fun a => word_eqb (l_name a) (w "ego")) (c_args ag)) with true.
    2:{ symmetry. apply existsb_exists. revert He. unfold ego_type. destruct (find _ (map to_arg (c_args ag))) as [x|] eqn:Ef; [|discriminate]. intros _.
        apply find_some in Ef. destruct Ef as [I E]. apply in_map_iff in I. destruct I as (a & <- & I). exists a. auto. }
    cbn [obind]. rewrite (@mapM_all _ _ _ (fun a => if word_eqb (l_name a) (w "ego") then ANs (seen de own) else if occurs (w "map") (l_name a) then AMap else AList [])); [reflexivity|].
    intros a Ha. destruct (word_eqb (l_name a) (w "ego")) eqn:Ee; [reflexivity|]. destruct (Hargs _ Ha) as [E|E]; [rewrite E in Ee; discriminate|]. unfold env_of. rewrite E. reflexivity.
  Qed.
End Alone.

(** ** The result *)
Lemma val_eqb_spec : forall a b, val_eqb a b = true <-> same_val a b.
Proof.
  fix F 1. intros a b. destruct a as [p|s|c s|l], b as [q|t|c' t|m]; cbn [val_eqb]; try (split; [discriminate|intros X; inversion X; fail]).
  - rewrite Qeq_bool_iff. split; [now constructor|]. intros X. now inversion X.
  - rewrite weq. split; [intros ->; constructor|]. intros X. now inversion X.
  - rewrite andb_true_iff, !weq. split; [intros [-> ->]; constructor|]. intros X. inversion X. auto.
  - assert (G : forall m, (fix go l m := match l, m with [], [] => true | x :: l', y :: m' => val_eqb x y && go l' m' | _, _ => false end) l m = true <-> Forall2 same_val l m).
    { clear m. induction l as [|x l IH]; intros [|y m]; try (split; [discriminate|intros X; inversion X; fail]); [split; [constructor|reflexivity]|].
      rewrite andb_true_iff, F, IH. split; [intros [A B]; now constructor|]. intros X. inversion X. auto. }
    rewrite G. split; [now constructor|]. intros X. now inversion X.
Qed.
Lemma ns_eqb_spec a b : NoDup (map fst a) -> NoDup (map fst b) -> ns_eqb a b = true <-> same_ns a b.
Proof.
  intros Na Nb. unfold ns_eqb, same_ns. rewrite andb_true_iff, Nat.eqb_eq, forallb_forall. split.
  - intros [L H] x. assert (Inc : incl (map fst a) (map fst b)).
    { intros k I. apply in_map_iff in I. destruct I as ([k' v] & <- & I). specialize (H _ I). cbn [fst] in *. destruct (dget word_eqb k' b) as [u|] eqn:E; [|discriminate]. apply (dget_In _ weq) in E. apply in_map_iff. exists (k', u). auto. }
    assert (Inc' : incl (map fst b) (map fst a)) by (apply NoDup_length_incl; [exact Na|rewrite !map_length; lia|exact Inc]).
    destruct (dget word_eqb x a) as [u|] eqn:Ea.
    + apply (dget_In _ weq) in Ea. specialize (H _ Ea). cbn [fst snd] in H. destruct (dget word_eqb x b); [now apply val_eqb_spec|discriminate].
    + destruct (dget word_eqb x b) as [v|] eqn:Eb; [|exact I]. apply (dget_None _ weq) in Ea. apply Ea. apply Inc'. apply (dget_In _ weq) in Eb. apply in_map_iff. exists (x, v). auto.
  - intros H. split.
    + assert (K : forall x, In x (map fst a) <-> In x (map fst b)).
      { intros x. specialize (H x). destruct (dget word_eqb x a) as [u|] eqn:Ea, (dget word_eqb x b) as [v|] eqn:Eb; try contradiction.
        - apply (dget_In _ weq) in Ea, Eb. split; intros _; apply in_map_iff; [exists (x, v)|exists (x, u)]; auto.
        - apply (dget_None _ weq) in Ea, Eb. tauto. }
      rewrite <- (map_length fst a), <- (map_length fst b). apply Nat.le_antisymm; apply NoDup_incl_length; auto; intros x; apply K.
    + intros [x u] I. cbn [fst snd]. specialize (H x). rewrite (In_dget _ weq x u a Na I) in H. destruct (dget word_eqb x b); [now apply val_eqb_spec|contradiction].
Qed.

Lemma seen_keys enums d a : well_typed enums d a -> map fst (seen d a) = names d.
Proof.
  intros (L1 & L2 & L3 & L4 & _). unfold seen, names. rewrite !map_app, !combine_fst; auto. 
  assert (Z : forall {A B C} (f : A -> B -> C) l m, length l <= length m -> length (zipw f l m) = length l).
  { clear. intros A B C f. induction l as [|x l IH]; intros [|y m] L; cbn in *; try lia. rewrite IH; lia. }
  rewrite Z; lia.
Qed.
Lemma disc_field_spec defs t d x : declared defs t d -> In x (names d) -> disc_field defs x = true <-> In x (s_disc (f_vars d)).
Proof.
  intros (ND & _ & l1 & l2 & -> & H) Hx. unfold disc_field. rewrite existsb_exists. split.
  - intros ([t' d'] & I & E). cbn [snd] in E. apply existsb_exists in E. destruct E as (y & Iy & Ey). apply weq in Ey. subst y.
    apply in_app_iff in I. destruct I as [I|[I|I]]; [|injection I as <- <-; exact Iy|]; exfalso; destruct (H t' d' x) as [_ H2]; try (apply in_app_iff; auto; fail); exact (H2 Hx Iy).
  - intros I. exists (t, d). split; [apply in_app_iff; right; now left|]. apply existsb_exists. exists x. split; [exact I|]. apply weq. reflexivity.
Qed.
Lemma split_output_spec ag ego out t d : declared (c_defs ag) t d -> map fst ego = names d -> (forall x, In x (names d) -> dget word_eqb x out <> None) ->
  exists dest next, split_output ag ego out = Some (dest, next) /\ Forall2 (has_field out) (s_disc (f_vars d)) dest /\ Forall2 (has_field out) (s_cont (f_vars d) ++ s_stat (f_vars d)) next.
Proof.
  intros Hd Hk Ho. set (val x := match dget word_eqb x out with Some u => to_str u | None => Num 0 end).
  assert (E : mapM (fun kv : word * pyval => do v <- dget word_eqb (fst kv) out; Some (fst kv, to_str v)) ego = Some (map (fun x => (x, val x)) (names d))).
  { rewrite <- Hk, map_map. apply mapM_all. intros [k v] I. cbn [fst]. unfold val. assert (In k (names d)) as Ik by (rewrite <- Hk; apply in_map_iff; exists (k, v); auto).
    specialize (Ho k Ik). destruct (dget word_eqb k out); [reflexivity|congruence]. }
  assert (F : forall (b : bool) l, (forall x, In x l -> In x (names d)) -> map snd (filter (fun kv : word * pyval => Bool.eqb b (disc_field (c_defs ag) (fst kv))) (map (fun x => (x, val x)) l)) = map val (filter (fun x => Bool.eqb b (disc_field (c_defs ag) x)) l)).
  { clear. intros b. induction l as [|x l IH]; intros H; cbn; [reflexivity|]. destruct (Bool.eqb b _); cbn; rewrite IH; auto; intros y I; apply H; now right. }
  assert (Keep : forall f (l : list word), (forall x, In x l -> f x = true) -> filter f l = l).
  { clear. intros f. induction l as [|x l IH]; cbn; intros H; [reflexivity|]. rewrite (H x (or_introl eq_refl)). f_equal. apply IH. auto. }
  assert (Drop : forall f (l : list word), (forall x, In x l -> f x = false) -> filter f l = []).
  { clear. intros f. induction l as [|x l IH]; cbn; intros H; [reflexivity|]. rewrite (H x (or_introl eq_refl)). apply IH. auto. }
  assert (HF : forall l, (forall x, In x l -> In x (names d)) -> Forall2 (has_field out) l (map val l)).
  { induction l as [|x l IH]; intros H; cbn; constructor; [|apply IH; intros y I; apply H; now right]. specialize (Ho x (H x (or_introl eq_refl))). unfold has_field, val.
    destruct (dget word_eqb x out) as [u|]; [|congruence]. exists u. split; [reflexivity|]. destruct u; reflexivity. }
  pose proof (proj1 Hd) as N. unfold names in N. destruct (nodup_parts _ _ _ N) as (_ & _ & _ & N4).
  assert (Dc : forall x, In x (s_cont (f_vars d)) -> In x (names d) /\ disc_field (c_defs ag) x = false).
  { intros x I. assert (In x (names d)) as Ix by (unfold names; rewrite !in_app_iff; auto). split; [exact Ix|]. destruct (disc_field (c_defs ag) x) eqn:E1; [|reflexivity]. exfalso.
    apply (disc_field_spec _ Hd Ix) in E1. apply (@nodup_app_notin _ _ x N); [apply in_app_iff; now left|exact I]. }
  assert (Ds : forall x, In x (s_stat (f_vars d)) -> In x (names d) /\ disc_field (c_defs ag) x = false).
  { intros x I. assert (In x (names d)) as Ix by (unfold names; rewrite !in_app_iff; auto). split; [exact Ix|]. destruct (disc_field (c_defs ag) x) eqn:E1; [|reflexivity]. exfalso.
    apply (disc_field_spec _ Hd Ix) in E1. exact (@nodup_app_notin _ _ x N4 I E1). }
  assert (Dd : forall x, In x (s_disc (f_vars d)) -> In x (names d) /\ disc_field (c_defs ag) x = true).
  { intros x I. assert (In x (names d)) as Ix by (unfold names; rewrite !in_app_iff; auto). split; [exact Ix|]. now apply (disc_field_spec _ Hd Ix). }
  exists (map val (s_disc (f_vars d))), (map val (s_cont (f_vars d) ++ s_stat (f_vars d))). split; [|split; apply HF].
  - unfold split_output. rewrite E. cbn [obind].
    rewrite (filter_ext _ (fun kv : word * pyval => Bool.eqb true (disc_field (c_defs ag) (fst kv)))) by (intros [? ?]; cbn [fst]; destruct (disc_field _ _); reflexivity).
    rewrite (filter_ext (fun kv : word * pyval => negb _) (fun kv : word * pyval => Bool.eqb false (disc_field (c_defs ag) (fst kv)))) by (intros [? ?]; cbn [fst]; destruct (disc_field _ _); reflexivity).
    rewrite !F by auto. unfold names. rewrite !filter_app.
    rewrite (Drop _ (s_cont (f_vars d))) by (intros x I; rewrite (proj2 (Dc x I)); reflexivity). rewrite (Keep _ (s_disc (f_vars d))) by (intros x I; rewrite (proj2 (Dd x I)); reflexivity).
    rewrite (Drop _ (s_stat (f_vars d))) by (intros x I; rewrite (proj2 (Ds x I)); reflexivity).
    rewrite (Keep _ (s_cont (f_vars d))) by (intros x I; rewrite (proj2 (Dc x I)); reflexivity). rewrite (Drop _ (s_disc (f_vars d))) by (intros x I; rewrite (proj2 (Dd x I)); reflexivity).
    rewrite (Keep _ (s_stat (f_vars d))) by (intros x I; rewrite (proj2 (Ds x I)); reflexivity). rewrite app_nil_r. reflexivity.
  - intros x I. apply Dd. exact I.
  - intros x I. apply in_app_iff in I. destruct I as [I|I]; [now apply Dc|now apply Ds].
Qed.

(** For the examples: different names, by computation. *)
Fixpoint distinct (l : list word) : bool := match l with [] => true | x :: r => negb (existsb (word_eqb x) r) && distinct r end.
Lemma distinct_NoDup l : distinct l = true -> NoDup l.
Proof.
  induction l as [|x l IH]; cbn; intros H; constructor; apply andb_true_iff in H; destruct H as [H1 H2]; [|auto].
  intros I. apply negb_true_iff in H1. assert (existsb (word_eqb x) l = true); [|congruence]. apply existsb_exists. exists x. split; [exact I|]. now apply weq.
Qed.

(** ** Discrete fields are members of enumerations *)
Lemma index_of_nth l x i : index_of l x = Some i -> nth_error l i = Some x.
Proof.
  unfold index_of. assert (G : forall k, (fix go l i := match l with [] => None | y :: r => if word_eqb x y then Some i else go r (S i) end) l k = Some i -> exists j, i = k + j /\ nth_error l j = Some x).
  { induction l as [|y l IH]; intros k E; [discriminate|]. destruct (word_eqb x y) eqn:Q.
    - injection E as <-. apply weq in Q. subst y. exists 0. split; [lia|reflexivity].
    - destruct (IH _ E) as (j & -> & Hj). exists (S j). split; [lia|exact Hj]. }
  intros E. destruct (G 0 E) as (j & -> & Hj). exact Hj.
Qed.
Lemma index_of_in l x : In x l -> exists i, index_of l x = Some i.
Proof.
  unfold index_of. generalize 0 as k. induction l as [|y l IH]; intros k H; [contradiction|]. destruct (word_eqb x y) eqn:Q; [eauto|].
  destruct H as [-> |H]; [rewrite (eqb_refl' _ weq) in Q; discriminate|]. apply IH. exact H.
Qed.
Lemma convert_mem enums x c s : forall l v, fold_opt (fun v d => convert1 enums x v d) l (Mem c s) = Some v -> v = Mem c s.
Proof.
  induction l as [|d l IH]; intros v E; cbn in E; [congruence|]. unfold convert1 at 1 in E. destruct (index_of _ x); [|exact (IH _ E)].
  destruct (nth_error (f_types d) n) as [c0|]; cbn in E; [|discriminate]. destruct (dget word_eqb c0 enums); discriminate E.
Qed.
Lemma convert_member enums x d : In x (s_disc (f_vars d)) -> forall l v v', In d l -> fold_opt (fun v d => convert1 enums x v d) l v = Some v' ->
  exists j c s ms, nth_error (s_disc (f_vars d)) j = Some x /\ nth_error (f_types d) j = Some c /\ v' = Mem c s /\ dget word_eqb c enums = Some ms /\ In s ms.
Proof.
  intros Hx. induction l as [|d0 l IH]; intros v v' Hin E; [contradiction|]. cbn in E. destruct (convert1 enums x v d0) as [u|] eqn:C; [|discriminate]. cbn in E.
  destruct Hin as [-> |Hin]; [|exact (IH _ _ Hin E)]. unfold convert1 in C. destruct (index_of_in _ _ Hx) as (j & Ej). rewrite Ej in C.
  destruct (nth_error (f_types d) j) as [c|] eqn:Ec; [|discriminate]. cbn in C. destruct (dget word_eqb c enums) as [ms|] eqn:Em; [|discriminate]. cbn in C.
  destruct v as [q|s|c' s'|l']; try discriminate. destruct (existsb (word_eqb s) ms) eqn:Es; [|discriminate]. injection C as <-. apply convert_mem in E. subst v'.
  apply existsb_exists in Es. destruct Es as (s' & I & Q). apply weq in Q. subst s'. exists j, c, s, ms. rewrite (index_of_nth _ _ Ej). auto.
Qed.
Lemma convert_membered ag n n' : convert (c_defs ag) (c_enums ag) n = Some n' -> membered ag n'.
Proof.
  intros E x v t d Hv Ht Hx. unfold convert in E. apply mapM_Forall2 in E. destruct (In_nth_error _ _ Hv) as (k & Hk). destruct (Forall2_nth_r _ E Hk) as ([x0 v0] & _ & E0). cbn [fst snd] in E0.
  destruct (fold_opt _ _ v0) as [u|] eqn:Eu in E0; [|discriminate]. cbn in E0. injection E0 as <- <-.
  apply (@convert_member _ _ d Hx _ _ _ (in_map snd _ _ Ht) Eu).
Qed.
Lemma args_membered ag me states e l : controller_args ag me states = Some (e, l) ->
  (existsb (fun a => word_eqb (l_name a) (w "ego")) (c_args ag) = true -> membered ag e) /\
  (forall n, In (ANs n) l -> membered ag n) /\ (forall ns n, In (AList ns) l -> In n ns -> membered ag n).
Proof.
  unfold controller_args. destruct (sense _ _ _ _ _) as [vw|]; [|discriminate]. cbn [obind]. destruct (pack _ _) as [packed|]; [|discriminate]. cbn [obind].
  match goal with |- context [obind ?X _] => destruct X as [e'|] eqn:Ee; [|discriminate] end. cbn [obind].
  match goal with |- context [obind ?X _] => destruct X as [l'|] eqn:El; [|discriminate] end. cbn [obind]. intros [= <- <-].
  assert (G0 : existsb (fun a => word_eqb (l_name a) (w "ego")) (c_args ag) = true -> membered ag e').
  { intros H. rewrite H in Ee. exact (convert_membered _ _ Ee). }
  split; [exact G0|]. apply mapM_Forall2 in El.
  assert (G : forall y, In y l' -> exists a, In a (c_args ag) /\ (if word_eqb (l_name a) (w "ego") then Some (ANs e')
      else do v <- env_of packed a; match v with AMap => Some AMap | ANs n => do n' <- convert (c_defs ag) (c_enums ag) n; Some (ANs n')
           | AList ns => do ns' <- mapM (convert (c_defs ag) (c_enums ag)) ns; Some (AList ns') end) = Some y).
  { intros y Hy. destruct (In_nth_error _ _ Hy) as (k & Hk). destruct (Forall2_nth_r _ El Hk) as (a & Ha & E). exists a. split; [exact (nth_error_In _ _ Ha)|exact E]. }
  split.
  - intros n Hn. destruct (G _ Hn) as (a & Ha & E). destruct (word_eqb (l_name a) (w "ego")) eqn:Q.
    + injection E as <-. apply G0. apply existsb_exists. eauto.
    + destruct (env_of packed a) as [v|]; [|discriminate]. cbn in E. destruct v as [|m|m]; [discriminate| |].
      * destruct (convert _ _ m) as [m'|] eqn:C; [|discriminate]. cbn in E. injection E as <-. exact (convert_membered _ _ C).
      * destruct (mapM _ m); discriminate E.
  - intros ns n Hn Hin. destruct (G _ Hn) as (a & Ha & E). destruct (word_eqb (l_name a) (w "ego")); [discriminate|].
    destruct (env_of packed a) as [v|]; [|discriminate]. cbn in E. destruct v as [|m|m]; [discriminate| |].
    + destruct (convert _ _ m); discriminate E.
    + destruct (mapM _ m) as [m'|] eqn:C; [|discriminate]. cbn in E. injection E as <-. apply mapM_Forall2 in C. destruct (In_nth_error _ _ Hin) as (k & Hk).
      destruct (Forall2_nth_r _ C Hk) as (n0 & _ & C0). exact (convert_membered _ _ C0).
Qed.
