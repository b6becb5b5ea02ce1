(** Proofs about the sensor. *)
From Coq Require Import Ascii String.
From Verif Require Import Base BaseFacts Dict PyText ResetProofs Sensor SensorSpec.
Set Implicit Arguments.
Open Scope nat_scope.

Lemma key_inj thing thing' x x' : ~ In "."%char thing -> ~ In "."%char thing' -> key thing x = key thing' x' -> thing = thing' /\ x = x'.
Proof.
  unfold key. revert thing'. induction thing as [|c r IH]; intros [|c' r'] H H' E; cbn in *.
  - injection E as <-. auto.
  - injection E as <- _. exfalso. apply H'. left. reflexivity.
  - injection E as -> _. exfalso. apply H. left. reflexivity.
  - injection E as <- E. destruct (IH r') as [-> ->]; auto.
Qed.
Lemma key_inj_attr thing x x' : key thing x = key thing x' -> x = x'.
Proof. unfold key. intros E. apply app_inv_head in E. injection E as E. exact E. Qed.

Section Sets.
  Variable V : Type.
  Notation D := (dict word (entry V)).

  Lemma sets_other : forall attrs vals (d : D) thing k, (forall x, In x attrs -> k <> key thing x) ->
    dget word_eqb k (sets d thing attrs vals) = dget word_eqb k d.
  Proof.
    unfold sets. induction attrs as [|x r IH]; intros [|v vs] d thing k H; cbn [combine fold_left fst snd]; try reflexivity.
    rewrite IH by (intros y Hy; apply H; right; exact Hy). unfold dset. apply dget_alter_other; [apply word_eqb_eq|]. apply not_eq_sym. apply H. left. reflexivity.
  Qed.
  Lemma sets_hit : forall attrs vals (d : D) thing j x v, NoDup attrs -> nth_error attrs j = Some x -> nth_error vals j = Some v ->
    dget word_eqb (key thing x) (sets d thing attrs vals) = Some (One v).
  Proof.
    induction attrs as [|y r IH]; intros [|u vs] d thing [|j] x v ND Hx Hv; try discriminate; apply NoDup_cons_iff in ND; destruct ND as [N1 N2]; cbn in Hx, Hv.
    - injection Hx as ->. injection Hv as ->. unfold sets. cbn [combine fold_left fst snd].
      fold (sets (dset word_eqb (key thing x) (One v) d) thing r vs).
      rewrite sets_other by (intros z Hz E; apply key_inj_attr in E; subst z; contradiction).
      unfold dset. apply dget_alter_same. apply word_eqb_eq.
    - unfold sets. cbn [combine fold_left fst snd]. fold (sets (dset word_eqb (key thing y) (One u) d) thing r vs). eauto.
  Qed.
  Lemma sets_some : forall attrs vals (d : D) thing k, dget word_eqb k (sets d thing attrs vals) <> None ->
    dget word_eqb k d <> None \/ exists x, In x attrs /\ k = key thing x.
  Proof.
    intros attrs vals d thing k H. destruct (in_dec (list_eq_dec ascii_dec) k (map (key thing) attrs)) as [I|I].
    - right. apply in_map_iff in I. destruct I as (x & <- & Hx). eauto.
    - left. rewrite sets_other in H; [exact H|]. intros x Hx ->. apply I. apply in_map. exact Hx.
  Qed.

  Lemma adds_other : forall attrs vals (d d' : D) thing k, adds d thing attrs vals = Some d' -> (forall x, In x attrs -> k <> key thing x) ->
    dget word_eqb k d' = dget word_eqb k d.
  Proof.
    unfold adds. induction attrs as [|x r IH]; intros [|v vs] d d' thing k H Hk; cbn [combine fold_opt] in H; try (injection H as <-; reflexivity).
    destruct (add1 thing d (x, v)) as [d1|] eqn:E; [|discriminate]. cbn [obind] in H. rewrite (IH _ _ _ _ k H) by (intros y Hy; apply Hk; right; exact Hy).
    assert (N : key thing x <> k) by (apply not_eq_sym; apply Hk; left; reflexivity).
    unfold add1 in E. cbn [fst snd] in E. destruct (dget word_eqb (key thing x) d) as [[u|l]|]; try discriminate; injection E as <-; unfold dset; apply dget_alter_other; auto using word_eqb_eq.
  Qed.
  (** The list of values so far. *)
  Definition so_far (o : option (entry V)) : option (list V) :=
    match o with None => Some [] | Some (Many l) => Some l | Some (One _) => None end.
  Lemma adds_hit : forall attrs vals (d : D) thing, NoDup attrs -> length attrs <= length vals ->
    (forall x, In x attrs -> so_far (dget word_eqb (key thing x) d) <> None) ->
    exists d', adds d thing attrs vals = Some d' /\
      forall j x l, nth_error attrs j = Some x -> so_far (dget word_eqb (key thing x) d) = Some l ->
        exists v, nth_error vals j = Some v /\ dget word_eqb (key thing x) d' = Some (Many (l ++ [v])).
  Proof.
    unfold adds. induction attrs as [|y r IH]; intros [|u vs] d thing ND L Hs; cbn [length] in L; try lia; cbn [combine fold_opt].
    - exists d. split; [reflexivity|]. intros [|j] x l Hx; discriminate.
    - exists d. split; [reflexivity|]. intros [|j] x l Hx; discriminate.
    - apply NoDup_cons_iff in ND. destruct ND as [N1 N2]. pose proof (Hs y (or_introl eq_refl)) as Hy.
      assert (E : exists l1, so_far (dget word_eqb (key thing y) d) = Some l1 /\ add1 thing d (y, u) = Some (dset word_eqb (key thing y) (Many (l1 ++ [u])) d)).
      { unfold add1. cbn [fst snd]. destruct (dget word_eqb (key thing y) d) as [[z|l]|]; cbn in *; [contradiction|exists l|exists []]; auto. }
      destruct E as (l1 & E1 & E2). rewrite E2. cbn [obind].
      assert (O : forall x, In x r -> dget word_eqb (key thing x) (dset word_eqb (key thing y) (Many (l1 ++ [u])) d) = dget word_eqb (key thing x) d).
      { intros x Hx. unfold dset. apply dget_alter_other; [apply word_eqb_eq|]. intros E. apply key_inj_attr in E. subst y. contradiction. }
      destruct (IH vs (dset word_eqb (key thing y) (Many (l1 ++ [u])) d) thing N2) as (d' & Ed & Hd); [lia| |].
      { intros x Hx. rewrite O by exact Hx. apply Hs. right. exact Hx. }
      exists d'. split; [exact Ed|]. intros [|j] x l Hx Hl; cbn in Hx |- *.
      + injection Hx as ->. exists u. split; [reflexivity|].
        assert (K : dget word_eqb (key thing x) d' = dget word_eqb (key thing x) (dset word_eqb (key thing x) (Many (l1 ++ [u])) d)).
        { apply (@adds_other r vs _ _ thing (key thing x) Ed). intros z Hz E. apply key_inj_attr in E. subst z. contradiction. }
        rewrite K. unfold dset. rewrite dget_alter_same by apply word_eqb_eq. congruence.
      + apply (Hd j x l Hx). rewrite O by (eapply nth_error_In; exact Hx). exact Hl.
  Qed.
  Lemma adds_some : forall attrs vals (d d' : D) thing k, adds d thing attrs vals = Some d' -> dget word_eqb k d' <> None ->
    dget word_eqb k d <> None \/ exists x, In x attrs /\ k = key thing x.
  Proof.
    intros attrs vals d d' thing k E H. destruct (in_dec (list_eq_dec ascii_dec) k (map (key thing) attrs)) as [I|I].
    - right. apply in_map_iff in I. destruct I as (x & <- & Hx). eauto.
    - left. rewrite <- (@adds_other attrs vals _ _ thing k E); [exact H|]. intros x Hx ->. apply I. apply in_map. exact Hx.
  Qed.
End Sets.

Section Sense.
  Variables St V D : Type.
  Variable values : St -> option (list V).
  Variables (args : list arg) (defs : dict word sdef) (me : nat).
  Notation astate := (astate St D).
  Variables (te to name : word) (de do_ : sdef).
  Hypothesis He : ego_type args = Some te.
  Hypothesis Hde : dget word_eqb te defs = Some de.
  Hypothesis Ho : other_arg args = Some (name, to).
  Hypothesis Hdo : dget word_eqb to defs = Some do_.
  Hypothesis Nname : ~ In "."%char name.
  Hypothesis NDe : NoDup (s_cont de) /\ NoDup (s_disc de ++ s_stat de).
  Hypothesis NDo : NoDup (s_cont do_) /\ NoDup (s_disc do_ ++ s_stat do_).

  Notation cont_of := (cont_of values).
  Notation fits := (fits values).

  Lemma name_not_ego : name <> w "ego".
  Proof.
    revert Ho. unfold other_arg. destruct (find _ args) as [a|] eqn:E; [|discriminate]. destruct (a_typ a); [|discriminate]. cbn. intros H. injection H as <- _.
    apply find_some in E. destruct E as [_ E]. apply andb_true_iff in E. destruct E as [E _]. apply negb_true_iff in E. apply word_eqb_neq in E. exact E.
  Qed.
  Lemma ego_nodot : ~ In "."%char (w "ego").
  Proof. cbn. intuition discriminate. Qed.
  Lemma keys_apart x y : key (w "ego") x <> key name y.
  Proof. intros E. apply key_inj in E; [|apply ego_nodot|exact Nname]. destruct E as [E _]. symmetry in E. exact (name_not_ego E). Qed.

  (** One object's bindings in a dictionary. *)
  Definition pre_ok {X} (d : dict word (entry X)) (names : list word) (get : astate -> list X) (l : list astate) : Prop :=
    forall j x, nth_error names j = Some x -> exists vs, so_far (dget word_eqb (key name x) d) = Some vs /\
      (l <> [] -> dget word_eqb (key name x) d <> None) /\ Forall2 (fun a v => nth_error (get a) j = Some v) l vs.

  Lemma pre_other {X} (d d' : dict word (entry X)) names get l :
    (forall x, dget word_eqb (key name x) d' = dget word_eqb (key name x) d) -> pre_ok d names get l -> pre_ok d' names get l.
  Proof. intros E H j x Hx. rewrite E. exact (H j x Hx). Qed.
  Lemma pre_sets {X} (d : dict word (entry X)) names get l at_ vs : pre_ok d names get l -> pre_ok (sets d (w "ego") at_ vs) names get l.
  Proof. apply pre_other. intros x. apply sets_other. intros y _ E. symmetry in E. exact (@keys_apart _ _ E). Qed.
  Lemma pre_adds_same {X} (d d' : dict word (entry X)) names get l a :
    NoDup names -> length names <= length (get a) -> pre_ok d names get l ->
    adds d name names (get a) = Some d' -> pre_ok d' names get (l ++ [a]).
  Proof.
    intros ND L H E j x Hx. destruct (H j x Hx) as (vs & H1 & H2 & H3).
    destruct (@adds_hit X names (get a) d name ND L) as (d1 & E1 & Hd).
    { intros y Hy. apply In_nth_error in Hy. destruct Hy as (i & Hy). destruct (H i y Hy) as (vs' & H1' & _). congruence. }
    rewrite E in E1. injection E1 as <-. destruct (Hd j x vs Hx H1) as (v & Hv & Hg). rewrite Hg. cbn. exists (vs ++ [v]). split; [reflexivity|]. split; [discriminate|].
    apply Forall2_app; [exact H3|]. repeat constructor. exact Hv.
  Qed.
  Lemma pre_adds_other {X} (d d' : dict word (entry X)) names get l at_ vs :
    (forall x, In x names -> ~ In x at_) -> pre_ok d names get l -> adds d name at_ vs = Some d' -> pre_ok d' names get l.
  Proof.
    intros Hdis H E j x Hx. rewrite (@adds_other _ at_ vs _ _ name (key name x) E); [exact (H j x Hx)|].
    intros y Hy Eq. apply key_inj_attr in Eq. subst y. exact (Hdis x (nth_error_In _ _ Hx) Hy).
  Qed.
  Lemma adds_ok {X} (d : dict word (entry X)) names get l a :
    NoDup names -> length names <= length (get a) -> pre_ok d names get l -> exists d', adds d name names (get a) = Some d'.
  Proof.
    intros ND L H. destruct (@adds_hit X names (get a) d name ND L) as (d1 & E1 & _); [|eauto].
    intros y Hy. apply In_nth_error in Hy. destruct Hy as (i & Hy). destruct (H i y Hy) as (vs' & H1' & _). congruence.
  Qed.

  Definition good (vw : views V D) (mine : option astate) (l : list astate) : Prop :=
    (forall a, mine = Some a -> binds (fst vw) (w "ego") (s_cont de) (is_value cont_of a) /\
        binds (snd vw) (w "ego") (s_disc de) (is_value mode_of a) /\ binds (snd vw) (w "ego") (s_stat de) (is_value stat_of a)) /\
    pre_ok (fst vw) (s_cont do_) cont_of l /\ pre_ok (snd vw) (s_disc do_) mode_of l /\ pre_ok (snd vw) (s_stat do_) stat_of l /\
    binds_only (fst vw) [(w "ego", s_cont de); (name, s_cont do_)] /\
    binds_only (snd vw) [(w "ego", s_disc de ++ s_stat de); (name, s_disc do_ ++ s_stat do_)].

  Lemma NoDup_app_l {A} (l m : list A) : NoDup (l ++ m) -> NoDup l.
  Proof. induction l as [|a r IH]; intros H; [constructor|]. cbn in H. apply NoDup_cons_iff in H. destruct H as [H1 H2]. constructor; [|auto]. intros I. apply H1. apply in_or_app. auto. Qed.
  Lemma NoDup_app_r {A} (l m : list A) : NoDup (l ++ m) -> NoDup m.
  Proof. induction l as [|a r IH]; intros H; [exact H|]. cbn in H. apply NoDup_cons_iff in H. tauto. Qed.
  Lemma NoDup_app_disj {A} (l m : list A) x : NoDup (l ++ m) -> In x l -> In x m -> False.
  Proof. induction l as [|a r IH]; intros H I J; [destruct I|]. cbn in H. apply NoDup_cons_iff in H. destruct H as [H1 H2]. destruct I as [->|I]; [apply H1, in_or_app; auto|auto]. Qed.

  Lemma binds_sets {X} (d : dict word (entry X)) names get (a : astate) : NoDup names -> length names <= length (get a) ->
    binds (sets d (w "ego") names (get a)) (w "ego") names (is_value get a).
  Proof.
    intros ND L j x Hx. assert (Hv : nth_error (get a) j <> None). { apply nth_error_Some. assert (j < length names) by (apply nth_error_Some; congruence). lia. }
    destruct (nth_error (get a) j) as [v|] eqn:Ev; [|contradiction]. exists (One v). split; [exact (@sets_hit _ names (get a) d (w "ego") j x v ND Hx Ev)|]. exists v. auto.
  Qed.
  Lemma binds_keep {X} (d d' : dict word (entry X)) names bound :
    (forall x, In x names -> dget word_eqb (key (w "ego") x) d' = dget word_eqb (key (w "ego") x) d) ->
    binds d (w "ego") names bound -> binds d' (w "ego") names bound.
  Proof. intros E H j x Hx. destruct (H j x Hx) as (e & H1 & H2). exists e. split; [|exact H2]. unfold key in E. rewrite E by (eapply nth_error_In; exact Hx). exact H1. Qed.

  Lemma only_sets {X} (d : dict word (entry X)) at_ vs L all : binds_only d L -> In (w "ego", all) L -> incl at_ all ->
    binds_only (sets d (w "ego") at_ vs) L.
  Proof.
    intros H I J k Hk. apply sets_some in Hk. destruct Hk as [Hk|(x & Hx & ->)]; [exact (H k Hk)|]. exists (w "ego"), all, x. auto.
  Qed.
  Lemma only_adds {X} (d d' : dict word (entry X)) at_ vs L all : binds_only d L -> In (name, all) L -> incl at_ all ->
    adds d name at_ vs = Some d' -> binds_only d' L.
  Proof.
    intros H I J E k Hk. destruct (@adds_some _ at_ vs _ _ name k E Hk) as [Hk'|(x & Hx & ->)]; [exact (H k Hk')|]. exists name, all, x. auto.
  Qed.

  Lemma sense1_good vw mine l p : good vw mine l ->
    (fst p = me -> fits de (snd p) /\ mine = None) -> (fst p <> me -> fits do_ (snd p)) ->
    exists vw', sense1 values args defs me vw p = Some vw' /\
      if fst p =? me then good vw' (Some (snd p)) l else good vw' mine (l ++ [snd p]).
  Proof.
    intros (G1 & G2 & G3 & G4 & G5 & G6) Hm Hn. destruct p as [aid a]. cbn [fst snd] in *. destruct NDe as [NDe1 NDe2]. destruct NDo as [NDo1 NDo2].
    destruct a as [[st mode] static] eqn:Ea. unfold sense1. destruct (aid =? me) eqn:Eq.
    - apply Nat.eqb_eq in Eq. destruct (Hm Eq) as [(F1 & F2 & F3 & F4) ->]. rewrite He, Hde. cbn [obind].
      unfold cont_of in F2. cbn [fst snd] in F1, F2. destruct (values st) as [vals|] eqn:Ev; [|contradiction]. cbn [obind]. eexists. split; [reflexivity|]. rewrite <- Ea in *.
      assert (C : cont_of a = vals) by (unfold cont_of; rewrite Ea; cbn [fst]; rewrite Ev; reflexivity).
      assert (M : mode_of a = mode) by (rewrite Ea; reflexivity). assert (S : stat_of a = static) by (rewrite Ea; reflexivity).
      rewrite <- C, <- M, <- S. rewrite <- C in F2. unfold good. cbn [fst snd]. split; [|split; [|split; [|split; [|split]]]].
      + intros b Hb. injection Hb as <-. split; [apply binds_sets; assumption|]. split.
        * eapply binds_keep; [|apply binds_sets; [exact (@NoDup_app_l _ _ _ NDe2)|exact F3]]. intros x Hx. apply sets_other. intros y Hy E. apply key_inj_attr in E. subst y. exact (@NoDup_app_disj _ _ _ _ NDe2 Hx Hy).
        * apply binds_sets; [exact (@NoDup_app_r _ _ _ NDe2)|exact F4].
      + apply pre_sets. exact G2.
      + apply pre_sets, pre_sets. exact G3.
      + apply pre_sets, pre_sets. exact G4.
      + eapply only_sets; [exact G5|left; reflexivity|apply incl_refl].
      + eapply only_sets; [eapply only_sets; [exact G6|left; reflexivity|apply incl_appl, incl_refl]|left; reflexivity|apply incl_appr, incl_refl].
    - apply Nat.eqb_neq in Eq. destruct (Hn Eq) as (F1 & F2 & F3 & F4). rewrite Ho, Hdo. cbn [obind].
      unfold cont_of in F2. cbn [fst snd] in F1, F2. destruct (values st) as [vals|] eqn:Ev; [|contradiction]. cbn [obind]. rewrite <- Ea in *.
      assert (C : cont_of a = vals) by (unfold cont_of; rewrite Ea; cbn [fst]; rewrite Ev; reflexivity).
      assert (M : mode_of a = mode) by (rewrite Ea; reflexivity). assert (S : stat_of a = static) by (rewrite Ea; reflexivity).
      rewrite <- C, <- M, <- S. rewrite <- C in F2.
      destruct (@adds_ok _ _ _ _ l a NDo1 F2 G2) as (c & Ec). rewrite Ec. cbn [obind].
      destruct (@adds_ok _ _ _ _ l a (@NoDup_app_l _ _ _ NDo2) F3 G3) as (d1 & Ed1). rewrite Ed1. cbn [obind].
      assert (G4' : pre_ok d1 (s_stat do_) stat_of l). { eapply pre_adds_other; [|exact G4|exact Ed1]. intros x Hx Hy. exact (@NoDup_app_disj _ _ _ _ NDo2 Hy Hx). }
      destruct (@adds_ok _ _ _ _ l a (@NoDup_app_r _ _ _ NDo2) F4 G4') as (d2 & Ed2). rewrite Ed2. cbn [obind].
      eexists. split; [reflexivity|]. unfold good. cbn [fst snd]. split; [|split; [|split; [|split; [|split]]]].
      + intros b Hb. destruct (G1 b Hb) as (B1 & B2 & B3). split; [|split].
        * eapply binds_keep; [|exact B1]. intros x _. apply (@adds_other _ _ _ _ _ _ (key (w "ego") x) Ec). intros y _. apply keys_apart.
        * eapply binds_keep; [|exact B2]. intros x _. rewrite (@adds_other _ _ _ _ _ _ (key (w "ego") x) Ed2) by (intros y _; apply keys_apart). apply (@adds_other _ _ _ _ _ _ (key (w "ego") x) Ed1). intros y _. apply keys_apart.
        * eapply binds_keep; [|exact B3]. intros x _. rewrite (@adds_other _ _ _ _ _ _ (key (w "ego") x) Ed2) by (intros y _; apply keys_apart). apply (@adds_other _ _ _ _ _ _ (key (w "ego") x) Ed1). intros y _. apply keys_apart.
      + exact (@pre_adds_same _ _ _ _ _ l a NDo1 F2 G2 Ec).
      + eapply pre_adds_other; [|exact (@pre_adds_same _ _ _ _ _ l a (@NoDup_app_l _ _ _ NDo2) F3 G3 Ed1)|exact Ed2]. intros x Hx Hy. exact (@NoDup_app_disj _ _ _ _ NDo2 Hx Hy).
      + exact (@pre_adds_same _ _ _ _ _ l a (@NoDup_app_r _ _ _ NDo2) F4 G4' Ed2).
      + eapply only_adds; [exact G5|right; left; reflexivity|apply incl_refl|exact Ec].
      + eapply only_adds; [eapply only_adds; [exact G6|right; left; reflexivity|apply incl_appl, incl_refl|exact Ed1]|right; left; reflexivity|apply incl_appr, incl_refl|exact Ed2].
  Qed.

  Lemma fold_good : forall states vw mine l, NoDup (map fst states) -> good vw mine l ->
    (forall a, In (me, a) states -> fits de a /\ mine = None) -> (forall i a, In (i, a) states -> i <> me -> fits do_ a) ->
    exists vw', fold_opt (sense1 values args defs me) states vw = Some vw' /\
      good vw' (match dget Nat.eqb me states with Some a => Some a | None => mine end) (l ++ others me states).
  Proof.
    induction states as [|[aid a] r IH]; intros vw mine l ND G Hm Hn; cbn [fold_opt dget].
    - exists vw. split; [reflexivity|]. unfold others. cbn. rewrite app_nil_r. exact G.
    - cbn [map fst] in ND. apply NoDup_cons_iff in ND. destruct ND as [N1 N2].
      destruct (@sense1_good vw mine l (aid, a) G) as (vw1 & E1 & G1).
      { cbn. intros ->. apply Hm. left. reflexivity. } { cbn. intros H. apply (Hn aid); [left; reflexivity|exact H]. }
      rewrite E1. cbn [obind]. cbn [fst snd] in G1. rewrite (Nat.eqb_sym me aid). destruct (aid =? me) eqn:Eq.
      + apply Nat.eqb_eq in Eq. subst aid. assert (Dn : dget Nat.eqb me r = None) by (apply dget_None; [apply Nat.eqb_eq|exact N1]).
        destruct (IH vw1 (Some a) l N2 G1) as (vw' & E' & G').
        { intros b Hb. exfalso. apply N1. apply (in_map fst) in Hb. exact Hb. } { intros i b Hb. apply Hn. right. exact Hb. }
        rewrite Dn in G'. exists vw'. split; [exact E'|]. unfold others. cbn [filter fst]. rewrite Nat.eqb_refl. exact G'.
      + destruct (IH vw1 mine (l ++ [a]) N2 G1) as (vw' & E' & G').
        { intros b Hb. apply Hm. right. exact Hb. } { intros i b Hb. apply Hn. right. exact Hb. }
        exists vw'. split; [exact E'|]. unfold others in *. cbn [filter fst]. rewrite Eq. cbn. rewrite <- app_assoc in G'. exact G'.
  Qed.
End Sense.
