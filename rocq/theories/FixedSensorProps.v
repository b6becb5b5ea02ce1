(** Property C115: the sensors of the examples (verse/sensor/example_sensor).

    [binds], [is_value], [are_values], [others] are the vocabulary of C14 (SensorSpec.v). *)
From Coq Require Import Ascii String.
From Verif Require Import Base BaseFacts Dict PyText Sensor SensorSpec SensorProofs SensorProps FixedSensor FixedSensorProofs.
Set Implicit Arguments.
Open Scope nat_scope.

Definition example_sensor (f : fixed) : Prop := f = thermo \/ f = craft \/ f = quadrotor.
Lemma fixed_names f : example_sensor f -> NoDup (f_cont f) /\ NoDup (f_disc f).
Proof. intros [-> | [-> | ->]]; split; cbn; repeat constructor; cbn; intuition discriminate. Qed.

(** ** C115: an example sensor shows an agent its own state and the list of the states of all others, in order. *)
Theorem C115_view : forall (St V D : Type) (values : St -> option (list V)) f me (states : dict nat (astate St D)) own,
  example_sensor f -> NoDup (map fst states) -> dget Nat.eqb me states = Some own ->
  (forall i a, In (i, a) states -> values (fst (fst a)) <> None /\ length (f_cont f) <= length (cont_of values a) /\ length (f_disc f) <= length (mode_of a)) ->
  exists cont disc len,
    fixed_sense values f me states = Some (cont, disc, len) /\
    binds cont (w "ego") (f_cont f) (is_value (cont_of values) own) /\
    binds disc (w "ego") (f_disc f) (is_value mode_of own) /\
    (others me states <> [] ->
      binds cont (w "others") (f_cont f) (are_values (cont_of values) (others me states)) /\
      binds disc (w "others") (f_disc f) (are_values mode_of (others me states))) /\
    binds_only cont [(w "ego", f_cont f); (w "others", f_cont f)] /\
    binds_only disc [(w "ego", f_disc f); (w "others", f_disc f)] /\
    len = [(w "others", length (others me states))].
Proof.
  intros St V D values f me states own Hf Hs Ho Hfit. destruct (fixed_names Hf) as [N1 N2]. set (sd := mk_sdef (f_cont f) (f_disc f) []).
  assert (Fit : forall i a, In (i, a) states -> fits values sd a).
  { intros i a Hi. destruct (Hfit i a Hi) as (A & B & C). split; [exact A|]. split; [exact B|]. split; [exact C|]. cbn. lia. }
  destruct (@C14_view_partial St V D values fargs (fdefs f) me states own (w "T") (w "T") (w "others") sd sd) as (cont & disc & len & E & B1 & B2 & _ & B3 & O1 & O2 & L).
  - exact Hs.
  - exact Ho.
  - reflexivity.
  - reflexivity.
  - reflexivity.
  - reflexivity.
  - cbn. intuition discriminate.
  - exact N1.
  - cbn. rewrite app_nil_r. exact N2.
  - exact N1.
  - cbn. rewrite app_nil_r. exact N2.
  - apply dget_In in Ho; [|exact Nat.eqb_eq]. exact (Fit _ _ Ho).
  - intros a Ha. unfold others in Ha. apply in_map_iff in Ha. destruct Ha as ([i a'] & <- & Ha). apply filter_In in Ha. exact (Fit _ _ (proj1 Ha)).
  - exists cont, disc, len. cbn [s_cont s_disc s_stat sd] in *. rewrite app_nil_r in O2. split; [rewrite <- E; eapply fixed_base with (te := w "T") (to := w "T"); reflexivity|].
    split; [exact B1|]. split; [exact B2|]. split; [intros Hne; destruct (B3 Hne) as (X & Y & _); auto|]. auto.
Qed.
Print Assumptions C115_view.

(** ** C115: for agents declared with these variables, and with no more of them, it can replace the base sensor. *)
Theorem C115_same_simulate : forall (V D : Type) f args defs me (states : dict nat (astate (list V) D)) te to sde sdo,
  ego_type args = Some te -> other_arg args = Some (w "others", to) -> dget word_eqb te defs = Some sde -> dget word_eqb to defs = Some sdo ->
  s_cont sde = f_cont f -> s_disc sde = f_disc f -> s_stat sde = [] -> s_cont sdo = f_cont f -> s_disc sdo = f_disc f -> s_stat sdo = [] ->
  (forall i a, In (i, a) states -> length (fst (fst a)) = S (length (f_cont f))) ->
  fixed_simulate f me states = sense values2 args defs me states.
Proof.
  intros V D f args defs me states te to sde sdo He Ho Hde Hdo A1 A2 A3 B1 B2 B3 HL. unfold fixed_simulate. rewrite (@fixed_base (list V) V D _ f args defs me states te to sde sdo); try assumption.
  apply sense_values. intros i a Hi. specialize (HL i a Hi). destruct (fst (fst a)) as [|t r]; [discriminate|]. unfold cut2, values2. cbn. cbn in HL. injection HL as HL. rewrite <- HL, firstn_all. reflexivity.
Qed.
Print Assumptions C115_same_simulate.

Theorem C115_same_verify : forall (V D : Type) f args defs me (states : dict nat (astate (list (list V)) D)) te to sde sdo,
  ego_type args = Some te -> other_arg args = Some (w "others", to) -> dget word_eqb te defs = Some sde -> dget word_eqb to defs = Some sdo ->
  s_cont sde = f_cont f -> s_disc sde = f_disc f -> s_stat sde = [] -> s_cont sdo = f_cont f -> s_disc sdo = f_disc f -> s_stat sdo = [] ->
  (forall i a row, In (i, a) states -> In row (fst (fst a)) -> length row = S (length (f_cont f))) ->
  fixed_verify f me states = sense values3 args defs me states.
Proof.
  intros V D f args defs me states te to sde sdo He Ho Hde Hdo A1 A2 A3 B1 B2 B3 HL. unfold fixed_verify. rewrite (@fixed_base (list (list V)) (list V) D _ f args defs me states te to sde sdo); try assumption.
  apply sense_values. intros i a Hi. unfold cut3. destruct (values3 (fst (fst a))) as [cols|] eqn:E; [|reflexivity]. cbn [obind].
  assert (Lc : length cols = length (f_cont f)).
  { unfold values3 in E. destruct (fst (fst a)) as [|r rows] eqn:Er; [discriminate|]. destruct (forallb _ _); [|discriminate]. apply mapM_Forall2 in E. apply Forall2_len in E. rewrite seq_length in E.
    rewrite (HL i a r Hi) in E by (rewrite Er; left; reflexivity). cbn in E. lia. }
  rewrite <- Lc, firstn_all, Nat.eqb_refl. reflexivity.
Qed.
Print Assumptions C115_same_verify.

(** ** C115: verifying with [SingleSensor], an agent sees its own state and that of the only other agent. *)
Theorem C115_single_partial : forall (St V D : Type) (values : St -> option (list V)) args defs me (states : dict nat (astate St D)) own other te to name de od,
  NoDup (map fst states) -> dget Nat.eqb me states = Some own -> others me states = [other] ->
  ego_type args = Some te -> dget word_eqb te defs = Some de ->
  other_arg args = Some (name, to) -> dget word_eqb to defs = Some od -> ~ In "."%char name ->
  NoDup (s_cont de) -> NoDup (s_disc de ++ s_stat de) -> NoDup (s_cont od) -> NoDup (s_disc od ++ s_stat od) ->
  fits values de own -> fits values od other ->
  exists cont disc len,
    single_sense values args defs me states = Some (cont, disc, len) /\
    binds cont (w "ego") (s_cont de) (is_value (cont_of values) own) /\
    binds disc (w "ego") (s_disc de) (is_value mode_of own) /\
    binds disc (w "ego") (s_stat de) (is_value stat_of own) /\
    binds cont name (s_cont od) (is_value (cont_of values) other) /\
    binds disc name (s_disc od) (is_value mode_of other) /\
    binds disc name (s_stat od) (is_value stat_of other) /\
    len = [(w "others", 1)].
Proof.
  intros St V D values args defs me states own other te to name de od Hs Hown Hoth He Hde Ho Hdo Nn N1 N2 N3 N4 (Fv & Fc & Fd & Fs) (Gv & Gc & Gd & Gs).
  assert (Nm : name <> w "ego") by (eapply name_not_ego; eassumption).
  assert (E2 : exists oid, oid <> me /\ (states = [(me, own); (oid, other)] \/ states = [(oid, other); (me, own)])).
  { clear - Hs Hown Hoth. unfold others in Hoth.
    assert (Hm : forall l : dict nat (astate St D), NoDup (map fst l) -> filter (fun p => negb (fst p =? me)) l = [] -> dget Nat.eqb me l = None -> l = []).
    { intros [|[i a] l] _ Hf Hg; [reflexivity|]. cbn in Hf, Hg. rewrite Nat.eqb_sym in Hg. destruct (i =? me); [discriminate|discriminate]. }
    destruct states as [|[i a] l]; [discriminate|]. cbn in Hs, Hown, Hoth. rewrite Nat.eqb_sym in Hown. inversion Hs as [|? ? Hn Hs' Eq]. subst. destruct (i =? me) eqn:Ei; cbn in Hoth.
    - apply Nat.eqb_eq in Ei. subst i. injection Hown as ->.
      destruct l as [|[j b] l]; [discriminate|]. cbn in Hoth. destruct (j =? me) eqn:Ej; [apply Nat.eqb_eq in Ej; subst; exfalso; apply Hn; left; reflexivity|]. cbn in Hoth. injection Hoth as -> Hl.
      exists j. apply Nat.eqb_neq in Ej. split; [exact Ej|]. left. repeat f_equal. inversion Hs'. subst. apply Hm; [assumption|apply map_eq_nil in Hl; exact Hl|].
      destruct (dget Nat.eqb me l) eqn:Eg; [|reflexivity]. apply dget_In in Eg; [|exact Nat.eqb_eq]. exfalso. apply Hn. right. apply in_map_iff. exists (me, a). auto.
    - injection Hoth as -> Hl. apply map_eq_nil in Hl. exists i. split; [apply Nat.eqb_neq; exact Ei|]. right. f_equal.
      destruct l as [|[j b] l]; [discriminate|]. cbn in Hl, Hown. rewrite Nat.eqb_sym in Hown. destruct (j =? me) eqn:Ej; [|discriminate]. apply Nat.eqb_eq in Ej. subst j. cbn in Hl. injection Hown as ->. f_equal.
      inversion Hs'. subst. apply Hm; [assumption|exact Hl|]. destruct (dget Nat.eqb me l) eqn:Eg; [|reflexivity]. apply dget_In in Eg; [|exact Nat.eqb_eq]. exfalso. apply H1. apply in_map_iff. exists (me, a). auto. }
  destruct own as [[st mode] sta], other as [[st' mode'] sta']. unfold cont_of, mode_of, stat_of in *. cbn [fst snd] in *.
  destruct (values st) as [vals|] eqn:Ev; [|contradiction]. destruct (values st') as [vals'|] eqn:Ev'; [|contradiction].
  assert (NE : forall x y, key (w "ego") x <> key name y).
  { intros x y E. apply key_inj in E; [|cbn; intuition discriminate|exact Nn]. apply Nm. symmetry. apply E. }
  assert (NE' : forall x y, key name x <> key (w "ego") y) by (intros x y E; exact (NE _ _ (eq_sym E))).
  pose proof (nodup_l _ _ N2) as Nd. pose proof (nodup_r _ _ N2) as Ns. pose proof (nodup_l _ _ N4) as Nd'. pose proof (nodup_r _ _ N4) as Ns'.
  assert (KA : forall thing x y, In x (s_disc de) -> In y (s_stat de) -> key thing x <> key thing y).
  { intros thing x y Hx Hy E. apply key_inj_attr in E. subst. exact (nodup_disj _ _ _ N2 Hx Hy). }
  assert (KB : forall thing x y, In x (s_disc od) -> In y (s_stat od) -> key thing x <> key thing y).
  { intros thing x y Hx Hy E. apply key_inj_attr in E. subst. exact (nodup_disj _ _ _ N4 Hx Hy). }
  destruct E2 as (oid & Hne & E2).
  assert (Eo : (oid =? me) = false) by (apply Nat.eqb_neq; exact Hne).
  assert (R : exists cont disc, single_sense values args defs me states = Some (cont, disc, [(w "others", 1)]) /\
    ((cont = sets (sets [] (w "ego") (s_cont de) vals) name (s_cont od) vals' /\
      disc = sets (sets (sets (sets [] (w "ego") (s_disc de) mode) (w "ego") (s_stat de) sta) name (s_disc od) mode') name (s_stat od) sta') \/
     (cont = sets (sets [] name (s_cont od) vals') (w "ego") (s_cont de) vals /\
      disc = sets (sets (sets (sets [] name (s_disc od) mode') name (s_stat od) sta') (w "ego") (s_disc de) mode) (w "ego") (s_stat de) sta))).
  { destruct E2 as [-> | ->]; unfold single_sense; cbn [fold_opt single1 fst snd]; rewrite ?Nat.eqb_refl, ?Eo, ?He, ?Ho; cbn [option_map obind fst snd]; rewrite ?Hde, ?Hdo; cbn [obind]; rewrite ?Ev, ?Ev'; cbn [obind fst snd];
      rewrite ?Nat.eqb_refl, ?Eo, ?He, ?Ho; cbn [option_map obind fst snd]; rewrite ?Hde, ?Hdo; cbn [obind]; rewrite ?Ev, ?Ev'; cbn [obind fst snd]; eexists _, _; (split; [reflexivity|]); [left|right]; auto. }
  destruct R as (cont & disc & Er & RR). exists cont, disc, [(w "others", 1)]. split; [exact Er|].
  assert (Lk : forall X (names : list word) (l : list X) j x, nth_error names j = Some x -> length names <= length l -> exists v, nth_error l j = Some v).
  { intros X names l j x Hj HL. destruct (nth_error l j) eqn:El; [eauto|]. apply nth_error_None in El. assert (j < length names) by (apply nth_error_Some; congruence). lia. }
  assert (KA' : forall thing x y, In x (s_stat de) -> In y (s_disc de) -> key thing x <> key thing y) by (intros thing x y Hx Hy E; exact (KA thing y x Hy Hx (eq_sym E))).
  assert (KB' : forall thing x y, In x (s_stat od) -> In y (s_disc od) -> key thing x <> key thing y) by (intros thing x y Hx Hy E; exact (KB thing y x Hy Hx (eq_sym E))).
  destruct RR as [[-> ->]|[-> ->]]; (split; [|split; [|split; [|split; [|split; [|split; [|reflexivity]]]]]]);
    intros j x Hj; pose proof (nth_error_In _ _ Hj) as Hx;
    (match goal with |- context [is_value ?g ?a j] => let l := eval cbn in (g a) in idtac end || idtac);
    unfold is_value; cbn [fst snd]; rewrite ?Ev, ?Ev';
    match goal with |- exists e, _ /\ exists v, e = One v /\ nth_error ?l j = Some v =>
      let v := fresh "v" in let Hv := fresh "Hv" in
      destruct (Lk _ _ l _ _ Hj) as [v Hv]; [assumption|]; exists (One v); split; [|exists v; split; [reflexivity|exact Hv]]
    end;
    repeat first [ eapply sets_hit; eassumption
                 | match goal with |- dget word_eqb ?k (sets ?d ?t ?n ?l) = _ => rewrite (@sets_other _ n l d t k) end; [|intros ? ?; first [apply NE|apply NE'|apply KA; assumption|apply KB; assumption|apply KA'; assumption|apply KB'; assumption]] ].
Qed.
Print Assumptions C115_single_partial.

(** ** C115 is false of [SingleSensor] with more agents: of several others, only the last is seen when verifying. *)
Theorem C115_single_refuted :
  ~ (forall (St V D : Type) (values : St -> option (list V)) args defs me (states : dict nat (astate St D)) te to name de od cont disc len,
       NoDup (map fst states) -> In me (map fst states) -> others me states <> [] ->
       ego_type args = Some te -> dget word_eqb te defs = Some de -> other_arg args = Some (name, to) -> dget word_eqb to defs = Some od -> ~ In "."%char name ->
       (forall i a, In (i, a) states -> fits values de a /\ fits values od a) ->
       single_sense values args defs me states = Some (cont, disc, len) ->
       forall a j x v, In a (others me states) -> nth_error (s_cont od) j = Some x -> nth_error (cont_of values a) j = Some v ->
         exists e, dget word_eqb (name ++ w "." ++ x) cont = Some e /\ (e = One v \/ exists vs, e = Many vs /\ In v vs)).
Proof.
  intros H.
  specialize (H (list nat) nat nat values2 fargs (fdefs (mk_fixed [w "x"] [])) 0
    [(0, ([0; 5], [], [])); (1, ([0; 6], [], [])); (2, ([0; 7], [], []))] (w "T") (w "T") (w "others") (mk_sdef [w "x"] [] []) (mk_sdef [w "x"] [] [])
    [(w "ego.x", One 5); (w "others.x", One 7)] [] [(w "others", 2)]).
  destruct (fun a b c d e f g h i j => H a b c d e f g h i j ([0; 6], [], []) 0 (w "x") 6) as (e & E1 & E2).
  - cbn. repeat constructor; cbn; intuition discriminate.
  - cbn. auto.
  - discriminate.
  - reflexivity.
  - reflexivity.
  - reflexivity.
  - reflexivity.
  - cbn. intuition discriminate.
  - intros i a [Hi | [Hi | [Hi | []]]]; injection Hi as <- <-; split; (split; [discriminate|cbn; lia]).
  - reflexivity.
  - cbn. auto.
  - reflexivity.
  - reflexivity.
  - cbn in E1. injection E1 as <-. destruct E2 as [E2 | (vs & E2 & _)]; discriminate.
Qed.
Print Assumptions C115_single_refuted.

(** ** C115 is false of variables the sensor does not know: a static variable, or a variable of another name, is never shown. *)
Theorem C115_unknown_refuted :
  ~ (forall (V D : Type) f args defs me (states : dict nat (astate (list V) D)) te to sde sdo r,
       example_sensor f -> ego_type args = Some te -> other_arg args = Some (w "others", to) -> dget word_eqb te defs = Some sde -> dget word_eqb to defs = Some sdo ->
       s_cont sde = f_cont f -> s_disc sde = f_disc f -> s_cont sdo = f_cont f -> s_disc sdo = f_disc f ->
       (forall i a, In (i, a) states -> length (fst (fst a)) = S (length (f_cont f)) /\ fits values2 sde a /\ fits values2 sdo a) ->
       sense values2 args defs me states = Some r -> fixed_simulate f me states = Some r).
Proof.
  intros H. set (sd := mk_sdef (f_cont thermo) (f_disc thermo) [w "id"]).
  specialize (H nat nat thermo fargs [(w "T", sd)] 0 [(0, ([0; 70; 1; 2], [3], [9]))] (w "T") (w "T") sd sd).
  destruct (sense values2 fargs [(w "T", sd)] 0 [(0, ([0; 70; 1; 2], [3], [9]))]) as [r|] eqn:E; [|discriminate E].
  specialize (H r (or_introl eq_refl) eq_refl eq_refl eq_refl eq_refl eq_refl eq_refl eq_refl eq_refl).
  lapply H; [|intros i a [Hi|[]]; injection Hi as <- <-; split; [reflexivity|split; (split; [discriminate|cbn; lia])]].
  intros H'. specialize (H' eq_refl). vm_compute in E. injection E as <-. vm_compute in H'. discriminate H'.
Qed.
Print Assumptions C115_unknown_refuted.

Module Example_fixed.
  (** Two rooms: the agent 0 sees its own temperature and the list with that of agent 1. *)
  Definition states : dict nat (astate (list nat) nat) := [(0, ([0; 70; 1; 2], [3], [])); (1, ([0; 60; 1; 2], [4], []))].
  Example fits_all : forall i a, In (i, a) states -> values2 (fst (fst a)) <> None /\ length (f_cont thermo) <= length (cont_of values2 a) /\ length (f_disc thermo) <= length (mode_of a).
  Proof. intros i a [H | [H | []]]; injection H as <- <-; cbn; (split; [discriminate|lia]). Qed.
  Example sees : exists r, fixed_simulate thermo 0 states = Some r /\ dget word_eqb (w "others.temp") (fst (fst r)) = Some (Many [60]) /\ dget word_eqb (w "ego.temp") (fst (fst r)) = Some (One 70).
  Proof. eexists. split; [reflexivity|]. split; reflexivity. Qed.
  (** When verifying, each variable has the values of its two rows, the lower and the upper bound. *)
  Example sees_box : exists r, fixed_verify (D := nat) thermo 0 [(0, ([[0; 70; 1; 2]; [1; 75; 2; 3]], [3], []))] = Some r /\ dget word_eqb (w "ego.temp") (fst (fst r)) = Some (One [70; 75]).
  Proof. eexists. split; reflexivity. Qed.
  Example single_sees : exists r, single_sense values2 fargs (fdefs thermo) 0 states = Some r /\ dget word_eqb (w "others.temp") (fst (fst r)) = Some (One 60).
  Proof. eexists. split; reflexivity. Qed.
End Example_fixed.
