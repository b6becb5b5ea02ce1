(** Property C14: what an agent senses. *)
From Coq Require Import Ascii String.
From Verif Require Import Base BaseFacts Dict PyText Sensor SensorSpec SensorProofs.
Set Implicit Arguments.
Open Scope nat_scope.

(** C14, when every agent has the variables its type declares: agent [me] sees its own values as ego and, under the name
    of its second argument, for each variable the list of the values of all other agents, in the order of the scenario;
    and nothing else.  (For [values] see C14_rows.)  Missing: agents with fewer variables, see C14_mixed_refuted. *)
Theorem C14_view_partial : forall (St V D : Type) (values : St -> option (list V)) args defs me (states : dict nat (astate St D))
    own te to name de od,
  NoDup (map fst states) -> dget Nat.eqb me states = Some own ->
  ego_type args = Some te -> dget word_eqb te defs = Some de ->
  other_arg args = Some (name, to) -> dget word_eqb to defs = Some od -> ~ In "."%char name ->
  NoDup (s_cont de) -> NoDup (s_disc de ++ s_stat de) -> NoDup (s_cont od) -> NoDup (s_disc od ++ s_stat od) ->
  fits values de own -> (forall a, In a (others me states) -> fits values od a) ->
  exists cont disc len,
    sense values args defs me states = Some (cont, disc, len) /\
    binds cont (w "ego") (s_cont de) (is_value (cont_of values) own) /\
    binds disc (w "ego") (s_disc de) (is_value mode_of own) /\
    binds disc (w "ego") (s_stat de) (is_value stat_of own) /\
    (others me states <> [] ->
      binds cont name (s_cont od) (are_values (cont_of values) (others me states)) /\
      binds disc name (s_disc od) (are_values mode_of (others me states)) /\
      binds disc name (s_stat od) (are_values stat_of (others me states))) /\
    binds_only cont [(w "ego", s_cont de); (name, s_cont od)] /\
    binds_only disc [(w "ego", s_disc de ++ s_stat de); (name, s_disc od ++ s_stat od)] /\
    len = [(w "others", length (others me states))].
Proof.
  intros St V D values args defs me states own te to name de od ND Hown He Hde Ho Hdo Nn N1 N2 N3 N4 Fown Foth.
  assert (Hmem : forall i a, In (i, a) states -> i <> me -> fits values od a).
  { intros i a Hi Hne. apply Foth. unfold others. apply in_map_iff. exists (i, a). split; [reflexivity|]. apply filter_In. split; [exact Hi|].
    cbn. apply negb_true_iff. apply Nat.eqb_neq. exact Hne. }
  assert (Hme : forall a, In (me, a) states -> fits values de a /\ @None (astate St D) = None).
  { intros a Ha. split; [|reflexivity]. rewrite (In_dget Nat.eqb Nat.eqb_eq me a states ND Ha) in Hown. injection Hown as <-. exact Fown. }
  assert (G0 : @good St V D values name de od ([], []) None []).
  { unfold good. cbn [fst snd]. split; [discriminate|]. repeat split; try (intros j x Hx; exists []; cbn; repeat split; [congruence|constructor]); intros k Hk; cbn in Hk; congruence. }
  destruct (@fold_good St V D values args defs me te to name de od He Hde Ho Hdo Nn (conj N1 N2) (conj N3 N4) states ([], []) None [] ND G0 Hme Hmem)
    as ([cont disc] & E & G). rewrite Hown in G. cbn [app] in G. destruct G as (G1 & G2 & G3 & G4 & G5 & G6). cbn [fst snd] in *. destruct (G1 own eq_refl) as (B1 & B2 & B3).
  exists cont, disc, [(w "others", length (others me states))].
  assert (P : forall X (d : dict word (entry X)) names (get : astate St D -> list X), others me states <> [] ->
              pre_ok name d names get (others me states) -> binds d name names (are_values get (others me states))).
  { intros X d names get Hne H j x Hx. destruct (H j x Hx) as (vs & S1 & S2 & S3). specialize (S2 Hne). unfold key in *.
    destruct (dget word_eqb (name ++ w "." ++ x) d) as [[v|l]|]; cbn in S1; try discriminate; [|contradiction]. injection S1 as ->. exists (Many vs). split; [reflexivity|]. exists vs. auto. }
  split; [|split; [exact B1|split; [exact B2|split; [exact B3|split; [intros Hne; auto|split; [exact G5|split; [exact G6|reflexivity]]]]]]].
  unfold sense. destruct states as [|s0 r] eqn:Es; [discriminate|]. rewrite <- Es in *. rewrite E. cbn [obind fst snd]. repeat f_equal.
  assert (L : length states = S (length (others me states))).
  { clear -ND Hown. unfold others. rewrite map_length. revert ND Hown. induction states as [|[i a] r IH]; cbn [dget map fst]; [discriminate|]. intros ND H. apply NoDup_cons_iff in ND. destruct ND as [X1 X2].
    rewrite Nat.eqb_sym in H. cbn [filter fst]. destruct (i =? me) eqn:Ei; cbn [negb length].
    - apply Nat.eqb_eq in Ei. subst i. f_equal. clear -X1. induction r as [|[i b] r IH]; [reflexivity|]. cbn [map fst] in X1. cbn [filter fst]. destruct (Nat.eqb_spec i me) as [->|Hne]; [exfalso; apply X1; left; reflexivity|].
      cbn [negb length]. f_equal. apply IH. intros I. apply X1. right. exact I.
    - f_equal. exact (IH X2 H). }
  rewrite L. lia.
Qed.

(** The values of a simulated state are those after the time; those of the rows of a tube are the columns after the time. *)
Theorem C14_rows : forall (V : Type) (state : list V) j, nth_error (cont_of (D := V) (@values2 V) (state, [], [])) j = nth_error state (S j).
Proof. intros V [|t r] j; cbn; [destruct j; reflexivity|reflexivity]. Qed.
Theorem C14_columns : forall (V : Type) (rows : list (list V)) cols, values3 rows = Some cols ->
  forall j col, nth_error cols j = Some col -> Forall2 (fun r v => nth_error r (S j) = Some v) rows col.
Proof.
  intros V rows cols H j col Hj. unfold values3 in H. destruct rows as [|r rs] eqn:Er; [discriminate|]. rewrite <- Er in *. destruct (forallb _ _); [|discriminate].
  apply mapM_Forall2 in H. destruct (Forall2_nth_r _ H Hj) as (n & Hn & Hm). assert (n = S j) as ->.
  { clear -Hn. revert Hn. generalize (length r - 1) as m. intros m. assert (G : forall m s i, nth_error (seq s m) i = Some n -> n = s + i); [|intros E; apply G in E; exact E].
    induction m0 as [|m0 IH]; intros s [|i] E; cbn in E; try discriminate; [injection E as <-; lia|]. apply IH in E. lia. }
  apply mapM_Forall2 in Hm. exact Hm.
Qed.

(** ** A case: two others with the variables of their type *)
Module Example_sensor.
  Definition args := [mk_arg (w "ego") (Some (w "Car")); mk_arg (w "others") (Some (w "Car")); mk_arg (w "track_map") (Some (w "Map"))].
  Definition defs := [(w "Car", mk_sdef [w "x"; w "v"] [w "mode"] [w "kind"])].
  Definition states : dict nat (astate (list nat) nat) :=
    [(7, ([0; 10; 11], [1], [5])); (3, ([0; 20; 21], [2], [5])); (9, ([0; 30; 31], [1], [6]))].
  Example view : exists cont disc len, sense values2 args defs 3 states = Some (cont, disc, len) /\
    dget word_eqb (w "ego.x") cont = Some (One 20) /\ dget word_eqb (w "others.v") cont = Some (Many [11; 31]) /\
    dget word_eqb (w "others.kind") disc = Some (Many [5; 6]) /\ len = [(w "others", 2)].
  Proof. eexists _, _, _. split; [vm_compute; reflexivity|]. repeat split. Qed.
  Example hyps : ego_type args = Some (w "Car") /\ other_arg args = Some (w "others", w "Car") /\
    (forall a, In a (others 3 states) -> fits values2 (mk_sdef [w "x"; w "v"] [w "mode"] [w "kind"]) a).
  Proof. split; [reflexivity|]. split; [reflexivity|]. intros a [<-|[<-|[]]]; repeat split; try discriminate; vm_compute; lia. Qed.

  (** An agent with fewer variables than the type of the others: the lists of its missing variables are short, and the
      entries of the agents after it move to its place. *)
  Definition mixed : dict nat (astate (list nat) nat) :=
    [(3, ([0; 20; 21], [2], [5])); (7, ([0; 10], [1], [5])); (9, ([0; 30; 31], [1], [6]))].
End Example_sensor.
Import Example_sensor.

(** With an agent that has fewer variables, index 0 of two sensed lists belongs to different agents. *)
Theorem C14_mixed_refuted : exists (states : dict nat (astate (list nat) nat)) cont disc len xs vs,
  NoDup (map fst states) /\ sense values2 args defs 3 states = Some (cont, disc, len) /\
  dget word_eqb (w "others.x") cont = Some (Many xs) /\ dget word_eqb (w "others.v") cont = Some (Many vs) /\
  exists a b, a <> b /\
    option_map (fun s => nth_error (cont_of values2 s) 0) (dget Nat.eqb a states) = Some (nth_error xs 0) /\
    option_map (fun s => nth_error (cont_of values2 s) 1) (dget Nat.eqb b states) = Some (nth_error vs 0) /\
    length xs <> length vs.
Proof.
  exists mixed. eexists _, _, _, _, _. split; [repeat constructor; cbn; intuition discriminate|]. split; [vm_compute; reflexivity|]. split; [vm_compute; reflexivity|]. split; [vm_compute; reflexivity|].
  exists 7, 9. split; [discriminate|]. repeat split. discriminate.
Qed.

Print Assumptions C14_view_partial.
Print Assumptions C14_rows.
Print Assumptions C14_columns.
Print Assumptions C14_mixed_refuted.
