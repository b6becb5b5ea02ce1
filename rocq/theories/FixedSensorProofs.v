(** Proofs for FixedSensorProps.v. *)
From Coq Require Import Ascii String.
From Verif Require Import Base BaseFacts Dict PyText Sensor SensorSpec SensorProofs FixedSensor.
Set Implicit Arguments.
Open Scope nat_scope.

Definition fargs : list arg := [mk_arg (w "ego") (Some (w "T")); mk_arg (w "others") (Some (w "T"))].
Definition fdefs (f : fixed) : dict word sdef := [(w "T", mk_sdef (f_cont f) (f_disc f) [])].

Lemma fold_opt_ext {A B} (f g : A -> B -> option A) l : (forall a b, In b l -> f a b = g a b) -> forall a, fold_opt f l a = fold_opt g l a.
Proof.
  induction l as [|b l IH]; intros H a; [reflexivity|]. cbn. rewrite (H a b) by (left; reflexivity). destruct (g a b); [cbn; apply IH; intros; apply H; right; assumption|reflexivity].
Qed.
Section S.
  Variables St V D : Type.
  Variable values : St -> option (list V).
  Variable f : fixed.
  (** A fixed sensor is the base sensor for agents with these variables. *)
  Lemma fixed1_base args defs me vw p te to sde sdo : ego_type args = Some te -> other_arg args = Some (w "others", to) ->
    dget word_eqb te defs = Some sde -> dget word_eqb to defs = Some sdo ->
    s_cont sde = f_cont f -> s_disc sde = f_disc f -> s_stat sde = [] -> s_cont sdo = f_cont f -> s_disc sdo = f_disc f -> s_stat sdo = [] ->
    fixed1 (D := D) values f me vw p = sense1 values args defs me vw p.
  Proof.
    intros He Ho Hde Hdo A1 A2 A3 B1 B2 B3. destruct p as [aid [[st mode] static]]. unfold fixed1, sense1. rewrite He, Ho.
    destruct (aid =? me).
    - rewrite Hde. cbn [obind]. destruct (values st) as [vals|]; [|reflexivity]. cbn [obind]. rewrite A1, A2, A3. reflexivity.
    - rewrite Hdo. cbn [obind]. destruct (values st) as [vals|]; [|reflexivity]. cbn [obind]. rewrite B1, B2, B3. destruct (adds (fst vw) _ _ _); [|reflexivity]. cbn [obind].
      destruct (adds (snd vw) _ _ _); reflexivity.
  Qed.
  Lemma fixed_base args defs me states te to sde sdo : ego_type args = Some te -> other_arg args = Some (w "others", to) ->
    dget word_eqb te defs = Some sde -> dget word_eqb to defs = Some sdo ->
    s_cont sde = f_cont f -> s_disc sde = f_disc f -> s_stat sde = [] -> s_cont sdo = f_cont f -> s_disc sdo = f_disc f -> s_stat sdo = [] ->
    fixed_sense (D := D) values f me states = sense values args defs me states.
  Proof.
    intros. unfold fixed_sense, sense. destruct states as [|p l]; [reflexivity|]. erewrite fold_opt_ext; [reflexivity|]. intros a b _. eapply fixed1_base; eassumption.
  Qed.
End S.
Lemma sense_values {St V D} (v1 v2 : St -> option (list V)) args defs me (states : dict nat (astate St D)) :
  (forall i a, In (i, a) states -> v1 (fst (fst a)) = v2 (fst (fst a))) -> sense v1 args defs me states = sense v2 args defs me states.
Proof.
  intros H. unfold sense. destruct states as [|p l]; [reflexivity|]. erewrite fold_opt_ext; [reflexivity|]. intros vw [i [[st m] sta]] Hi. unfold sense1. specialize (H _ _ Hi). cbn in H. rewrite H. reflexivity.
Qed.

Lemma nodup_l {A} (l m : list A) : NoDup (l ++ m) -> NoDup l.
Proof. induction l as [|a r IH]; intros H; [constructor|]. cbn in H. apply NoDup_cons_iff in H. destruct H as [H1 H2]. constructor; [|auto]. intros I. apply H1. apply in_or_app. auto. Qed.
Lemma nodup_r {A} (l m : list A) : NoDup (l ++ m) -> NoDup m.
Proof. induction l as [|a r IH]; intros H; [exact H|]. cbn in H. apply NoDup_cons_iff in H. apply IH. tauto. Qed.
Lemma nodup_disj {A} (l m : list A) x : NoDup (l ++ m) -> In x l -> In x m -> False.
Proof. induction l as [|a r IH]; intros H I J; [destruct I|]. cbn in H. apply NoDup_cons_iff in H. destruct H as [H1 H2]. destruct I as [->|I]; [apply H1, in_or_app; auto|auto]. Qed.

