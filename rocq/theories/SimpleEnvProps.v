(** Property C93: controllers are run on what their agents see. *)
From Coq Require Import Ascii String.
From Verif Require Import Base BaseFacts Dict PyText ResetProofs Sensor SensorSpec SimpleEnv SimpleEnvSpec SimpleEnvProofs.
Set Implicit Arguments.
Open Scope nat_scope.

(** ** C93.  The controller is called with its own agent's state, the map, and all other agents in order. *)
Theorem C93_view ag me states d own rest : can_call ag me states d own rest ->
  controller_args ag me states = Some (seen d own, call ag (seen d own) rest).
Proof.
  intros [(t & H) [[Hn ->]|(name & t' & od & (Ho & Nn & Hod & Nv & Toth & Hargs) & ->)]]; [exact (alone_args_spec H Hn)|].
  destruct H as (ND & Hown & He & Hd & Ht & Hv). exact (@controller_args_spec ag me states own t t' name d od ND Hown He Ho Nn Hd Hod Ht Toth Hargs Nv).
Qed.

(** ** C93.  Nothing happens if and only if it returns a namespace equal to the agent's own. *)
Theorem C93_stay ag me states d own rest : can_call ag me states d own rest ->
  (forall out, c_logic ag (call ag (seen d own) rest) = Ret out -> NoDup (map fst out)) ->
  react ag me states = Some Stay <-> exists out, c_logic ag (call ag (seen d own) rest) = Ret out /\ same_ns (seen d own) out.
Proof.
  intros H Hout. unfold react. rewrite (C93_view H). cbn [obind fst snd]. destruct H as [(t & _ & _ & _ & Hd & Ht & _) _].
  assert (Ns : NoDup (map fst (seen d own))) by (rewrite (seen_keys Ht); exact (proj1 Hd)).
  destruct (c_logic ag (call ag (seen d own) rest)) as [out|[l|]|] eqn:E; try (split; [discriminate|intros (o & X & _); discriminate]).
  destruct (ns_eqb (seen d own) out) eqn:Eq.
  - split; [|reflexivity]. intros _. exists out. split; [reflexivity|]. now apply ns_eqb_spec; auto.
  - split; [intros X; destruct (split_output _ _ _); discriminate|]. intros (o & [= <-] & X). apply ns_eqb_spec in X; auto. congruence.
Qed.

(** ** C93.  Otherwise its discrete fields are the new mode and the others the new state, in the declared order. *)
Theorem C93_move ag me states d own rest out : can_call ag me states d own rest ->
  c_logic ag (call ag (seen d own) rest) = Ret out -> NoDup (map fst out) -> (forall x, In x (names d) -> dget word_eqb x out <> None) ->
  ~ same_ns (seen d own) out ->
  exists dest next, react ag me states = Some (Move dest next) /\
    Forall2 (has_field out) (s_disc (f_vars d)) dest /\ Forall2 (has_field out) (s_cont (f_vars d) ++ s_stat (f_vars d)) next.
Proof.
  intros H E No Hf Hne. unfold react. rewrite (C93_view H). cbn [obind fst snd]. rewrite E. destruct H as [(t & _ & _ & _ & Hd & Ht & _) _].
  assert (Ns : NoDup (map fst (seen d own))) by (rewrite (seen_keys Ht); exact (proj1 Hd)).
  destruct (ns_eqb (seen d own) out) eqn:Eq; [apply ns_eqb_spec in Eq; auto; contradiction|].
  destruct (@split_output_spec ag (seen d own) out t d Hd (seen_keys Ht) Hf) as (dest & next & Es & H1 & H2). rewrite Es. cbn [obind fst snd]. eauto.
Qed.

(** ** C93.  An assertion is reported if and only if the controller fails with its label. *)
Theorem C93_fail ag me states d own rest l : can_call ag me states d own rest ->
  react ag me states = Some (Fail l) <-> c_logic ag (call ag (seen d own) rest) = Failed (Some l).
Proof.
  intros H. unfold react. rewrite (C93_view H). cbn [obind fst snd]. destruct (c_logic ag (call ag (seen d own) rest)) as [out|[x|]|]; try (split; [discriminate|discriminate]).
  - destruct (ns_eqb (seen d own) out); [split; discriminate|]. destruct (split_output _ _ _) as [[? ?]|]; cbn [obind]; split; discriminate.
  - split; congruence.
Qed.

(** ** C93.  Whatever the agents' states are, a controller is only ever called with members of the declared enumerations
    for discrete variables; with a mode that is no member it is not called at all. *)
Theorem C93_members ag me states e l : controller_args ag me states = Some (e, l) ->
  (forall n, In (ANs n) l -> membered ag n) /\ (forall ns n, In (AList ns) l -> In n ns -> membered ag n).
Proof. intros H. exact (proj2 (args_membered _ _ _ H)). Qed.

Module Example_C93.
  (** A car with position and speed brakes when another car is less than 5 ahead; it must not pass 100. *)
  Definition st : fdef := mk_fdef (mk_sdef [w "x"; w "v"] [w "m"] []) [w "CarMode"].
  Definition num (o : option pyval) : Q := match o with Some (Num q) => q | _ => 0%Q end.
  Definition close (e o : ns) : bool :=
    let a := num (dget word_eqb (w "x") e) in let b := num (dget word_eqb (w "x") o) in Qle_bool a b && negb (Qle_bool (a + 5) b).
  Definition logic (l : list argval) : outcome :=
    match l with
    | [ANs e; AList os; AMap] =>
      if negb (Qle_bool (num (dget word_eqb (w "x") e)) 100) then Failed (Some (w "past the end"))
      else if existsb (close e) os then Ret (dset word_eqb (w "m") (Mem (w "CarMode") (w "Brake")) (dset word_eqb (w "v") (Num 1) e)) else Ret e
    | _ => Raises
    end.
  Definition car : cagent := mk_cagent [mk_larg (w "ego") (Some (w "State")) false; mk_larg (w "cars") (Some (w "State")) true; mk_larg (w "track_map") None false]
    [(w "State", st)] [(w "CarMode", [w "Normal"; w "Brake"])] logic true.
  Definition at_ (t x v : Q) (m : string) : cstate := ([Num t; Num x; Num v], [Str (w m)], []).
  Definition three (x : Q) : dict nat cstate := [(0, at_ 0 x 10 "Normal"); (1, at_ 0 20 3 "Normal"); (2, at_ 0 200 7 "Brake")].
  Lemma declared_st : declared (c_defs car) (w "State") st.
  Proof.
    split; [|split].
    - apply distinct_NoDup. vm_compute. reflexivity.
    - intros x Hx. vm_compute in Hx. destruct Hx as [<-|[<-|[<-|[]]]]; vm_compute; intuition discriminate.
    - exists [], []. split; [reflexivity|]. intros t' d' x [].
  Qed.
  Lemma typed t x v m : m = "Normal"%string \/ m = "Brake"%string -> well_typed (c_enums car) st (at_ t x v m).
  Proof.
    intros H. unfold well_typed, at_, st. cbn [fst snd f_vars f_types s_cont s_disc s_stat tl length]. repeat (split; [lia|]).
    intros [|[|j]] ty E; cbn in E; try discriminate. injection E as <-. exists (w m), [w "Normal"; w "Brake"]. split; [reflexivity|]. split; [reflexivity|].
    destruct H as [-> | ->]; cbn; auto.
  Qed.
  Lemma ready x : can_call car 0 (three x) st (at_ 0 x 10 "Normal") (map (seen st) [at_ 0 20 3 "Normal"; at_ 0 200 7 "Brake"]).
  Proof.
    split; [exists (w "State")|right; exists (w "cars"), (w "State"), st].
    - split; [cbn; repeat (constructor; [cbn; intuition discriminate|]); constructor|]. split; [reflexivity|]. split; [reflexivity|]. split; [exact declared_st|]. split; [apply typed; auto|discriminate].
    - split; [|reflexivity]. split; [reflexivity|]. split; [vm_compute; intuition discriminate|]. split; [exact declared_st|]. split; [discriminate|]. split.
      + intros a Ha. cbn in Ha. destruct Ha as [<-|[<-|[]]]; apply typed; auto.
      + intros a Ha. cbn in Ha. destruct Ha as [<-|[<-|[<-|[]]]]; vm_compute; auto.
  Qed.
  (** Far away it stays, near it brakes, beyond 100 it fails. *)
  Example stays : react car 0 (three 10) = Some Stay.
  Proof. vm_compute. reflexivity. Qed.
  Example moves : react car 0 (three 16) = Some (Move [Str (w "Brake")] [Num 16; Num 1]).
  Proof. vm_compute. reflexivity. Qed.
  Example fails : react car 0 (three 101) = Some (Fail (w "past the end")).
  Proof. vm_compute. reflexivity. Qed.
  Example moves_by_theorem : exists dest next, react car 0 (three 16) = Some (Move dest next) /\ length dest = 1 /\ length next = 2.
  Proof.
    destruct (@C93_move _ _ _ _ _ _ (dset word_eqb (w "m") (Mem (w "CarMode") (w "Brake")) (dset word_eqb (w "v") (Num 1) (seen st (at_ 0 16 10 "Normal")))) (ready 16)) as (dest & next & E & H1 & H2).
    - vm_compute. reflexivity.
    - apply distinct_NoDup. vm_compute. reflexivity.
    - intros x Hx. vm_compute in Hx. destruct Hx as [<-|[<-|[<-|[]]]]; vm_compute; discriminate.
    - intros X. specialize (X (w "v")). vm_compute in X. inversion X as [? ? Q1| | |]. discriminate.
    - exists dest, next. split; [exact E|]. cbn in H1, H2. repeat match goal with X : Forall2 _ _ _ |- _ => inversion X; subst; clear X end. auto.
  Qed.
  (** With the mode "Parked", which the enumeration does not have, the controller is not called. *)
  Example not_called : controller_args car 0 [(0, at_ 0 10 10 "Parked")] = None /\ controller_args car 0 [(0, at_ 0 10 10 "Normal"); (1, at_ 0 20 3 "Parked")] = None.
  Proof. split; vm_compute; reflexivity. Qed.
  Example members : exists e l, controller_args car 0 (three 10) = Some (e, l) /\ dget word_eqb (w "m") e = Some (Mem (w "CarMode") (w "Normal")).
  Proof. eexists _, _. split; vm_compute; reflexivity. Qed.
End Example_C93.

(** ** Where it fails *)
(** A static variable: the new state has its value as one more component, although the agent has one continuous variable. *)
Theorem C93_static_refuted : exists ag me states d own rest dest next, can_call ag me states d own rest /\
  react ag me states = Some (Move dest next) /\ length (s_cont (f_vars d)) = 1 /\ next = [Num 7; Str (w "Car")].
Proof.
  set (st := mk_fdef (mk_sdef [w "x"] [w "m"] [w "type"]) [w "Mode"]).
  set (lg := fun l : list argval => match l with [ANs e] => Ret (dset word_eqb (w "m") (Mem (w "Mode") (w "B")) e) | _ => Raises end).
  set (ag := mk_cagent [mk_larg (w "ego") (Some (w "State")) false] [(w "State", st)] [(w "Mode", [w "A"; w "B"])] lg true).
  set (own := (([Num 0; Num 7], [Str (w "A")], [Str (w "Car")]) : cstate)).
  exists ag, 0, [(0, own)], st, own, [], [Str (w "B")], [Num 7; Str (w "Car")]. split; [|split; [vm_compute; reflexivity|split; reflexivity]].
  split; [exists (w "State")|left].
  - split; [cbn; constructor; [intros []|constructor]|]. split; [reflexivity|]. split; [reflexivity|]. split.
    + split; [apply distinct_NoDup; vm_compute; reflexivity|]. split; [intros x Hx; vm_compute in Hx; destruct Hx as [<-|[<-|[<-|[]]]]; vm_compute; intuition discriminate|].
      exists [], []. split; [reflexivity|]. intros t' d' x [].
    + split; [|discriminate]. unfold well_typed, own, st. cbn [fst snd f_vars f_types s_cont s_disc s_stat tl length]. repeat (split; [lia|]). intros [|[|j]] ty E; cbn in E; try discriminate.
      injection E as <-. exists (w "A"), [w "A"; w "B"]. split; [reflexivity|]. split; [reflexivity|]. now left.
  - split; [|reflexivity]. intros a [<-|[]]. now left.
Qed.

(** Two state types with a discrete variable of the same name and the same enumeration: the value is converted twice, which raises. *)
Theorem C93_shared_refuted : exists ag me states own, dget Nat.eqb me states = Some own /\
  (forall t d, In (t, d) (c_defs ag) -> well_typed (c_enums ag) d own /\ NoDup (names d)) /\ ego_type (map to_arg (c_args ag)) = Some (w "State") /\
  (forall l, c_logic ag l <> Raises) /\ react ag me states = None.
Proof.
  set (st := mk_fdef (mk_sdef [w "x"] [w "m"] []) [w "Mode"]).
  set (ag := mk_cagent [mk_larg (w "ego") (Some (w "State")) false] [(w "State", st); (w "Other", st)] [(w "Mode", [w "A"; w "B"])] (fun _ => Ret []) true).
  set (own := (([Num 0; Num 7], [Str (w "A")], []) : cstate)). exists ag, 0, [(0, own)], own. split; [reflexivity|]. split; [|split; [reflexivity|split; [discriminate|vm_compute; reflexivity]]].
  intros t d I. assert (d = st) as -> by (destruct I as [[= _ <-]|[[= _ <-]|[]]]; reflexivity). split.
  - unfold well_typed, own, st. cbn [fst snd f_vars f_types s_cont s_disc s_stat tl length]. repeat (split; [lia|]). intros [|[|j]] ty E; cbn in E; try discriminate.
    injection E as <-. exists (w "A"), [w "A"; w "B"]. split; [reflexivity|]. split; [reflexivity|]. now left.
  - apply distinct_NoDup. vm_compute. reflexivity.
Qed.

(** One other agent as an argument that is not a list: its fields are lists instead of numbers. *)
Theorem C93_single_refuted : exists ag states d, other_arg (map to_arg (c_args ag)) = Some (w "other", w "State") /\
  declared (c_defs ag) (w "State") d /\ (forall i a, In (i, a) states -> well_typed (c_enums ag) d a) /\ others 0 states = [([Num 0; Num 8], [], [])] /\
  controller_args ag 0 states = Some ([(w "x", Num 7)], [ANs [(w "x", Num 7)]; ANs [(w "x", Lst [Num 8])]]).
Proof.
  set (st := mk_fdef (mk_sdef [w "x"] [] []) []).
  exists (mk_cagent [mk_larg (w "ego") (Some (w "State")) false; mk_larg (w "other") (Some (w "State")) false] [(w "State", st)] [] (fun _ => Raises) true),
    [(0, ([Num 0; Num 7], [], [])); (1, ([Num 0; Num 8], [], []))], st.
  split; [reflexivity|]. split; [|split; [|split; [reflexivity|vm_compute; reflexivity]]].
  - split; [apply distinct_NoDup; vm_compute; reflexivity|]. split; [intros x Hx; vm_compute in Hx; destruct Hx as [<-|[]]; vm_compute; intuition discriminate|].
    exists [], []. split; [reflexivity|]. intros t' d' x [].
  - intros i a [[= _ <-]|[[= _ <-]|[]]]; unfold well_typed, st; cbn [fst snd f_vars f_types s_cont s_disc s_stat tl length]; repeat (split; [lia|]); intros [|j] ty E; discriminate.
Qed.

(** An assertion without a label raises instead of being reported. *)
Theorem C93_label_refuted : exists ag me states d own rest, can_call ag me states d own rest /\
  c_logic ag (call ag (seen d own) rest) = Failed None /\ react ag me states = None.
Proof.
  set (st := mk_fdef (mk_sdef [w "x"] [] []) []).
  set (ag := mk_cagent [mk_larg (w "ego") (Some (w "State")) false] [(w "State", st)] [] (fun _ => Failed None) true).
  set (own := (([Num 0; Num 7], [], []) : cstate)). exists ag, 0, [(0, own)], st, own, []. split; [|split; vm_compute; reflexivity].
  split; [exists (w "State")|left].
  - split; [cbn; constructor; [intros []|constructor]|]. split; [reflexivity|]. split; [reflexivity|]. split.
    + split; [apply distinct_NoDup; vm_compute; reflexivity|]. split; [intros x Hx; vm_compute in Hx; destruct Hx as [<-|[]]; vm_compute; intuition discriminate|].
      exists [], []. split; [reflexivity|]. intros t' d' x [].
    + split; [|discriminate]. unfold well_typed, own, st. cbn [fst snd f_vars f_types s_cont s_disc s_stat tl length]. repeat (split; [lia|]). intros [|j] ty E; discriminate.
  - split; [|reflexivity]. intros a [<-|[]]. now left.
Qed.

Print Assumptions C93_view.
Print Assumptions C93_stay.
Print Assumptions C93_move.
Print Assumptions C93_fail.
Print Assumptions C93_members.
Print Assumptions C93_static_refuted.
Print Assumptions C93_shared_refuted.
Print Assumptions C93_single_refuted.
Print Assumptions C93_label_refuted.
