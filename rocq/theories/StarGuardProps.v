(** Properties C97 and C98: checking a guard when the agents' reachable states are star sets
    (verse/automaton/guard.py:114-233, verse/stars/starset.py:365-391, verse/sensor/base_sensor_stars.py).

    [geval] (GuardSpec.v) is the value of a guard in a state, as Python would compute it; [star_check] is the pair (satisfiable,
    contained) the verifier computes; [unroll] replaces any/all.  A [world] is what an agent knows: its own star and the stars
    of the others; [in_world W s] says that [s] gives every agent a state in its star. *)
From Coq Require Import Ascii String ClassicalDescription.
From Verif Require Import Base BaseFacts Dict PyText Guard GuardSpec GuardProofs GuardProps Sensor SensorSpec SensorProofs SimpleEnvProofs
  Star StarSpec StarReset StarResetSpec StarGuard StarGuardSpec StarGuardProofs StarGuardWorld StarGuardSense.
From Coq Require Import Lqa.
Set Implicit Arguments.
Open Scope nat_scope.

Section Props.
  (** The arithmetic and the comparisons of guards. *)
  Variable of_q : Q -> Q.
  Variable n_neg : Q -> Q.
  Variable n_bin : binop -> Q -> Q -> Q.
  Variable n_cmp : cmpop -> Q -> Q -> bool.
  Hypothesis agree : numbers_agree of_q n_neg n_cmp.
  (** Functions with discrete arguments; true lane coordinates; lane names. *)
  Variable call : word -> list dval -> option dval.
  Variable coord : bool -> word -> Q -> Q -> option Q.
  Variable phys : word -> word.
  Notation value := (geval of_q n_neg n_bin n_cmp call coord phys).
  (** The values of the discrete variables, the sensed stars, the lengths of the lists of agents. *)
  Variable dd : dict word word.
  Variable cd : sdict.
  Variable len : word -> option nat.
  (** The state with values [s] of the continuous variables for which a star was sensed. *)
  Notation state s := (agents dd (one_names cd) len s).
  Notation true_in s g := (value (state s) g = Some (VB Q true)).
  Variable solve : list word -> form -> list lin -> verdict.
  Notation check g := (do g' <- unroll len g; star_check call dd phys solve cd g').

  (** ** C97: without lane coordinates the answer is exact. *)
  Theorem C97_exact : forall W g sat con,
    sensed W cd -> names_fit W dd -> shapes W -> lane_free g = true ->
    star_solver_right of_q n_neg n_bin n_cmp solve -> (forall ks f ls, solve ks f ls <> Unknown) ->
    (exists s, in_world W s) -> (forall s, in_world W s -> exists b, value (state s) g = Some (VB Q b)) ->
    check g = Some (sat, con) ->
    (sat = true <-> exists s, in_world W s /\ true_in s g) /\
    (con = true <-> forall s, in_world W s -> true_in s g).
  Proof.
    intros W g sat con HS HN HW Hf Hr Hd Hex Hall Hc. destruct (unroll len g) as [g'|] eqn:Eu; [|discriminate]. cbn [obind] in Hc.
    destruct (unroll_shape _ _ Eu) as [_ Hf']. specialize (Hf' Hf).
    assert (V : forall s b, value (state s) g = Some (VB Q b) -> value (flat dd (map fst cd) s) g' = Some (VB Q b)).
    { intros s b Hb. eapply to_keys; eassumption. }
    assert (V' : forall s b, in_world W s -> value (flat dd (map fst cd) s) g' = Some (VB Q b) -> value (state s) g = Some (VB Q b)).
    { intros s b Hi Hb. destruct (Hall s Hi) as (b' & Hb'). rewrite (V _ _ Hb') in Hb. congruence. }
    assert (Hall' : forall s, in_world W s -> exists b, value (flat dd (map fst cd) s) g' = Some (VB Q b)).
    { intros s Hi. destruct (Hall s Hi) as (b & Hb). exists b. exact (V s b Hb). }
    destruct (@world_witness W dd cd HS HN HW of_q n_neg n_bin n_cmp agree call coord phys solve Hr g' sat con Hf' Hex Hall' Hc) as [X1 X2].
    assert (Over : forall s b, in_world W s -> value (state s) g = Some (VB Q b) -> (b = true -> sat = true) /\ (con = true -> b = true)).
    { intros s b Hi Hb. destruct (@world_over W dd cd HS HN HW of_q n_neg n_bin n_cmp agree call coord phys solve Hr g' s b sat con Hf' Hi (V _ _ Hb) Hc) as [Y1 Y2]. split; [exact (Y1 Hd)|exact Y2]. }
    split; split.
    - intros Hs. destruct (X1 Hs) as (s & Hi & Hb). exists s. split; [exact Hi|exact (V' _ _ Hi Hb)].
    - intros (s & Hi & Hb). destruct (Over s true Hi Hb) as [A _]. exact (A eq_refl).
    - intros Hs s Hi. destruct (Hall s Hi) as (b & Hb). destruct (Over s b Hi Hb) as [_ A]. rewrite (A Hs) in Hb. exact Hb.
    - intros Ha. destruct con; [reflexivity|]. destruct (X2 Hd eq_refl) as (s & Hi & Hb). apply V' in Hb; [|exact Hi]. rewrite (Ha s Hi) in Hb. discriminate.
  Qed.

  (** ** C97: a positive answer can be relied upon even if the solver leaves queries open. *)
  Theorem C97_sure : forall W g sat con,
    sensed W cd -> names_fit W dd -> shapes W -> lane_free g = true ->
    star_solver_right of_q n_neg n_bin n_cmp solve ->
    (exists s, in_world W s) -> (forall s, in_world W s -> exists b, value (state s) g = Some (VB Q b)) ->
    check g = Some (sat, con) ->
    (sat = true -> exists s, in_world W s /\ true_in s g) /\
    (con = true -> forall s, in_world W s -> true_in s g).
  Proof.
    intros W g sat con HS HN HW Hf Hr Hex Hall Hc. destruct (unroll len g) as [g'|] eqn:Eu; [|discriminate]. cbn [obind] in Hc.
    destruct (unroll_shape _ _ Eu) as [_ Hf']. specialize (Hf' Hf).
    assert (V : forall s b, value (state s) g = Some (VB Q b) -> value (flat dd (map fst cd) s) g' = Some (VB Q b)).
    { intros s b Hb. eapply to_keys; eassumption. }
    assert (Hall' : forall s, in_world W s -> exists b, value (flat dd (map fst cd) s) g' = Some (VB Q b)).
    { intros s Hi. destruct (Hall s Hi) as (b & Hb). exists b. exact (V s b Hb). }
    destruct (@world_witness W dd cd HS HN HW of_q n_neg n_bin n_cmp agree call coord phys solve Hr g' sat con Hf' Hex Hall' Hc) as [X1 _].
    split; intros Hs.
    - destruct (X1 Hs) as (s & Hi & Hb). exists s. split; [exact Hi|]. destruct (Hall s Hi) as (b & Hb'). rewrite (V _ _ Hb') in Hb. congruence.
    - intros s Hi. destruct (Hall s Hi) as (b & Hb).
      destruct (@world_over W dd cd HS HN HW of_q n_neg n_bin n_cmp agree call coord phys solve Hr g' s b sat con Hf' Hi (V _ _ Hb) Hc) as [_ A]. rewrite (A Hs) in Hb. exact Hb.
  Qed.
End Props.
Print Assumptions C97_exact.
Print Assumptions C97_sure.

(** ** C98.  Sensing binds each of the ego's variables to the ego's star, and unrolling a guard binds each attribute it reads of
    the [i]-th other agent to that agent's star; the dictionary is one of the world of the agents, as C97 assumes. *)
Theorem C98_sensed : forall (D : Type) args defs me (states : dict nat (astate (Q * star) D)) own te to de od g,
  NoDup (map fst states) -> dget Nat.eqb me states = Some own ->
  ego_type args = Some te -> dget word_eqb te defs = Some de ->
  other_arg args = Some (w "others", to) -> dget word_eqb to defs = Some od ->
  NoDup (s_cont de ++ s_disc de ++ s_stat de) -> NoDup (s_cont od ++ s_disc od ++ s_stat od) ->
  nodots (s_cont de ++ s_disc de ++ s_stat de) -> nodots (s_cont od ++ s_disc od ++ s_stat od) ->
  enough de own -> (forall a, In a (others me states) -> enough od a) ->
  exists W cd0 disc lens cd,
    world_of me states (s_cont de) (w "others") (s_cont od) = Some W /\
    star_sense args defs me states = Some (cd0, disc, lens) /\
    update_stars cd0 (updater (fun l => dget word_eqb l lens) cd0 g) = Some cd /\
    (forall x, In x (s_cont de) -> dget word_eqb (ego_name x) cd = Some (One (snd (fst (fst own))))) /\
    (forall a i b, reads_item g (w "others") a -> In a (s_cont od) -> nth_error (others me states) i = Some b ->
       dget word_eqb (item_name (w "others") i a) cd = Some (One (snd (fst (fst b))))) /\
    sensed W cd.
Proof.
  intros D args defs me states own te to de od g Ns Hown He Hde Ho Hdo NDe NDo Dote Doto Fown Foth.
  assert (Nn : ~ In "."%char (w "others")) by (cbn; intuition discriminate).
  destruct (@sense_J D args defs me states own te to (w "others") de od Ns Hown He Hde Ho Hdo Nn NDe NDo Dote Doto Fown Foth) as (cd0 & disc & E & HJ & Hego & _).
  set (W := mk_world _ _ _ _ _) in HJ. set (lens := [(w "others", length (others me states))]) in E.
  destruct (@updater_ok W Nn ltac:(discriminate) cd0 HJ (fun l => dget word_eqb l lens)) with (e := g) as (cd & Eu & HJ' & I1 & I2).
  - intros iter n H. apply dget_In in H; [|exact word_eqb_eq]. destruct H as [[= <- <-]|[]]. split; [reflexivity|]. cbn. rewrite map_length. reflexivity.
  - exists W, cd0, disc, lens, cd. split; [unfold world_of; rewrite Hown; reflexivity|]. split; [exact E|]. split; [exact Eu|]. split; [|split; [|exact (proj1 HJ')]].
    + intros x Hx. apply (@one_ego W cd x Nn (proj1 HJ')). apply I1, Hego, Hx.
    + intros a i b Hr Ha Hi. assert (Hs : nth_error (oth_stars W) i = Some (snd (fst (fst b)))) by (cbn; apply map_nth_error with (f := fun a => snd (fst (fst a))); exact Hi).
      apply (@one_item W cd i a _ Nn (proj1 HJ') Hs). apply I2; [exact Hr| |exact Ha|].
      * cbn [oth W]. discriminate.
      * apply nth_error_Some. rewrite Hs. discriminate.
Qed.
Print Assumptions C98_sensed.

(** ** A case: a car and two others *)
Module Example_C97.
  Import Example_guard.
  (** A solver that is right exists. *)
  Definition ssolve (ks : list word) (f : form) (ls : list lin) : verdict :=
    if excluded_middle_informative (exists m, Forall (lin_holds m) ls /\ holds of_q n_neg n_bin qcmp ks m f = Some true) then Sat else Unsat.
  Lemma sright : star_solver_right of_q n_neg n_bin qcmp ssolve.
  Proof. intros ks f ls. unfold ssolve. destruct (excluded_middle_informative _) as [H|H]; [exact H|]. intros m Hm Hh. apply H. exists m. auto. Qed.
  Lemma sdecides : forall ks f ls, ssolve ks f ls <> Unknown.
  Proof. intros ks f ls. unfold ssolve. destruct (excluded_middle_informative _); discriminate. Qed.

  Definition args := [mk_arg (w "ego") (Some (w "Car")); mk_arg (w "others") (Some (w "Van"))].
  Definition car := mk_sdef [w "x"; w "y"] [w "mode"] [].
  Definition van := mk_sdef [w "x"] [w "mode"] [].
  Definition defs := [(w "Car", car); (w "Van", van)].
  (** The car is on a line segment: (3 + a, a) for -1 <= a <= 2; the others at 3 <= x <= 4 and 7 <= x <= 9. *)
  Definition s_ego : star := Star [3; 0]%Q [[1; 1]]%Q [[1]; [-1]]%Q [2; 1]%Q.
  Definition s_0 : star := Star [3]%Q [[1]]%Q [[1]; [-1]]%Q [1; 0]%Q.
  Definition s_1 : star := Star [7]%Q [[1]]%Q [[1]; [-1]]%Q [2; 0]%Q.
  Definition states : dict nat (astate (Q * star) word) :=
    [(7, ((0%Q, s_0), [w "N"], [])); (3, ((0%Q, s_ego), [w "N"], [])); (9, ((0%Q, s_1), [w "L"], []))].
  Definition W : world := mk_world [w "x"; w "y"] s_ego (w "others") [w "x"] [s_0; s_1].
  (** The guard of C10 with [ego.y] in it:
      [ego.mode == "N" and ego.x > 3 and any(o.x - ego.y < 7 and o.mode != "N" for o in others)] *)
  Definition sguard : gex :=
    GBoolOp true
      [ GCmp OEq (GVar (RAttr (w "ego") (w "mode"))) (GStr (w "N"));
        GCmp OGt (GVar (RAttr (w "ego") (w "x"))) (GNum 3);
        GRed true (GBoolOp true [ GCmp OLt (GBin Sub (GVar (RAttr (w "o") (w "x"))) (GVar (RAttr (w "ego") (w "y")))) (GNum 7);
                                  GCmp ONe (GVar (RAttr (w "o") (w "mode"))) (GStr (w "N")) ]) (w "o") (w "others") ].
  Definition lens : dict word nat := [(w "others", 2)].
  Definition slen (l : word) : option nat := dget word_eqb l lens.
  Definition sensed0 : option sdict := do r <- star_sense args defs 3 states; update_stars (fst (fst r)) (updater slen (fst (fst r)) sguard).
  Definition scd : sdict :=
    [(w "others.x", Many [s_0; s_1]); (w "ego.x", One s_ego); (w "ego.y", One s_ego); (w "others_0.x", One s_0); (w "others_1.x", One s_1)].
  Example computed : sensed0 = Some scd.
  Proof. vm_compute. reflexivity. Qed.
  (** By C98. *)
  Lemma world_ok : sensed W scd.
  Proof.
    destruct (@C98_sensed word args defs 3 states ((0%Q, s_ego), [w "N"], []) (w "Car") (w "Van") car van sguard) as (W' & cd0 & dsc & ls & cd' & E1 & E2 & E3 & _ & _ & HS).
    - repeat constructor; cbn; intuition discriminate.
    - reflexivity.
    - reflexivity.
    - reflexivity.
    - reflexivity.
    - reflexivity.
    - cbn. repeat constructor; cbn; intuition discriminate.
    - cbn. repeat constructor; cbn; intuition discriminate.
    - intros x Hx. cbn in Hx. destruct Hx as [<-|[<-|[<-|[]]]]; cbn; intuition discriminate.
    - intros x Hx. cbn in Hx. destruct Hx as [<-|[<-|[]]]; cbn; intuition discriminate.
    - split; cbn; lia.
    - intros a [<-|[<-|[]]]; split; cbn; lia.
    - injection E1 as <-. vm_compute in E2. injection E2 as <- <- <-. vm_compute in E3. injection E3 as <-. exact HS.
  Qed.
  Lemma fit : names_fit W dd.
  Proof.
    constructor.
    - intros x Hx. cbn in Hx. destruct Hx as [<-|[<-|[<-|[<-|[]]]]]; cbn; intuition discriminate.
    - exact (wn_dd named).
    - apply distinct_NoDup. vm_compute. reflexivity.
    - intros k Hk. vm_compute in Hk. destruct Hk as [<-|[<-|[<-|[]]]]; reflexivity.
    - intros p [<-|[<-|[<-|[]]]]; reflexivity.
    - intros p j [<-|[<-|[<-|[]]]] H; cbn [names_of parts W ego_vars oth oth_vars oth_stars flat_map map p_names app combine seq length fst In] in H;
        repeat (destruct H as [H|H]; [discriminate H|]); exact H.
  Qed.
  Lemma shaped : shapes W.
  Proof.
    intros p [<-|[<-|[<-|[]]]]; (split; [split; [intros v [<-|[]]; reflexivity|split; [intros r [<-|[<-|[]]]; reflexivity|reflexivity]]|reflexivity]).
  Qed.
  Notation value := (geval of_q n_neg n_bin qcmp call coord phys).
  Notation state s := (agents dd (one_names scd) slen s).
  Lemma sguard_value s : value (state s) sguard =
    Some (VB Q (qcmp OGt (s (w "ego.x")) 3 && qcmp OLt (s (w "others_1.x") - s (w "ego.y")) 7)).
  Proof.
    transitivity (Some (VB Q (qcmp OGt (s (w "ego.x")) 3 && ((qcmp OLt (s (w "others_0.x") - s (w "ego.y")) 7 && false || (qcmp OLt (s (w "others_1.x") - s (w "ego.y")) 7 && true || false)) && true)))).
    - reflexivity.
    - rewrite !andb_false_r, !andb_true_r, !orb_false_r. reflexivity.
  Qed.
  Definition at_ (x y a b : Q) (k : word) : Q :=
    if word_eqb k (w "ego.x") then x else if word_eqb k (w "ego.y") then y else if word_eqb k (w "others_0.x") then a else b.
  Ltac point al := exists al; split; [reflexivity|split; [repeat (constructor; [vm_compute; discriminate|]); constructor|split; [reflexivity|]]];
    intros [|[|j]] Hj; try (vm_compute; reflexivity); cbn in Hj; lia.
  Lemma inside1 : in_world W (at_ 5 2 3 8)%Q.
  Proof. intros p [<-|[<-|[<-|[]]]]; [point [2%Q]|point [0%Q]|point [1%Q]]. Qed.
  Lemma inside2 : in_world W (at_ 2 (-1) 3 8)%Q.
  Proof. intros p [<-|[<-|[<-|[]]]]; [point [(-1)%Q]|point [0%Q]|point [1%Q]]. Qed.
  Lemma checked : exists sat con, (do g' <- unroll slen sguard; star_check call dd phys ssolve scd g') = Some (sat, con).
  Proof. remember ssolve as sv eqn:Esv. vm_compute. destruct (sv _ _ _); eauto. Qed.
  (** The guard holds in some states but not in all. *)
  Example ex_C97 : forall sat con, (do g' <- unroll slen sguard; star_check call dd phys ssolve scd g') = Some (sat, con) -> sat = true /\ con = false.
  Proof.
    intros sat con Hc. destruct (@C97_exact of_q n_neg n_bin qcmp agree call coord phys dd scd slen ssolve W sguard sat con world_ok fit shaped eq_refl sright sdecides) as [H1 H2].
    - exists (at_ 5 2 3 8)%Q. exact inside1.
    - intros s _. rewrite sguard_value. eauto.
    - exact Hc.
    - split.
      + apply H1. exists (at_ 5 2 3 8)%Q. split; [exact inside1|reflexivity].
      + destruct con; [|reflexivity]. destruct H2 as [H2 _]. specialize (H2 eq_refl _ inside2). discriminate H2.
  Qed.
  (** [ego.x > ego.y] holds in all states of the segment, although not in all of its bounding box. *)
  Definition diag : gex := GCmp OGt (GVar (RAttr (w "ego") (w "x"))) (GVar (RAttr (w "ego") (w "y"))).
  Example ex_C97_all : forall sat con, (do g' <- unroll slen diag; star_check call dd phys ssolve scd g') = Some (sat, con) -> con = true.
  Proof.
    intros sat con Hc. destruct (@C97_exact of_q n_neg n_bin qcmp agree call coord phys dd scd slen ssolve W diag sat con world_ok fit shaped eq_refl sright sdecides) as [_ H2].
    - exists (at_ 5 2 3 8)%Q. exact inside1.
    - intros s _. cbn. eauto.
    - exact Hc.
    - apply H2. intros s Hs. destruct (Hs _ (or_introl eq_refl)) as (al & La & Ob & Lx & Px). cbn [p_star p_names W ego_star ego_vars] in *.
      destruct al as [|a [|]]; try discriminate La. pose proof (Px 0 ltac:(cbn; lia)) as P0. pose proof (Px 1 ltac:(cbn; lia)) as P1.
      cbn -[Qeq Qplus Qmult ego_name] in P0, P1.
      change (Some (VB Q (qcmp OGt (s (w "ego.x")) (s (w "ego.y")))) = Some (VB Q true)). do 2 f_equal. cbn. apply negb_true_iff. apply not_true_is_false. intros E. apply Qle_bool_iff in E.
      change (s (w "ego.x") <= s (w "ego.y"))%Q in E. change (s (w "ego.x") == 3 + (a * 1 + 0))%Q in P0. change (s (w "ego.y") == 0 + (a * 1 + 0))%Q in P1. lra.
  Qed.
  Example ex_C97_sure : forall sat con, (do g' <- unroll slen sguard; star_check call dd phys ssolve scd g') = Some (sat, con) ->
    sat = true -> exists s, in_world W s /\ value (state s) sguard = Some (VB Q true).
  Proof.
    intros sat con Hc. apply (@C97_sure of_q n_neg n_bin qcmp agree call coord phys dd scd slen ssolve W sguard sat con world_ok fit shaped eq_refl sright); [|intros s _; rewrite sguard_value; eauto|exact Hc].
    exists (at_ 5 2 3 8)%Q. exact inside1.
  Qed.
End Example_C97.

(** ** Where it fails *)
Import Example_C97.

(** C97: a query the solver leaves open counts as unsatisfiable: verse/automaton/guard.py:208-227. *)
Theorem C97_unknown_refuted : exists W dd cd len solve g s,
  sensed W cd /\ names_fit W dd /\ shapes W /\ lane_free g = true /\
  star_solver_right Example_guard.of_q Example_guard.n_neg Example_guard.n_bin qcmp solve /\ in_world W s /\
  geval Example_guard.of_q Example_guard.n_neg Example_guard.n_bin qcmp Example_guard.call Example_guard.coord Example_guard.phys
    (agents dd (one_names cd) len s) g = Some (VB Q true) /\
  (do g' <- unroll len g; star_check Example_guard.call dd Example_guard.phys solve cd g') = Some (false, false).
Proof.
  exists W, Example_guard.dd, scd, slen, (fun _ _ _ => Unknown), sguard, (at_ 5 2 3 8)%Q.
  split; [exact world_ok|]. split; [exact fit|]. split; [exact shaped|]. split; [reflexivity|]. split; [intros ks f ls; exact I|]. split; [exact inside1|].
  split; [rewrite sguard_value; vm_compute; reflexivity|]. vm_compute. reflexivity.
Qed.
Print Assumptions C97_unknown_refuted.

(** C97: a state variable named [alpha_1] is also a coefficient for the solver, so that a guard all states satisfy is
    discarded.  Here the states are (a, 5 + a) for 0 <= a <= 1 and the guard is [ego.x >= 0]. *)
Theorem C97_alpha_refuted : exists W cd g,
  sensed W cd /\ shapes W /\ lane_free g = true /\ (exists s, in_world W s) /\
  (forall s, in_world W s -> geval Example_guard.of_q Example_guard.n_neg Example_guard.n_bin qcmp Example_guard.call Example_guard.coord Example_guard.phys
     (agents [] (one_names cd) slen s) g = Some (VB Q true)) /\
  star_check Example_guard.call [] Example_guard.phys ssolve cd g = Some (false, false).
Proof.
  set (S := Star [0; 5]%Q [[1; 1]]%Q [[1]; [-1]]%Q [1; 0]%Q). set (W := mk_world [w "x"; w "alpha_1"] S (w "others") [] []).
  exists W, [(w "ego.x", One S); (w "ego.alpha_1", One S)], (GCmp OGe (GVar (RAttr (w "ego") (w "x"))) (GNum 0)).
  split; [|split; [|split; [reflexivity|split; [|split]]]].
  - constructor; [apply distinct_NoDup; vm_compute; reflexivity|vm_compute; reflexivity|reflexivity|].
    intros k T [[= <- <-]|[[= <- <-]|[]]]; (eexists; split; [left; reflexivity|]; split; [|reflexivity]); cbn; auto.
  - intros p [<-|[]]. split; [split; [intros v [<-|[]]; reflexivity|split; [intros r [<-|[<-|[]]]; reflexivity|reflexivity]]|reflexivity].
  - exists (fun k => if word_eqb k (w "ego.x") then 0 else 5)%Q. intros p [<-|[]]. point [0%Q].
  - intros s Hs. destruct (Hs _ (or_introl eq_refl)) as (al & La & Ob & Lx & Px). cbn [p_star p_names W ego_star ego_vars] in *.
    destruct al as [|a [|]]; try discriminate La. pose proof (Px 0 ltac:(cbn; lia)) as P0. inversion Ob as [|? ? ? ? O0 Ob1]. inversion Ob1 as [|? ? ? ? O1 _].
    cbn -[Qeq Qplus Qmult Qle ego_name] in P0, O0, O1. change (s (w "ego.x") == 0 + (a * 1 + 0))%Q in P0.
    change (Some (VB Q (qcmp OGe (s (w "ego.x")) 0)) = Some (VB Q true)). do 2 f_equal. unfold qcmp. apply Qle_bool_iff. lra.
  - remember ssolve as sv eqn:Es. vm_compute. subst sv.
    unfold ssolve at 1. destruct (excluded_middle_informative _) as [(m & Hm & _)|_]; [|reflexivity]. exfalso.
    inversion Hm as [|? ? H1 Hm1]. inversion Hm1 as [|? ? H2 _]. cbn -[Qeq Qplus Qmult] in H2. lra.
Qed.
Print Assumptions C97_alpha_refuted.

(** C97: if a variable of the other agents has "ego" in its name and they are sensed first, the ego's constraint is put on
    that variable, and a guard no state satisfies is taken: here 0 <= ego.x <= 1 and the guard is [ego.x > 5]. *)
Theorem C97_ego_name_refuted : exists args defs states W cd dsc lens g,
  world_of 3 states [w "x"] (w "others") [w "ego_gap"] = Some W /\
  star_sense (D := word) args defs 3 states = Some (cd, dsc, lens) /\
  sensed W cd /\ shapes W /\ lane_free g = true /\ (exists s, in_world W s) /\
  (forall s, in_world W s -> geval Example_guard.of_q Example_guard.n_neg Example_guard.n_bin qcmp Example_guard.call Example_guard.coord Example_guard.phys
     (agents [] (one_names cd) slen s) g = Some (VB Q false)) /\
  exists con, star_check Example_guard.call [] Example_guard.phys ssolve cd g = Some (true, con).
Proof.
  set (S := Star [0]%Q [[1]]%Q [[1]; [-1]]%Q [1; 0]%Q).
  exists [mk_arg (w "ego") (Some (w "Car")); mk_arg (w "others") (Some (w "Van"))], [(w "Car", mk_sdef [w "x"] [] []); (w "Van", mk_sdef [w "ego_gap"] [] [])],
    [(1, ((0%Q, S), [], [])); (3, ((0%Q, S), [], []))], (mk_world [w "x"] S (w "others") [w "ego_gap"] [S]).
  eexists _, _, _. exists (GCmp OGt (GVar (RAttr (w "ego") (w "x"))) (GNum 5)).
  split; [reflexivity|]. split; [vm_compute; reflexivity|]. split; [|split; [|split; [reflexivity|split; [|split]]]].
  - constructor; [apply distinct_NoDup; vm_compute; reflexivity|vm_compute; reflexivity|vm_compute; reflexivity|].
    intros k T [E|[[= <- <-]|[]]]; [discriminate E|]. eexists. split; [left; reflexivity|]. split; [left; reflexivity|reflexivity].
  - intros p [<-|[<-|[]]]; (split; [split; [intros v [<-|[]]; reflexivity|split; [intros r [<-|[<-|[]]]; reflexivity|reflexivity]]|reflexivity]).
  - exists (fun k => 0)%Q. intros p [<-|[<-|[]]]; point [0%Q].
  - intros s Hs. destruct (Hs _ (or_introl eq_refl)) as (al & La & Ob & Lx & Px). cbn [p_star p_names ego_star ego_vars] in *.
    destruct al as [|a [|]]; try discriminate La. pose proof (Px 0 ltac:(cbn; lia)) as P0. inversion Ob as [|? ? ? ? O0 Ob1].
    cbn -[Qeq Qplus Qmult Qle ego_name] in P0, O0. change (s (w "ego.x") == 0 + (a * 1 + 0))%Q in P0.
    change (Some (VB Q (qcmp OGt (s (w "ego.x")) 5)) = Some (VB Q false)). do 2 f_equal. unfold qcmp. apply negb_false_iff. apply Qle_bool_iff. lra.
  - remember ssolve as sv eqn:Es. vm_compute. subst sv.
    unfold ssolve at 1. destruct (excluded_middle_informative _) as [_|N]; [eauto|]. exfalso. apply N.
    exists (fun k => if word_eqb k (w "ego_x") then 6 else 0)%Q. split; [|vm_compute; reflexivity].
    repeat (constructor; [vm_compute; solve [reflexivity|discriminate]|]). constructor.
Qed.
Print Assumptions C97_ego_name_refuted.
