(** Properties C97 and C98, continued: lane coordinates in guards when reachable sets are star sets
    (verse/automaton/guard.py:150-180, 355-596).

    [lane_check] is the pair (satisfiable, contained) the verifier computes for any guard; the coordinates are computed from
    bounds of the variables over the stars, so the answer can only be safe, not exact. *)
From Coq Require Import Ascii String ClassicalDescription.
From Verif Require Import Base BaseFacts Dict PyText Guard GuardSpec GuardProofs GuardProps Sensor SensorSpec SensorProofs SimpleEnvProofs
  Star StarSpec StarReset StarResetSpec StarGuard StarGuardSpec StarGuardProofs StarGuardWorld StarGuardSense StarGuardProps
  StarLane StarLaneSpec StarLaneProofs.
From Coq Require Import Lqa.
Set Implicit Arguments.
Open Scope nat_scope.

Section Props.
  (** The arithmetic and the comparisons of guards. *)
  Variable of_q : Q -> Q.
  Variable n_neg : Q -> Q.
  Variable n_bin : binop -> Q -> Q -> Q.
  Variable n_cmp : cmpop -> Q -> Q -> bool.
  Hypothesis agree : numbers_agree of_q n_neg n_cmp.
  Hypothesis order : forall a b, n_cmp OLe a b = true <-> (a <= b)%Q.
  (** Functions with discrete arguments; true lane coordinates, and bounds on them; lane names. *)
  Variable call : word -> list dval -> option dval.
  Variable coord : bool -> word -> Q -> Q -> option Q.
  Variable coord_set : bool -> word -> Q * Q -> Q * Q -> option (Q * Q).
  Hypothesis coord_right : coord_sound n_cmp coord coord_set.
  Variable phys : word -> word.
  Notation value := (geval of_q n_neg n_bin n_cmp call coord phys).
  (** The values of the discrete variables, the sensed stars, the lengths of the lists of agents. *)
  Variable dd : dict word word.
  Variable cd : sdict.
  Variable len : word -> option nat.
  Notation state s := (agents dd (one_names cd) len s).
  Notation true_in s g := (value (state s) g = Some (VB Q true)).
  (** The two solvers. *)
  Variable linprog : bool -> vec -> list vec -> vec -> lp.
  Variable solve : list word -> form -> list lin -> verdict.
  Notation check g := (do g' <- unroll len g; lane_check linprog call dd phys coord_set solve cd g').

  (** ** C97: no transition is missed, and none is taken to be certain that is not. *)
  Theorem C97_lanes : forall W g sat con,
    sensed W cd -> names_fit W dd -> no_made_up W dd -> ego_first W cd -> alike W -> shapes W ->
    (forall p, In p (parts W) -> solves linprog (p_star p)) ->
    star_solver_right of_q n_neg n_bin n_cmp solve ->
    check g = Some (sat, con) ->
    ((forall ks f ls, solve ks f ls <> Unknown) -> (exists s, in_world W s /\ true_in s g) -> sat = true) /\
    (con = true -> forall s b, in_world W s -> value (state s) g = Some (VB Q b) -> b = true).
  Proof.
    intros W g sat con HS HN HT HF HA HW HL Hr Hc. destruct (unroll len g) as [g'|] eqn:Eu; [|discriminate]. cbn [obind] in Hc.
    assert (V : forall s b, value (state s) g = Some (VB Q b) -> value (flat dd (map fst cd) s) g' = Some (VB Q b)).
    { intros s b Hb. eapply to_keys; eassumption. }
    assert (O : forall s b, in_world W s -> value (state s) g = Some (VB Q b) -> ((forall ks f ls, solve ks f ls <> Unknown) -> b = true -> sat = true) /\ (con = true -> b = true)).
    { intros s b Hi Hb. eapply lane_over; eauto. }
    split.
    - intros Hd (s & Hi & Hb). exact (proj1 (O _ _ Hi Hb) Hd eq_refl).
    - intros Hcon s b Hi Hb. exact (proj2 (O _ _ Hi Hb) Hcon).
  Qed.

  (** Without lane coordinates it is the check of C97_exact. *)
  Theorem C97_lanes_same : forall g avs, lane_free g = true -> variable_indices cd = Some avs ->
    lane_check linprog call dd phys coord_set solve cd g = star_check call dd phys solve cd g.
  Proof.
    intros g avs Hf Ha. unfold lane_check, star_check. destruct (disc call dd g) as [p|] eqn:Ep; [|reflexivity]. cbn [obind]. pose proof (disc_free call dd g Hf Ep) as Hf'.
    destruct (truthy (fst p)); [|reflexivity]. rewrite Ha. cbn [obind].
    destruct (@hyb_free_sets dd phys (Q * Q) _ (fun (_ : bool) (_ : word) (_ _ : Q * Q) => None) (lane_star linprog coord_set avs) (snd p) Hf' [] (with_names cd)) as [E _].
    rewrite E. destruct (hyb dd phys _ [] (snd p)) as [r|]; [|reflexivity]. cbn [option_map obind]. unfold hr_val, hr_new, hr_cd. cbn [fst snd].
    destruct (truthy (fst (fst (fst r)))); [|reflexivity]. f_equal. unfold without_names, with_names. rewrite map_map. cbn. rewrite <- (map_id cd) at 2. apply map_ext. intros []. reflexivity.
  Qed.
End Props.
Print Assumptions C97_lanes.
Print Assumptions C97_lanes_same.

(** ** C98: in a sensed dictionary, and after unrolling a guard, the ego's variables come first, in their order. *)
Theorem C98_order : forall (D : Type) args defs me (states : dict nat (astate (Q * star) D)) own te to de od g,
  NoDup (map fst states) -> dget Nat.eqb me states = Some own ->
  ego_type args = Some te -> dget word_eqb te defs = Some de ->
  other_arg args = Some (w "others", to) -> dget word_eqb to defs = Some od ->
  NoDup (s_cont de ++ s_disc de ++ s_stat de) -> NoDup (s_cont od ++ s_disc od ++ s_stat od) ->
  nodots (s_cont de ++ s_disc de ++ s_stat de) -> nodots (s_cont od ++ s_disc od ++ s_stat od) ->
  enough de own -> (forall a, In a (others me states) -> enough od a) ->
  exists W cd0 disc lens cd,
    world_of me states (s_cont de) (w "others") (s_cont od) = Some W /\
    star_sense args defs me states = Some (cd0, disc, lens) /\
    update_stars cd0 (updater (fun l => dget word_eqb l lens) cd0 g) = Some cd /\
    sensed W cd /\ ego_first W cd.
Proof.
  intros D args defs me states own te to de od g Ns Hown He Hde Ho Hdo NDe NDo Dote Doto Fown Foth.
  assert (Nn : ~ In "."%char (w "others")) by (cbn; intuition discriminate).
  destruct (@sense_J D args defs me states own te to (w "others") de od Ns Hown He Hde Ho Hdo Nn NDe NDo Dote Doto Fown Foth) as (cd0 & disc & E & HJ & _ & Hfirst).
  set (W := mk_world _ _ _ _ _) in HJ. set (lens := [(w "others", length (others me states))]) in E.
  assert (Hlen : forall iter n, dget word_eqb iter lens = Some n -> iter = oth W /\ n = length (oth_stars W)).
  { intros iter n H. apply dget_In in H; [|exact word_eqb_eq]. destruct H as [[= <- <-]|[]]. split; [reflexivity|]. cbn. rewrite map_length. reflexivity. }
  destruct (@updater_ok W Nn ltac:(discriminate) cd0 HJ (fun l => dget word_eqb l lens) Hlen g) as (cd & Eu & HJ' & _ & _).
  exists W, cd0, disc, lens, cd. split; [unfold world_of; rewrite Hown; reflexivity|]. split; [exact E|]. split; [exact Eu|]. split; [exact (proj1 HJ')|].
  destruct (@updater_grows W Nn ltac:(discriminate) cd0 HJ (fun l => dget word_eqb l lens) Hlen g cd Eu) as (rest & Er).
  exists rest. rewrite Er, Hfirst. reflexivity.
Qed.
Print Assumptions C98_order.

(** ** A case: a car and two others on a lane whose longitudinal coordinate is [x + y] *)
Module Example_C97_lanes.
  Import Example_guard Example_C97.
  Definition lon (lat : bool) (k : word) (x y : Q) : option Q := if lat then None else Some (x + y)%Q.
  Definition lon_set (lat : bool) (k : word) (x y : Q * Q) : option (Q * Q) := if lat then None else Some (fst x + fst y, snd x + snd y)%Q.
  Lemma lon_right : coord_sound qcmp lon lon_set.
  Proof.
    intros [] k [a b] [c d] lo hi x y v; cbn; [discriminate|]. intros [= <- <-] [= <-] H1 H2 H3 H4. rewrite !Qle_bool_iff in *. lra.
  Qed.
  Lemma le_order : forall a b, qcmp OLe a b = true <-> (a <= b)%Q.
  Proof. intros a b. apply Qle_bool_iff. Qed.
  (** Minimise [q alpha] for [- l <= alpha <= u]. *)
  Definition lp1 (free : bool) (c : vec) (A : list vec) (b : vec) : lp :=
    match c, b with [q], [u; l] => Optimal [if Qle_bool 0 q then - l else u]%Q | _, _ => Other end.
  Lemma lp1_solves (s : star) u l : gens s = 1 -> C s = [[1]; [-1]]%Q -> g s = [u; l] -> (- l <= u)%Q -> solves lp1 s.
  Proof.
    intros Hg HC Hb Hul c Hc. rewrite Hg in Hc. destruct c as [|q [|]]; try discriminate Hc. unfold exact_lp. rewrite HC, Hb. cbn [lp1].
    assert (F : forall a, feasible true [[1]; [-1]]%Q [u; l] [a] <-> (a <= u /\ - l <= a)%Q).
    { intros a. unfold feasible, obeys. split.
      - intros [H _]. inversion H as [|? ? ? ? K1 K']. inversion K' as [|? ? ? ? K2 _]. cbn -[Qle Qplus Qmult] in K1, K2. lra.
      - intros [H1 H2]. split; [|discriminate]. repeat constructor; cbn -[Qle Qplus Qmult Qopp]; lra. }
    split; [reflexivity|]. destruct (Qle_bool 0 q) eqn:E.
    - apply Qle_bool_iff in E. split; [apply F; lra|]. intros [|a [|]] Hy Hf; try discriminate Hy. apply F in Hf. cbn -[Qle Qplus Qmult Qopp]. nra.
    - assert (Eq : (q < 0)%Q) by (apply Qnot_le_lt; intros H; apply Qle_bool_iff in H; congruence).
      split; [apply F; lra|]. intros [|a [|]] Hy Hf; try discriminate Hy. apply F in Hf. cbn -[Qle Qplus Qmult Qopp]. nra.
  Qed.

  Definition lane_guard : gex :=
    (* [any(track_map.get_longitudinal_position(ego.mode, [o.x, o.y]) - track_map.get_longitudinal_position(ego.mode, [ego.x, ego.y]) < 2 for o in others)] *)
    GRed true (GCmp OLt (GBin Sub (GLane false (RAttr (w "ego") (w "mode")) (RAttr (w "o") (w "x")) (RAttr (w "o") (w "y")))
                                  (GLane false (RAttr (w "ego") (w "mode")) (RAttr (w "ego") (w "x")) (RAttr (w "ego") (w "y")))) (GNum 2)) (w "o") (w "others").
  Definition car := mk_sdef [w "x"; w "y"] [w "mode"] [].
  Definition cars := [(w "Car", car); (w "Van", car)].
  (** The car is at (3 + a, a) for -1 <= a <= 2; the others at (3 + a, 0) for 0 <= a <= 1 and (7 + a, 1) for 0 <= a <= 2. *)
  Definition t_0 : star := Star [3; 0]%Q [[1; 0]]%Q [[1]; [-1]]%Q [1; 0]%Q.
  Definition t_1 : star := Star [7; 1]%Q [[1; 0]]%Q [[1]; [-1]]%Q [2; 0]%Q.
  Definition lstates : dict nat (astate (Q * star) word) :=
    [(7, ((0%Q, t_0), [w "N"], [])); (3, ((0%Q, s_ego), [w "N"], [])); (9, ((0%Q, t_1), [w "L"], []))].
  Definition LW : world := mk_world [w "x"; w "y"] s_ego (w "others") [w "x"; w "y"] [t_0; t_1].
  Definition lcd : sdict :=
    [(w "others.x", Many [t_0; t_1]); (w "others.y", Many [t_0; t_1]); (w "ego.x", One s_ego); (w "ego.y", One s_ego);
     (w "others_0.x", One t_0); (w "others_1.x", One t_1); (w "others_0.y", One t_0); (w "others_1.y", One t_1)].
  Example lcomputed : (do r <- star_sense args cars 3 lstates; update_stars (fst (fst r)) (updater slen (fst (fst r)) lane_guard)) = Some lcd.
  Proof. vm_compute. reflexivity. Qed.
  (** By C98. *)
  Lemma lworld : sensed LW lcd /\ ego_first LW lcd.
  Proof.
    destruct (@C98_order word args cars 3 lstates ((0%Q, s_ego), [w "N"], []) (w "Car") (w "Van") car car lane_guard) as (W' & cd0 & dsc & ls & cd' & E1 & E2 & E3 & HS).
    - repeat constructor; cbn; intuition discriminate.
    - reflexivity.
    - reflexivity.
    - reflexivity.
    - reflexivity.
    - reflexivity.
    - cbn. repeat constructor; cbn; intuition discriminate.
    - cbn. repeat constructor; cbn; intuition discriminate.
    - intros x Hx. cbn in Hx. destruct Hx as [<-|[<-|[<-|[]]]]; cbn; intuition discriminate.
    - intros x Hx. cbn in Hx. destruct Hx as [<-|[<-|[<-|[]]]]; cbn; intuition discriminate.
    - split; cbn; lia.
    - intros a [<-|[<-|[]]]; split; cbn; lia.
    - injection E1 as <-. vm_compute in E2. injection E2 as <- <- <-. vm_compute in E3. injection E3 as <-. exact HS.
  Qed.
  Lemma lfit : names_fit LW dd.
  Proof.
    constructor.
    - intros x Hx. cbn in Hx. destruct Hx as [<-|[<-|[<-|[<-|[<-|[]]]]]]; cbn; intuition discriminate.
    - exact (wn_dd named).
    - apply distinct_NoDup. vm_compute. reflexivity.
    - intros k Hk. vm_compute in Hk. repeat (destruct Hk as [<-|Hk]; [reflexivity|]). destruct Hk.
    - intros p [<-|[<-|[<-|[]]]]; reflexivity.
    - intros p j [<-|[<-|[<-|[]]]] H; cbn [names_of parts LW ego_vars oth oth_vars oth_stars flat_map map p_names app combine seq length fst In] in H;
        repeat (destruct H as [H|H]; [discriminate H|]); exact H.
  Qed.
  Lemma lmade : no_made_up LW dd.
  Proof. intros k Hk. vm_compute in Hk. repeat (destruct Hk as [<-|Hk]; [reflexivity|]). destruct Hk. Qed.
  Lemma lalike : alike LW.
  Proof. exists []. reflexivity. Qed.
  Lemma lshaped : shapes LW.
  Proof.
    intros p [<-|[<-|[<-|[]]]]; (split; [split; [intros v [<-|[]]; reflexivity|split; [intros r [<-|[<-|[]]]; reflexivity|reflexivity]]|reflexivity]).
  Qed.
  Lemma lsolved : forall p, In p (parts LW) -> solves lp1 (p_star p).
  Proof. intros p [<-|[<-|[<-|[]]]]; (eapply lp1_solves; [reflexivity..|]; vm_compute; discriminate). Qed.
  Notation lvalue := (geval of_q n_neg n_bin qcmp call lon phys).
  Notation lstate s := (agents dd (one_names lcd) slen s).
  Notation lcheck g := (do g' <- unroll slen g; lane_check lp1 call dd phys lon_set ssolve lcd g').
  Lemma lchecked : exists sat con, lcheck lane_guard = Some (sat, con).
  Proof. remember ssolve as sv eqn:Esv. vm_compute. destruct (sv _ _ _); eauto. Qed.
  Definition lat_ (x y a b c d : Q) (k : word) : Q :=
    if word_eqb k (w "ego.x") then x else if word_eqb k (w "ego.y") then y else if word_eqb k (w "others_0.x") then a
    else if word_eqb k (w "others_0.y") then b else if word_eqb k (w "others_1.x") then c else d.
  Example ex_C97_lanes : forall sat con, lcheck lane_guard = Some (sat, con) -> sat = true /\ con = false.
  Proof.
    intros sat con Hc. destruct lworld as [HS HF].
    destruct (@C97_lanes of_q n_neg n_bin qcmp agree le_order call lon lon_set lon_right phys dd lcd slen lp1 ssolve LW lane_guard sat con HS lfit lmade HF lalike lshaped lsolved sright Hc) as [H1 H2].
    split.
    - apply (H1 sdecides). exists (lat_ 5 2 3 0 8 1)%Q. split; [|vm_compute; reflexivity]. intros p [<-|[<-|[<-|[]]]]; [point [2%Q]|point [0%Q]|point [1%Q]].
    - destruct con; [|reflexivity]. specialize (H2 eq_refl (lat_ 2 (-1) 4 0 8 1)%Q false). discriminate H2; [|vm_compute; reflexivity].
      intros p [<-|[<-|[<-|[]]]]; [point [(-1)%Q]|point [1%Q]|point [1%Q]].
  Qed.
  Example ex_C97_lanes_same : lane_check lp1 call dd phys lon_set ssolve lcd diag = star_check call dd phys ssolve lcd diag.
  Proof. eapply C97_lanes_same; vm_compute; reflexivity. Qed.
End Example_C97_lanes.

(** ** Where it fails *)
Import Example_guard Example_C97 Example_C97_lanes.

(** C97: the variables of the other agents are taken to come in the ego's order: verse/automaton/guard.py:163-171.  Here the
    ego has [x] and [y], the other agent [v], [x] and [y]; it stands at (0, 100) with v = 0, but the bounds of [v] and [x]
    are taken for those of [x] and [y], and the transition it enables is missed. *)
Theorem C97_order_refuted : exists args defs states W cd0 dsc lens cd g s,
  world_of 3 states [w "x"; w "y"] (w "others") [w "v"; w "x"; w "y"] = Some W /\
  star_sense (D := word) args defs 3 states = Some (cd0, dsc, lens) /\
  update_stars cd0 (updater (fun l => dget word_eqb l lens) cd0 g) = Some cd /\
  sensed W cd /\ names_fit W [(w "ego.mode", w "N")] /\ no_made_up W [(w "ego.mode", w "N")] /\ ego_first W cd /\ shapes W /\
  (forall p, In p (parts W) -> solves lp1 (p_star p)) /\
  in_world W s /\
  geval of_q n_neg n_bin qcmp call lon phys (agents [(w "ego.mode", w "N")] (one_names cd) (fun l => dget word_eqb l lens) s) g = Some (VB Q true) /\
  (do g' <- unroll (fun l => dget word_eqb l lens) g; lane_check lp1 call [(w "ego.mode", w "N")] phys lon_set ssolve cd g') = Some (false, false).
Proof.
  set (own := ((0%Q, s_ego), [w "N"], []) : astate (Q * star) word).
  set (T := Star [0; 0; 100]%Q [[0; 0; 0]]%Q [[1]; [-1]]%Q [1; 1]%Q).
  set (van := mk_sdef [w "v"; w "x"; w "y"] [w "mode"] []).
  set (g := GRed true (GCmp OGt (GLane false (RAttr (w "ego") (w "mode")) (RAttr (w "o") (w "x")) (RAttr (w "o") (w "y"))) (GNum 50)) (w "o") (w "others")).
  set (sts := [(3, own); (7, ((0%Q, T), [w "N"], []))]).
  exists args, [(w "Car", car); (w "Van", van)], sts.
  destruct (@C98_order word args [(w "Car", car); (w "Van", van)] 3 sts own (w "Car") (w "Van") car van g) as (W' & cd0 & dsc & ls & cd' & E1 & E2 & E3 & HS & HF).
  1: repeat constructor; cbn; intuition discriminate.
  1-5: reflexivity.
  1-2: cbn; repeat constructor; cbn; intuition discriminate.
  1-2: intros x Hx; cbn in Hx; repeat (destruct Hx as [<-|Hx]; [cbn; intuition discriminate|]); destruct Hx.
  1: split; cbn; lia.
  1: intros a [<-|[]]; split; cbn; lia.
  injection E1 as <-. exists (mk_world [w "x"; w "y"] s_ego (w "others") [w "v"; w "x"; w "y"] [T]), cd0, dsc, ls, cd', g.
  exists (fun k => if word_eqb k (w "ego.x") then 3 else if word_eqb k (w "others_0.y") then 100 else 0)%Q.
  split; [reflexivity|]. split; [exact E2|]. split; [exact E3|].
  vm_compute in E2. injection E2 as <- <- <-. vm_compute in E3. injection E3 as <-.
  split; [exact HS|]. split; [|split; [|split; [exact HF|split; [|split; [|split; [|split]]]]]].
  - constructor.
    + intros x Hx. cbn in Hx. repeat (destruct Hx as [<-|Hx]; [cbn; intuition discriminate|]). destruct Hx.
    + intros k [<-|[]]. exact (wn_dd named (w "ego.mode") (or_introl eq_refl)).
    + apply distinct_NoDup. vm_compute. reflexivity.
    + intros k Hk. vm_compute in Hk. repeat (destruct Hk as [<-|Hk]; [reflexivity|]). destruct Hk.
    + intros p [<-|[<-|[]]]; reflexivity.
    + intros p j [<-|[<-|[]]] H; cbn [names_of parts ego_vars oth oth_vars oth_stars flat_map map p_names app combine seq length fst In] in H;
        repeat (destruct H as [H|H]; [discriminate H|]); exact H.
  - intros k Hk. vm_compute in Hk. repeat (destruct Hk as [<-|Hk]; [reflexivity|]). destruct Hk.
  - intros p [<-|[<-|[]]]; (split; [split; [intros v [<-|[]]; reflexivity|split; [intros r [<-|[<-|[]]]; reflexivity|reflexivity]]|reflexivity]).
  - intros p [<-|[<-|[]]]; (eapply lp1_solves; [reflexivity..|]; vm_compute; discriminate).
  - intros p [<-|[<-|[]]]; exists [0%Q]; (split; [reflexivity|split; [repeat (constructor; [vm_compute; discriminate|]); constructor|split; [reflexivity|]]]);
      intros [|[|[|j]]] Hj; try (vm_compute; reflexivity); cbn in Hj; lia.
  - vm_compute. reflexivity.
  - remember ssolve as sv eqn:Es. vm_compute. subst sv. unfold ssolve at 1. destruct (excluded_middle_informative _) as [(m & Hm & Hh)|_]; [|reflexivity].
    exfalso. inversion Hm as [|? ? L1 Hm1]. inversion Hm1 as [|? ? L2 Hm2]. cbn -[Qeq Qle Qplus Qmult w] in L1, L2.
    match type of L1 with (_ == m ?t)%Q => assert (Ht : (m t <= 50)%Q) by lra; apply Qle_bool_iff in Ht; cbn -[w Qle_bool] in Hh; injection Hh as Hh; apply negb_true_iff in Hh; pose proof (eq_trans (eq_sym Hh) Ht) as K; discriminate K end.
Qed.
Print Assumptions C97_order_refuted.
