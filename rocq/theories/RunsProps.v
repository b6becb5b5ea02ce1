(** C99: where simulations start.  C100: where verifications start, and the record of runs. *)
From Coq Require Import Ascii String Lqa.
From Verif Require Import Base BaseFacts PyText Dict LaneMap3d ResetProofs Scenario ScenarioSpec ScenarioProofs ScenarioMain Runs RunsSpec RunsProofs RunsMain.
Set Implicit Arguments.
Open Scope nat_scope.

Section Props.
  Variables rng tree engine args : Type.
  Variable seeded : Z -> rng.
  Variable draw : rng -> Q * rng.
  Variable fresh_engine : engine.
  Variable analyse : kind -> args -> engine -> root -> nat -> list tree -> option tree * engine.
  Variable info_of : tree -> info args.
  (** numpy draws from [0, 1), and a tree is rooted at the root node its analysis was given. *)
  Hypothesis draw_range : forall g, (0 <= fst (draw g) < 1)%Q.
  Hypothesis info_ok : forall k a e r n p t e', analyse k a e r n p = (Some t, e') -> info_of t = mkinfo k a r n.

  Notation do_call := (@do_call rng tree engine args seeded draw fresh_engine analyse).
  Notation played := (@played rng tree engine args seeded draw fresh_engine analyse).

  (** C99.  After any history, the simulation that [simulate] or [simulate_simple] returns starts at time 0, for every
      agent of the scenario and no other, at a point of the agent's initial set, in its initial mode and with its
      parameters. *)
  Theorem C99_start log sc a seed t sc' : played log sc ->
    (do_call sc (CSimulate a seed) = ([t], true, sc') \/ do_call sc (CSimple a seed) = ([t], true, sc')) ->
    starts_in (st sc') (i_root (info_of t)) /\ i_args (info_of t) = a.
  Proof.
    intros P H. destruct (played_spec info_of draw_range info_ok P) as [S _]. destruct H as [H|H]; simpl in H.
    - destruct (simulate _ _ _ Simulate a seed sc) as [o sc1] eqn:E. destruct (single_app H) as [<- [_ O]].
      destruct (simulate_spec info_of draw_range info_ok (or_introl eq_refl) S E) as [_ [_ [_ K]]].
      destruct (K t (O t eq_refl)) as [_ [r [R1 [R2 _]]]]. rewrite R1. auto.
    - destruct (simulate _ _ _ SimulateSimple a seed sc) as [o sc1] eqn:E. destruct (single_app H) as [<- [_ O]].
      destruct (simulate_spec info_of draw_range info_ok (or_intror eq_refl) S E) as [_ [_ [_ K]]].
      destruct (K t (O t eq_refl)) as [_ [r [R1 [R2 _]]]]. rewrite R1. auto.
  Qed.

  (** C99.  [simulate_multi] without given initial states returns [num_sims] such simulations; when it raises, those it
      had finished are such simulations. *)
  Theorem C99_multi log sc a seed n ts ok sc' : played log sc ->
    do_call sc (CMulti a None seed n) = (ts, ok, sc') ->
    (ok = true -> length ts = n) /\ length ts <= n /\ Forall (fun t => starts_in (st sc') (i_root (info_of t))) ts.
  Proof.
    intros P H. destruct (played_spec info_of draw_range info_ok P) as [S _]. simpl in H.
    destruct (multi_call_spec info_of draw_range info_ok S H) as [_ [_ [_ [K1 [K2 K3]]]]]. split; [exact K1|]. split; [exact K2|].
    apply Forall_forall. intros t Ht. apply In_nth_error in Ht. destruct Ht as [i Hi].
    destruct (K3 i t Hi) as [r [R1 [R2 _]]]. rewrite R1. exact R2.
  Qed.

  (** The starts of two seeded simulations agree when the seed and the initial conditions do. *)
  Lemma same_from s1 s2 r1 r2 z : same_conditions s1 s2 -> starts_in s1 r1 -> starts_in s2 r2 ->
    drawn seeded draw z s1 r1 -> drawn seeded draw z s2 r2 -> forall id, dget word_eqb id (r_init r1) = dget word_eqb id (r_init r2).
  Proof. intros C _ _ D1 D2. apply (drawn_same (s1 := s1) (s2 := s2) (z := z) (seeded := seeded) (draw := draw)); [intros id; apply C|exact D1|exact D2]. Qed.

  (** C99.  With a seed, the starting states depend on nothing but the seed and the agents' initial sets: not on the
      order in which the agents were added, on earlier runs, or on the state of numpy's generator. *)
  Theorem C99_seed log1 sc1 a1 t1 sc1' log2 sc2 a2 t2 sc2' z : played log1 sc1 -> played log2 sc2 ->
    do_call sc1 (CSimulate a1 (Some z)) = ([t1], true, sc1') -> do_call sc2 (CSimulate a2 (Some z)) = ([t2], true, sc2') ->
    same_conditions (st sc1') (st sc2') ->
    forall id, dget word_eqb id (r_init (i_root (info_of t1))) = dget word_eqb id (r_init (i_root (info_of t2))).
  Proof.
    intros P1 P2 H1 H2 C. destruct (played_spec info_of draw_range info_ok P1) as [S1 _].
    destruct (played_spec info_of draw_range info_ok P2) as [S2 _]. simpl in H1, H2.
    destruct (simulate _ _ _ Simulate a1 (Some z) sc1) as [o1 s1] eqn:E1. destruct (single_app H1) as [<- [_ O1]].
    destruct (simulate _ _ _ Simulate a2 (Some z) sc2) as [o2 s2] eqn:E2. destruct (single_app H2) as [<- [_ O2]].
    destruct (simulate_spec info_of draw_range info_ok (or_introl eq_refl) S1 E1) as [_ [_ [_ K1]]].
    destruct (simulate_spec info_of draw_range info_ok (or_introl eq_refl) S2 E2) as [_ [_ [_ K2]]].
    destruct (K1 t1 (O1 t1 eq_refl)) as [_ [r1 [A1 [A2 A3]]]]. destruct (K2 t2 (O2 t2 eq_refl)) as [_ [r2 [B1 [B2 B3]]]].
    rewrite A1, B1. cbn [i_root]. exact (same_from C A2 B2 (A3 z eq_refl) (B3 z eq_refl)).
  Qed.

  (** C99.  Run [i] of [simulate_multi] with seed [z] starts where [simulate] with seed [z + i] does. *)
  Theorem C99_multi_seed log1 sc1 a1 n ts ok sc1' i t1 log2 sc2 a2 t2 sc2' z : played log1 sc1 -> played log2 sc2 ->
    do_call sc1 (CMulti a1 None (Some z) n) = (ts, ok, sc1') -> nth_error ts i = Some t1 ->
    do_call sc2 (CSimulate a2 (Some (z + Z.of_nat i)%Z)) = ([t2], true, sc2') ->
    same_conditions (st sc1') (st sc2') ->
    forall id, dget word_eqb id (r_init (i_root (info_of t1))) = dget word_eqb id (r_init (i_root (info_of t2))).
  Proof.
    intros P1 P2 H1 N H2 C. destruct (played_spec info_of draw_range info_ok P1) as [S1 _].
    destruct (played_spec info_of draw_range info_ok P2) as [S2 _]. simpl in H1, H2.
    destruct (simulate _ _ _ Simulate a2 (Some (z + Z.of_nat i)%Z) sc2) as [o2 s2] eqn:E2. destruct (single_app H2) as [<- [_ O2]].
    destruct (multi_call_spec info_of draw_range info_ok S1 H1) as [_ [_ [_ [_ [_ K1]]]]].
    destruct (simulate_spec info_of draw_range info_ok (or_introl eq_refl) S2 E2) as [_ [_ [_ K2]]].
    destruct (K1 i t1 N) as [r1 [A1 [A2 A3]]]. destruct (K2 t2 (O2 t2 eq_refl)) as [_ [r2 [B1 [B2 B3]]]].
    rewrite A1, B1. cbn [i_root]. exact (same_from C A2 B2 (A3 z eq_refl) (B3 _ eq_refl)).
  Qed.

  (** C99.  Given initial states are used as they are, one simulation for each. *)
  Theorem C99_given log sc a l seed n ts ok sc' : played log sc ->
    do_call sc (CMulti a (Some l) seed n) = (ts, ok, sc') ->
    (ok = true -> length ts = length l) /\
    forall i t, nth_error ts i = Some t -> exists d, nth_error l i = Some d /\
      settings (st sc') (i_root (info_of t)) /\ r_type (i_root (info_of t)) = SimTrace /\
      r_init (i_root (info_of t)) = map (fun e => (fst e, Point (snd e))) d.
  Proof.
    intros P H. destruct (played_spec info_of draw_range info_ok P) as [S _]. simpl in H.
    destruct (multi_call_spec info_of draw_range info_ok S H) as [_ [_ [_ [K1 K2]]]]. split; [exact K1|].
    intros i t N. destruct (K2 i t N) as [r [d [R0 [R1 [R2 [R3 R4]]]]]]. exists d. rewrite R1. auto.
  Qed.

  (** C99 (refuted: sampling covers the initial states).  With a seed, agents with the same initial set always start in
      the same state, because every agent is sampled from a freshly seeded generator. *)
  Theorem C99_independent_refuted log sc a z t sc' id1 id2 v : played log sc ->
    do_call sc (CSimulate a (Some z)) = ([t], true, sc') ->
    stored_init (st sc') id1 = Some v -> stored_init (st sc') id2 = Some v ->
    dget word_eqb id1 (r_init (i_root (info_of t))) = dget word_eqb id2 (r_init (i_root (info_of t))).
  Proof.
    intros P H V1 V2. destruct (played_spec info_of draw_range info_ok P) as [S _]. simpl in H.
    destruct (simulate _ _ _ Simulate a (Some z) sc) as [o s1] eqn:E. destruct (single_app H) as [<- [_ O]].
    destruct (simulate_spec info_of draw_range info_ok (or_introl eq_refl) S E) as [_ [_ [_ K]]].
    destruct (K t (O t eq_refl)) as [_ [r [A1 [A2 A3]]]]. rewrite A1. cbn [i_root].
    assert (D1 := A3 z eq_refl id1). assert (D2 := A3 z eq_refl id2). rewrite V1 in D1. rewrite V2 in D2.
    destruct D1 as [p [P1 Q1]], D2 as [q [P2 Q2]]. specialize (P1 (seeded 0)). specialize (P2 (seeded 0)). congruence.
  Qed.

  (** C100.  After any history, a verification starts at time 0 from the initial set of every agent, and no other. *)
  Theorem C100_verify log sc a t sc' : played log sc ->
    (do_call sc (CVerify a) = ([t], true, sc') \/ do_call sc (CPartitioned a) = ([t], true, sc')) ->
    starts_from (st sc') (i_root (info_of t)) /\ i_args (info_of t) = a /\ st sc' = st sc.
  Proof.
    intros P H. destruct (played_spec info_of draw_range info_ok P) as [S _]. destruct H as [H|H]; simpl in H.
    - destruct (verify _ Verify a sc) as [o sc1] eqn:E. destruct (single_app H) as [<- [_ O]].
      destruct (verify_spec info_of info_ok (k := Verify) eq_refl S E) as [K0 [_ K]].
      destruct (K t (O t eq_refl)) as [r [R1 R2]]. rewrite R1, K0. auto.
    - destruct (verify _ VerifyPartitioned a sc) as [o sc1] eqn:E. destruct (single_app H) as [<- [_ O]].
      destruct (verify_spec info_of info_ok (k := VerifyPartitioned) eq_refl S E) as [K0 [_ K]].
      destruct (K t (O t eq_refl)) as [r [R1 R2]]. rewrite R1, K0. auto.
  Qed.

  (** C100.  The scenario's record of runs is exactly the trees finished since the last [cleanup_cache], in order, also
      when calls raised in between, and the run number in each tree's cache entries is its position in the record. *)
  Theorem C100_past log sc : played log sc ->
    past_runs sc = finished [] log /\ forall i t, nth_error (past_runs sc) i = Some t -> i_num (info_of t) = i.
  Proof. intros P. destruct (played_spec info_of draw_range info_ok P) as [_ H]. exact H. Qed.

  Definition is_run (c : call args) : Prop :=
    match c with CSimulate _ _ | CSimple _ _ | CMulti _ _ _ _ | CVerify _ | CPartitioned _ => True | _ => False end.

  Lemma run_call_st (sc : scen rng tree engine) c ts ok sc' : sane (st sc) -> is_run c -> do_call sc c = (ts, ok, sc') ->
    st sc' = fst (get_init_from_agent (st sc)) \/ st sc' = st sc.
  Proof.
    intros S R H. destruct c; try contradiction; simpl in H.
    - destruct (simulate _ _ _ Simulate a seed sc) as [o s1] eqn:E. destruct (single_app H) as [<- _].
      left. apply (simulate_spec info_of draw_range info_ok (or_introl eq_refl) S E).
    - destruct (simulate _ _ _ SimulateSimple a seed sc) as [o s1] eqn:E. destruct (single_app H) as [<- _].
      left. apply (simulate_spec info_of draw_range info_ok (or_intror eq_refl) S E).
    - left. apply (multi_call_spec info_of draw_range info_ok S H).
    - destruct (verify _ Verify a sc) as [o s1] eqn:E. destruct (single_app H) as [<- _].
      right. apply (verify_spec info_of info_ok (k := Verify) eq_refl S E).
    - destruct (verify _ VerifyPartitioned a sc) as [o s1] eqn:E. destruct (single_app H) as [<- _].
      right. apply (verify_spec info_of info_ok (k := VerifyPartitioned) eq_refl S E).
  Qed.

  (** C100.  Running an analysis, even one that raises, changes no initial set, mode or parameter that an agent has; an
      agent without an initial set may get the one it was itself given last, with its mode. *)
  Theorem C100_conditions_kept log sc c ts ok sc' : played log sc -> is_run c -> do_call sc c = (ts, ok, sc') ->
    map fst (agent_dict (st sc')) = map fst (agent_dict (st sc)) /\
    forall id, match stored_init (st sc) id with
      | Some v => stored_init (st sc') id = Some v /\ stored_mode (st sc') id = stored_mode (st sc) id /\
          stored_static (st sc') id = stored_static (st sc) id /\ stored_uncertain (st sc') id = stored_uncertain (st sc) id
      | None => stored_init (st sc') id = None \/
          exists ag o v, dget word_eqb id (agent_dict (st sc)) = Some ag /\ init_cont ag = Some o /\ read (hp (st sc)) o = Some v /\
            stored_init (st sc') id = Some (as_box v) /\ stored_mode (st sc') id = init_disc ag
      end.
  Proof.
    intros P R H. destruct (played_spec info_of draw_range info_ok P) as [S _].
    destruct (@run_call_st _ _ _ _ _ S R H) as [E|E]; rewrite E.
    - destruct (get_init_from_agent (st sc)) as [s1 b] eqn:G. cbn [fst]. destruct (fill_spec S G) as [S1 [[K1 K2] K3]].
      split; [exact K1|]. intros id. destruct (dget word_eqb id (init_dict (st sc))) as [o|] eqn:D.
      + destruct (sane_stored S D) as [v [_ V]]. rewrite V. destruct (K2 id) as [A1 [A2 [A3 A4]]]; [congruence|].
        rewrite A1, V. auto.
      + unfold stored_init at 1. rewrite D. cbn [obind]. destruct (K3 id D) as [[B1 B2]|[B|B]].
        * left. unfold stored_init. rewrite B1, D. reflexivity.
        * left. unfold stored_init. rewrite B. reflexivity.
        * right. exact B.
    - split; [reflexivity|]. intros id. destruct (stored_init (st sc) id); auto.
  Qed.
End Props.
Print Assumptions C99_start.
Print Assumptions C99_multi.
Print Assumptions C99_seed.
Print Assumptions C99_multi_seed.
Print Assumptions C99_given.
Print Assumptions C99_independent_refuted.
Print Assumptions C100_verify.
Print Assumptions C100_past.
Print Assumptions C100_conditions_kept.

(** ** A concrete generator and analysis *)
Module Example_runs.
  Definition eseed (z : Z) : nat := Z.to_nat z.
  (** A generator that always draws a number of [0, 1) that depends on its state. *)
  Definition edraw (g : nat) : Q * nat := ((Z.of_nat (g mod 8) # 8)%Q, S g).
  Definition eanalyse (k : kind) (a : nat) (e : unit) (r : root) (n : nat) (p : list (info nat)) : option (info nat) * unit :=
    (Some (mkinfo k a r n), tt).
  Lemma edraw_range g : (0 <= fst (edraw g) < 1)%Q.
  Proof.
    unfold edraw. cbn [fst]. unfold Qle, Qlt. cbn [Qnum Qden].
    assert (H : g mod 8 < 8) by (apply Nat.mod_upper_bound; lia). remember (g mod 8) as m. split; lia.
  Qed.
  Lemma einfo_ok k a e r n p t e' : eanalyse k a e r n p = (Some t, e') -> (fun x : info nat => x) t = mkinfo k a r n.
  Proof. intros [= <-]. reflexivity. Qed.
  Definition ecall := @Runs.do_call nat (info nat) unit nat eseed edraw tt eanalyse.
  Definition eplayed := @RunsSpec.played nat (info nat) unit nat eseed edraw tt eanalyse.

  Definition h0 := mkheap [[Num 0; Num 0]; [Num 10; Num 1]] [[0; 1]; [0]].
  Definition car (i : word) : agent := mkagent i true (Some (2, 1)) [] None None None None.
  Definition car1 (i : word) : agent := mkagent i true (Some (2, 1)) [] (Some 1) (Some [w "Normal"]) None None.
  Lemma wf0 : wf h0.
  Proof. repeat constructor. Qed.

  Fixpoint go (sc : scen nat (info nat) unit) (cs : list (call nat)) : list (call nat * list (info nat) * bool) * scen nat (info nat) unit :=
    match cs with
    | [] => ([], sc)
    | c :: cs' => let '(ts, ok, sc1) := ecall sc c in let (l, sc2) := go sc1 cs' in ((c, ts, ok) :: l, sc2)
    end.
  Fixpoint legals (sc : scen nat (info nat) unit) (cs : list (call nat)) : Prop :=
    match cs with [] => True | c :: cs' => legal sc c /\ legals (snd (ecall sc c)) cs' end.
  Lemma go_played cs : forall log sc, eplayed log sc -> legals sc cs -> eplayed (log ++ fst (go sc cs)) (snd (go sc cs)).
  Proof.
    induction cs as [|c cs IH]; intros log sc P L; simpl in *; [rewrite app_nil_r; exact P|].
    destruct (ecall sc c) as [[ts ok] sc1] eqn:E. simpl in L.
    assert (P1 : eplayed (log ++ [(c, ts, ok)]) sc1) by (eapply played_call; [exact P|apply L|exact E]).
    assert (Q := IH _ _ P1 (proj2 L)). destruct (go sc1 cs) as [l sc2]. simpl in *. rewrite <- app_assoc in Q. exact Q.
  Qed.

  Definition sc0 := new_scen (info nat) tt h0 7.
  Definition cs1 := [CAdd nat (car (w "a")); CAdd nat (car (w "b")); CSet nat (w "a") 0 [w "Normal"] None None;
                     CAgent nat (w "b") 0 [w "Normal"] None None].
  Definition sc1 := snd (go sc0 cs1).
  Lemma played1 : exists log, eplayed log sc1.
  Proof.
    eexists. unfold sc1. eapply (go_played cs1). { apply played_new, wf0. }
    simpl. repeat (split; [repeat split; simpl; lia|]). exact I.
  Qed.

  (** [simulate] starts both agents in their sets; the second agent's was given to the agent itself. *)
  Example simulates : exists t sc', ecall sc1 (CSimulate 5 (Some 3%Z)) = ([t], true, sc') /\
    r_init (i_root t) = [(w "a", Point [(0 + (10 - 0) * (3 # 8))%Q; (0 + (1 - 0) * (4 # 8))%Q]);
                         (w "b", Point [(0 + (10 - 0) * (3 # 8))%Q; (0 + (1 - 0) * (4 # 8))%Q])].
  Proof. eexists. eexists. split; [vm_compute; reflexivity|vm_compute; reflexivity]. Qed.
  Example start_holds : exists t sc', ecall sc1 (CSimulate 5 (Some 3%Z)) = ([t], true, sc') /\ starts_in (st sc') (i_root t).
  Proof.
    destruct simulates as [t [sc' [E _]]]. exists t, sc'. split; [exact E|]. destruct played1 as [log P].
    apply (@C99_start _ _ _ _ eseed _ tt _ (fun x => x) edraw_range einfo_ok log sc1 5 (Some 3%Z) t sc'); [exact P|left; exact E].
  Qed.
  (** Two simulations after a verification that raised, a clean-up, and one more. *)
  Definition cs2 := [CVerify 1; CMulti 2 None (Some 4%Z) 2; CClean nat; CVerify 3].
  Example record : map (fun t => (i_kind t, i_args t, i_num t)) (past_runs (snd (go sc1 cs2))) = [(Verify, 3, 0)] /\
    map (fun e => (length (snd (fst e)), snd e)) (fst (go sc1 cs2)) = [(0, false); (2, true); (0, true); (1, true)].
  Proof. split; vm_compute; reflexivity. Qed.
End Example_runs.
Import Example_runs.

(** C100 (refuted: what can be simulated can be verified).  When an agent is given its initial set itself after it was
    added, [verify] raises, until [simulate] has been called once: then the same call succeeds. *)
Theorem C100_verify_fill_refuted :
  exists log sc, eplayed log sc /\
    (exists sc', ecall sc (CVerify 1) = ([], false, sc')) /\
    (exists t sc1 t' sc2, ecall sc (CSimulate 1 None) = ([t], true, sc1) /\ ecall sc1 (CVerify 1) = ([t'], true, sc2)).
Proof.
  destruct played1 as [log P]. exists log, sc1. split; [exact P|]. split.
  - eexists. vm_compute. reflexivity.
  - eexists. eexists. eexists. eexists. split; vm_compute; reflexivity.
Qed.
Print Assumptions C100_verify_fill_refuted.

(** C100 (refuted: an agent starts where it was last told to).  Once the scenario has an initial set for an agent, the
    agent's own [set_initial] has no effect on simulations: here the agent is moved from [0, 10] x [0, 1] to the point
    (20, 20), and still starts in the old set. *)
Definition moved := [CNewInner nat [Num 20; Num 20]; CNewOuter nat [11]; CAgent nat (w "a") 8 [w "Normal"] None None].
Theorem C100_stale_refuted :
  exists log sc ag o t sc', eplayed log sc /\ dget word_eqb (w "a") (agent_dict (st sc)) = Some ag /\ init_cont ag = Some o /\
    read (hp (st sc)) o = Some [[Num 20; Num 20]] /\
    ecall sc (CSimulate 1 (Some 0%Z)) = ([t], true, sc') /\
    exists x y, dget word_eqb (w "a") (r_init (i_root t)) = Some (Point [x; y]) /\ (x <= 10)%Q.
Proof.
  destruct played1 as [log P].
  exists (log ++ fst (go sc1 moved)), (snd (go sc1 moved)). eexists. eexists. eexists. eexists.
  split. { apply go_played; [exact P|]. vm_compute. repeat split; try lia. repeat constructor. }
  split; [vm_compute; reflexivity|]. split; [vm_compute; reflexivity|]. split; [vm_compute; reflexivity|].
  split; [vm_compute; reflexivity|]. eexists. eexists. split; [vm_compute; reflexivity|]. vm_compute. discriminate.
Qed.
Print Assumptions C100_stale_refuted.

(** C99 (refuted: any accepted scenario can be simulated).  An agent built with a single initial point is accepted by
    [add_agent] and passes the initialisation check, but [simulate] raises; the same point given by [set_init_single]
    is simulated. *)
Theorem C99_single_point_refuted :
  exists log sc, eplayed log sc /\ check_init (st sc) = true /\ stored_init (st sc) (w "a") = Some [[Num 0; Num 0]] /\
    (forall a seed, snd (fst (ecall sc (CSimulate a seed))) = false) /\
    exists ts1 sc1 t sc2, ecall sc (CSet nat (w "a") 1 [w "Normal"] None None) = (ts1, true, sc1) /\
      ecall sc1 (CSimulate 1 None) = ([t], true, sc2) /\ dget word_eqb (w "a") (r_init (i_root t)) <> None.
Proof.
  pose (cs := [CAdd nat (car1 (w "a"))]).
  exists ([] ++ fst (go sc0 cs)), (snd (go sc0 cs)).
  split. { apply go_played; [apply played_new, wf0|]. vm_compute. repeat split; lia. }
  split; [reflexivity|]. split; [reflexivity|]. split.
  - intros a [z|]; [|reflexivity]. unfold ecall, Runs.do_call, single, Runs.simulate. simpl. unfold Runs.sample_rect.
    destruct (seed_ok z); reflexivity.
  - eexists. eexists. eexists. eexists. split; [vm_compute; reflexivity|]. split; [vm_compute; reflexivity|]. vm_compute. discriminate.
Qed.
Print Assumptions C99_single_point_refuted.

(** C99 (refuted: every simulation starts in the initial set).  Initial states given to [simulate_multi] are not
    checked: a state outside the set, and one that leaves an agent out, are simulated. *)
Theorem C99_given_outside_refuted :
  exists log sc ts sc', eplayed log sc /\
    ecall sc (CMulti 1 (Some [[(w "a", [99; 99]%Q); (w "b", [0; 0]%Q)]; [(w "a", [0; 0]%Q)]]) None 0) = (ts, true, sc') /\
    stored_init (st sc') (w "a") = Some [[Num 0; Num 0]; [Num 10; Num 1]] /\
    (exists t, nth_error ts 0 = Some t /\ dget word_eqb (w "a") (r_init (i_root t)) = Some (Point [99; 99]%Q)) /\
    (exists t, nth_error ts 1 = Some t /\ known (st sc') (w "b") /\ dget word_eqb (w "b") (r_init (i_root t)) = None).
Proof.
  destruct played1 as [log P]. exists log, sc1. eexists. eexists. split; [exact P|]. split; [vm_compute; reflexivity|].
  split; [vm_compute; reflexivity|]. split.
  - eexists. split; [reflexivity|]. vm_compute. reflexivity.
  - eexists. split; [reflexivity|]. split; [vm_compute; tauto|]. vm_compute. reflexivity.
Qed.
Print Assumptions C99_given_outside_refuted.
