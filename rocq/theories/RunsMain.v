(** Runs over histories. *)
From Coq Require Import Ascii String Lqa.
From Verif Require Import Base BaseFacts PyText Dict LaneMap3d ResetProofs Scenario ScenarioSpec ScenarioProofs ScenarioMain Runs RunsSpec RunsProofs.
Set Implicit Arguments.
Open Scope nat_scope.

(** ** Dictionaries built entry by entry *)
Lemma mapM_dget {V W} (f : V -> option W) (d : dict word V) r :
  mapM (fun e => do x <- f (snd e); Some (fst e, x)) d = Some r ->
  forall id, match dget word_eqb id d with
             | Some a => exists x, f a = Some x /\ dget word_eqb id r = Some x
             | None => dget word_eqb id r = None end.
Proof.
  revert r. induction d as [|[k a] d IH]; intros r H id; simpl in H.
  - injection H as <-. reflexivity.
  - destruct (f a) as [x|] eqn:Fa; [|discriminate]. cbn [obind] in H.
    destruct (mapM _ d) as [r'|] eqn:M; [|discriminate]. cbn [obind] in H. injection H as <-.
    simpl. destruct (word_eqb id k); [exists x; auto|]. exact (IH r' eq_refl id).
Qed.
Arguments mapM_dget {V W f d r}.

Lemma mapM_number l q : mapM number l = Some q -> l = map Num q.
Proof.
  revert q. induction l as [|[x|x] l IH]; intros q H; simpl in H; try discriminate; [injection H as <-; reflexivity|].
  destruct (mapM number l) as [q'|]; [|discriminate]. cbn [obind] in H. injection H as <-. simpl. rewrite (IH q'); auto.
Qed.
Lemma mapM_name l q : mapM name_of l = Some q -> l = map Name q.
Proof.
  revert q. induction l as [|[x|x] l IH]; intros q H; simpl in H; try discriminate; [injection H as <-; reflexivity|].
  destruct (mapM name_of l) as [q'|]; [|discriminate]. cbn [obind] in H. injection H as <-. simpl. rewrite (IH q'); auto.
Qed.

Lemma check_known s id : check_init s = true -> known s id ->
  dget word_eqb id (init_dict s) <> None /\ dget word_eqb id (init_mode_dict s) <> None /\
  dget word_eqb id (static_dict s) <> None /\ dget word_eqb id (uncertain_param_dict s) <> None.
Proof.
  unfold check_init, known. rewrite forallb_forall. intros H Hin. apply in_map_iff in Hin. destruct Hin as [[k ag] [E Hin]].
  simpl in E. subst k. specialize (H _ Hin). cbn [fst] in H. rewrite !andb_true_iff in H. unfold dmem in H.
  destruct (dget word_eqb id (init_dict s)), (dget word_eqb id (init_mode_dict s)), (dget word_eqb id (static_dict s)),
    (dget word_eqb id (uncertain_param_dict s)); simpl in H; try (destruct H as [[[? ?] ?] ?]; discriminate); repeat split; discriminate.
Qed.
  Arguments check_known {s id}.

Lemma settings_root s init ty r : check_init s = true -> root_from_inits s init ty = Some r ->
  settings s r /\ r_init r = init /\ r_type r = ty.
Proof.
  intros C H. unfold root_from_inits in H. destruct (statics s) as [sp|] eqn:Sp; [|discriminate]. cbn [obind] in H.
  destruct (uncertains s) as [up|] eqn:Up; [|discriminate]. cbn [obind] in H. injection H as <-.
  split; [|split; reflexivity]. unfold settings. cbn [r_agents r_height r_time r_id r_mode r_static r_uncertain].
  repeat (split; [reflexivity|]). intros id K. destruct (check_known C K) as [_ [Cm [Cs Cu]]].
  destruct (dget word_eqb id (init_mode_dict s)) as [m|] eqn:M; [|congruence].
  destruct (dget word_eqb id (static_dict s)) as [a|] eqn:A; [|congruence].
  destruct (dget word_eqb id (uncertain_param_dict s)) as [o|] eqn:U; [|congruence].
  assert (S1 : mapM (fun e => do x <- (fun a => do l <- nth_error (inner (hp s)) a; mapM name_of l) (snd e); Some (fst e, x)) (static_dict s) = Some sp).
  { rewrite <- Sp. unfold statics. clear. induction (static_dict s) as [|[k a] d IH]; simpl; [reflexivity|]. rewrite IH.
    destruct (nth_error (inner (hp s)) a) as [l|]; [|reflexivity]. cbn [obind]. destruct (mapM name_of l); reflexivity. }
  assert (P := mapM_dget S1 id). rewrite A in P. destruct P as [ns [P1 P2]].
  assert (P := mapM_dget (f := read (hp s)) Up id). rewrite U in P. destruct P as [u [P3 P4]].
  exists m, ns, u. unfold stored_mode, stored_static, stored_uncertain. rewrite M, A, U. cbn [obind].
  destruct (nth_error (inner (hp s)) a) as [l|] eqn:L; [|discriminate]. cbn [obind] in P1.
  unfold read_flat. rewrite L, (mapM_name _ P1). auto 10.
Qed.
  Arguments settings_root {s init ty r}.

Lemma fill_ready s : check_init s = true -> get_init_from_agent s = (s, true).
Proof.
  intros C. unfold get_init_from_agent. assert (H : forall ids, incl ids (map fst (agent_dict s)) -> fill_loop ids s = (s, true)).
  { induction ids as [|id ids IH]; intros I; simpl; [reflexivity|].
    destruct (@check_known s id C) as [K _]; [apply I; left; reflexivity|]. unfold dmem.
    destruct (dget word_eqb id (init_dict s)); [|congruence]. apply IH. intros x Hx. apply I. right. exact Hx. }
  apply H, incl_refl.
Qed.
  Arguments fill_ready {s}.

Lemma sane_stored s id o : sane s -> dget word_eqb id (init_dict s) = Some o -> exists v, read (hp s) o = Some v /\ stored_init s id = Some v.
Proof.
  intros S H. destruct (read_some (sane_wf S) (proj1 (sane_init S id H))) as [rows [v [_ [R _]]]].
  exists v. unfold stored_init. rewrite H. auto.
Qed.
  Arguments sane_stored {s id o}.

Section Main.
  Variables rng tree engine args : Type.
  Variable seeded : Z -> rng.
  Variable draw : rng -> Q * rng.
  Variable fresh_engine : engine.
  Variable analyse : kind -> args -> engine -> root -> nat -> list tree -> option tree * engine.
  Variable info_of : tree -> info args.
  Hypothesis draw_range : forall g, (0 <= fst (draw g) < 1)%Q.
  Hypothesis info_ok : forall k a e r n p t e', analyse k a e r n p = (Some t, e') -> info_of t = mkinfo k a r n.

  Notation scen := (scen rng tree engine).
  Notation sample_rect := (sample_rect seeded draw).
  Notation sample_all := (sample_all seeded draw).
  Notation run := (@run rng tree engine args analyse).
  Notation simulate := (@simulate rng tree engine args seeded draw analyse).
  Notation multi_loop := (@multi_loop rng tree engine args seeded draw analyse).
  Notation given_loop := (@given_loop rng tree engine args analyse).
  Notation simulate_multi := (@simulate_multi rng tree engine args seeded draw analyse).
  Notation verify := (@verify rng tree engine args analyse).
  Notation do_call := (@do_call rng tree engine args seeded draw fresh_engine analyse).
  Notation played := (@played rng tree engine args seeded draw fresh_engine analyse).

  (** ** Sampling *)
  Lemma uniform_spec l : forall g p g', uniform draw l g = (p, g') -> Forall2 (fun ab x => between (fst ab) (snd ab) x) l p.
  Proof.
    induction l as [|[a b] l IH]; intros g p g' H; simpl in H.
    - injection H as <- <-. constructor.
    - assert (R := draw_range g). destruct (draw g) as [u g1]. simpl in R. destruct (uniform draw l g1) as [r g2] eqn:U.
      injection H as <- <-. constructor; [|exact (IH g1 r g2 U)]. cbn [fst snd]. unfold between.
      destruct (Qlt_le_dec a b) as [L|L]; [left|right].
      + assert (0 <= (b - a) * u)%Q by (apply Qmult_le_0_compat; lra).
        assert (0 <= (b - a) * (1 - u))%Q by (apply Qmult_le_0_compat; lra). lra.
      + assert (0 <= (a - b) * u)%Q by (apply Qmult_le_0_compat; lra).
        assert (0 <= (a - b) * (1 - u))%Q by (apply Qmult_le_0_compat; lra). lra.
  Qed.
  Arguments uniform_spec {l g p g'}.

  Lemma broadcast_spec lo hi l : broadcast lo hi = Some l ->
    (length lo = length hi -> length l = length lo) /\
    forall i ab, nth_error l i = Some ab -> corner lo i = Some (fst ab) /\ corner hi i = Some (snd ab).
  Proof.
    unfold broadcast. destruct (length lo =? length hi) eqn:E.
    - apply Nat.eqb_eq in E. intros [= <-]. split.
      { intros _. rewrite combine_length. lia. }
      intros i [a b] H. cbn [fst snd].
      assert (P : nth_error lo i = Some a /\ nth_error hi i = Some b).
      { clear E. revert hi i H. induction lo as [|x lo IH]; intros [|y hi] [|i] H; simpl in *; try discriminate.
        - injection H as <- <-. auto.
        - apply IH, H. }
      destruct P as [P1 P2]. unfold corner.
      split; [destruct lo as [|x [|y lo]]; [exact P1| |exact P1]|destruct hi as [|x [|y hi]]; [exact P2| |exact P2]];
        destruct i as [|[|i]]; simpl in *; congruence.
    - apply Nat.eqb_neq in E. intros H. split; [congruence|]. intros i [a b] N. cbn [fst snd].
      assert (F : (exists c, lo = [c] /\ l = map (fun b => (c, b)) hi) \/ (exists c, hi = [c] /\ l = map (fun a => (a, c)) lo)).
      { destruct lo as [|x [|y lo]].
        - destruct hi as [|b0 [|? ?]]; try discriminate. right. exists b0. injection H as <-. auto.
        - left. exists x. injection H as <-. auto.
        - destruct hi as [|b0 [|? ?]]; try discriminate. right. exists b0. injection H as <-. auto. }
      destruct F as [[c [-> ->]]|[c [-> ->]]].
      + rewrite nth_error_map in N. destruct (nth_error hi i) as [z|] eqn:Z; [|discriminate]. simpl in N. injection N as <- <-.
        split; [reflexivity|]. unfold corner. destruct hi as [|y0 [|? ?]]; [exact Z| |exact Z]. simpl in E. congruence.
      + rewrite nth_error_map in N. destruct (nth_error lo i) as [z|] eqn:Z; [|discriminate]. simpl in N. injection N as <- <-.
        split; [|reflexivity]. unfold corner. destruct lo as [|y0 [|? ?]]; [exact Z| |exact Z]. simpl in E. congruence.
  Qed.
  Arguments broadcast_spec {lo hi l}.

  Lemma sample_in v seed g p g' : sample_rect v seed g = (Some p, g') -> in_set v p.
  Proof.
    unfold Runs.sample_rect.
    destruct (match seed with Some z => if seed_ok z then Some (seeded z) else None | None => Some g end) as [g1|]; [|discriminate].
    destruct v as [|r0 [|r1 rest]]; try discriminate. simpl.
    destruct (mapM number r0) as [lo|] eqn:L; [|discriminate]. destruct (mapM number r1) as [hi|] eqn:Hh; [|discriminate].
    destruct (broadcast lo hi) as [l|] eqn:B; [|discriminate]. destruct (uniform draw l g1) as [q g2] eqn:U.
    intros [= <- <-]. apply mapM_number in L, Hh. subst r0 r1. exists lo, hi, rest. split; [reflexivity|].
    destruct (broadcast_spec B) as [B1 B2]. assert (F := uniform_spec U). assert (Len := Forall2_len F).
    split; [intros E; rewrite <- (B1 E); symmetry; exact Len|]. intros i x Hx.
    destruct (@Forall2_nth_r _ _ _ _ _ i _ F Hx) as [ab [Ha Hb]]. destruct (B2 i ab Ha) as [C1 C2]. exists (fst ab), (snd ab). auto.
  Qed.
  Arguments sample_in {v seed g p g'}.

  (** With a seed the state of the generator does not matter. *)
  Lemma sample_seed v z g g2 p g' : sample_rect v (Some z) g = (Some p, g') -> fst (sample_rect v (Some z) g2) = Some p.
  Proof.
    unfold Runs.sample_rect. destruct (seed_ok z); [|discriminate].
    destruct (nth_error v 0) as [r0|]; [|discriminate]. destruct (nth_error v 1) as [r1|]; [|discriminate].
    destruct (mapM number r0) as [lo|]; [|discriminate]. destruct (mapM number r1) as [hi|]; [|discriminate].
    destruct (broadcast lo hi) as [l|]; [|discriminate]. destruct (uniform draw l (seeded z)) as [q gq]. intros [= <- _]. reflexivity.
  Qed.
  Arguments sample_seed {v z g} g2 {p g'}.

  Lemma sample_all_get h seed : forall d g r g', sample_all h d seed g = (Some r, g') ->
    forall id, match dget word_eqb id d with
               | Some o => exists v p g1 g2, read h o = Some v /\ sample_rect v seed g1 = (Some p, g2) /\ dget word_eqb id r = Some (Point p)
               | None => dget word_eqb id r = None end.
  Proof.
    induction d as [|[k o] d IH]; intros g r g' H id; simpl in H.
    - injection H as <- <-. reflexivity.
    - destruct (read h o) as [v|] eqn:R; [|discriminate]. destruct (sample_rect v seed g) as [[p|] g1] eqn:S; [|discriminate].
      destruct (sample_all h d seed g1) as [[r1|] g2] eqn:T; [|discriminate]. injection H as <- <-.
      simpl. destruct (word_eqb id k); [|exact (IH g1 r1 g2 T id)]. exists v, p, g, g1. auto.
  Qed.
  Arguments sample_all_get {h seed d g r g'}.

  (** ** One run *)
  Lemma run_spec k a (sc : scen) init o sc' : run k a sc init = (o, sc') ->
    st sc' = st sc /\ gen sc' = gen sc /\
    past_runs sc' = past_runs sc ++ match o with Some t => [t] | None => [] end /\
    forall t, o = Some t -> exists r, root_from_inits (st sc) init (type_of k) = Some r /\
      info_of t = mkinfo k a r (length (past_runs sc)).
  Proof.
    unfold Runs.run. destruct (root_from_inits (st sc) init (type_of k)) as [r|].
    2:{ intros [= <- <-]. rewrite app_nil_r. split; [reflexivity|]. split; [reflexivity|]. split; [reflexivity|discriminate]. }
    destruct (analyse k a (eng sc) r (length (past_runs sc)) (past_runs sc)) as [[t|] e] eqn:A; intros [= <- <-]; cbn [st gen past_runs].
    - repeat (split; [reflexivity|]). intros t' [= <-]. exists r. split; [reflexivity|]. eapply info_ok; exact A.
    - rewrite app_nil_r. repeat (split; [reflexivity|]). discriminate.
  Qed.
  Arguments run_spec {k a sc init o sc'}.

  Definition is_sim (k : kind) : Prop := k = Simulate \/ k = SimulateSimple.

  Definition drawn (z : Z) (s : state) (r : root) : Prop :=
    forall id, match stored_init s id with
               | Some v => exists p, (forall g, fst (sample_rect v (Some z) g) = Some p) /\ dget word_eqb id (r_init r) = Some (Point p)
               | None => dget word_eqb id (r_init r) = None end.

  Lemma simulate_spec k a seed (sc : scen) o sc' : is_sim k -> sane (st sc) -> simulate k a seed sc = (o, sc') ->
    sane (st sc') /\ st sc' = fst (get_init_from_agent (st sc)) /\
    past_runs sc' = past_runs sc ++ match o with Some t => [t] | None => [] end /\
    forall t, o = Some t -> check_init (st sc') = true /\
      exists r, info_of t = mkinfo k a r (length (past_runs sc)) /\ starts_in (st sc') r /\
        forall z, seed = Some z -> drawn z (st sc') r.
  Proof.
    intros K S H. unfold Runs.simulate, prepare in H. destruct (get_init_from_agent (st sc)) as [s1 ok] eqn:G.
    destruct (fill_spec S G) as [S1 _]. cbn [fst].
    destruct ok; cbn [andb] in H.
    2:{ injection H as <- <-. cbn [st past_runs]. rewrite app_nil_r. repeat (split; [assumption || reflexivity|]). discriminate. }
    destruct (check_init s1) eqn:C; cbn [andb st gen past_runs eng] in H.
    2:{ injection H as <- <-. cbn [st past_runs]. rewrite app_nil_r. repeat (split; [assumption || reflexivity|]). discriminate. }
    destruct (sample_all (hp s1) (init_dict s1) seed (gen sc)) as [[init|] g] eqn:SA.
    2:{ injection H as <- <-. cbn [st past_runs]. rewrite app_nil_r. repeat (split; [assumption || reflexivity|]). discriminate. }
    destruct (run_spec H) as [E1 [_ [E2 E3]]]. cbn [st past_runs] in *. rewrite E1.
    split; [exact S1|]. split; [reflexivity|]. split; [exact E2|]. intros t Ht. split; [exact C|].
    destruct (E3 t Ht) as [r [Rr Ri]]. exists r. split; [exact Ri|].
    destruct (settings_root C Rr) as [Se [Ri1 Ty]]. assert (P := sample_all_get SA).
    assert (Tk : type_of k = SimTrace) by (destruct K; subst k; reflexivity).
    split.
    - split; [exact Se|]. split; [congruence|]. rewrite Ri1. split.
      + intros id Kn. destruct (check_known C Kn) as [Ci _]. specialize (P id).
        destruct (dget word_eqb id (init_dict s1)) as [o1|] eqn:D; [|congruence].
        destruct P as [v [p [g1 [g2 [R1 [R2 R3]]]]]]. exists v, p. unfold stored_init. rewrite D. cbn [obind].
        split; [exact R1|]. split; [exact R3|]. exact (sample_in R2).
      + intros id Kn. specialize (P id). destruct (dget word_eqb id (init_dict s1)) as [o1|] eqn:D; [|exact P].
        exfalso. apply Kn, known_iff, (sane_init S1 id D).
    - intros z ->. intros id. rewrite Ri1. specialize (P id). unfold stored_init.
      destruct (dget word_eqb id (init_dict s1)) as [o1|] eqn:D; [|exact P]. cbn [obind].
      destruct P as [v [p [g1 [g2 [R1 [R2 R3]]]]]]. rewrite R1. exists p. split; [|exact R3].
      intros g3. exact (sample_seed g3 R2).
  Qed.
  Arguments simulate_spec {k a seed sc o sc'}.

  Lemma simulate_ready_st k a seed (sc : scen) o sc' : check_init (st sc) = true -> simulate k a seed sc = (o, sc') -> st sc' = st sc.
  Proof.
    intros C H. unfold Runs.simulate, prepare in H. rewrite (fill_ready C) in H. cbn [andb st gen past_runs eng] in H. rewrite C in H.
    destruct (sample_all (hp (st sc)) (init_dict (st sc)) seed (gen sc)) as [[init|] g].
    - destruct (run_spec H) as [E1 _]. exact E1.
    - injection H as <- <-. reflexivity.
  Qed.
  Arguments simulate_ready_st {k a seed sc o sc'}.

  Lemma multi_spec a : forall seeds (sc : scen) ts ok sc', sane (st sc) -> check_init (st sc) = true ->
    multi_loop a seeds sc = (ts, ok, sc') ->
    st sc' = st sc /\ past_runs sc' = past_runs sc ++ ts /\ (ok = true -> length ts = length seeds) /\ length ts <= length seeds /\
    forall i t, nth_error ts i = Some t -> exists r x, nth_error seeds i = Some x /\
      info_of t = mkinfo Simulate a r (length (past_runs sc) + i) /\ starts_in (st sc) r /\
      forall z, x = Some z -> drawn z (st sc) r.
  Proof.
    induction seeds as [|x seeds IH]; intros sc ts ok sc' S C H; simpl in H.
    - injection H as <- <- <-. rewrite app_nil_r. repeat (split; [auto|]). intros [|i] t E; discriminate.
    - destruct (simulate Simulate a x sc) as [[t|] sc1] eqn:Si.
      2:{ injection H as <- <- <-. assert (E := simulate_ready_st C Si).
          destruct (simulate_spec (or_introl eq_refl) S Si) as [_ [_ [P _]]].
          split; [exact E|]. split; [exact P|]. split; [discriminate|]. split; [simpl; lia|]. intros [|i] t E'; discriminate. }
      assert (E := simulate_ready_st C Si).
      destruct (simulate_spec (or_introl eq_refl) S Si) as [S1 [_ [P1 P2]]].
      destruct (multi_loop a seeds sc1) as [[ts1 ok1] sc2] eqn:M. injection H as <- <- <-.
      destruct (IH sc1 ts1 ok1 sc2 S1) as [Q1 [Q2 [Q3 [Q5 Q4]]]]; [rewrite E; exact C|exact M|].
      split; [congruence|]. split; [rewrite Q2, P1, <- app_assoc; reflexivity|]. split; [intros O; simpl; rewrite (Q3 O); reflexivity|].
      split; [simpl; lia|].
      intros [|i] t' N.
      + simpl in N. injection N as <-. destruct (P2 t eq_refl) as [_ [r [R1 [R2 R3]]]]. rewrite E in R2, R3.
        exists r, x. split; [reflexivity|]. rewrite Nat.add_0_r. auto.
      + simpl in N. destruct (Q4 i t' N) as [r [x' [R0 [R1 [R2 R3]]]]]. rewrite E in R2, R3. exists r, x'.
        split; [exact R0|]. split; [|auto]. rewrite R1, P1, app_length. simpl. f_equal. lia.
  Qed.
  Arguments multi_spec {a seeds sc ts ok sc'}.

  Lemma given_spec a : forall l (sc : scen) ts ok sc', check_init (st sc) = true ->
    given_loop a l sc = (ts, ok, sc') ->
    st sc' = st sc /\ past_runs sc' = past_runs sc ++ ts /\ (ok = true -> length ts = length l) /\
    forall i t, nth_error ts i = Some t -> exists r d, nth_error l i = Some d /\
      info_of t = mkinfo Simulate a r (length (past_runs sc) + i) /\ settings (st sc) r /\ r_type r = SimTrace /\
      r_init r = map (fun e => (fst e, Point (snd e))) d.
  Proof.
    induction l as [|d l IH]; intros sc ts ok sc' C H; simpl in H.
    - injection H as <- <- <-. rewrite app_nil_r. repeat (split; [auto|]). intros [|i] t E; discriminate.
    - destruct (run Simulate a sc (map (fun e => (fst e, Point (snd e))) d)) as [[t|] sc1] eqn:Si.
      2:{ injection H as <- <- <-. destruct (run_spec Si) as [E [_ [P _]]].
          split; [exact E|]. split; [exact P|]. split; [discriminate|]. intros [|i] t E'; discriminate. }
      destruct (run_spec Si) as [E [_ [P1 P2]]].
      destruct (given_loop a l sc1) as [[ts1 ok1] sc2] eqn:M. injection H as <- <- <-.
      destruct (IH sc1 ts1 ok1 sc2) as [Q1 [Q2 [Q3 Q4]]]; [rewrite E; exact C|exact M|].
      split; [congruence|]. split; [rewrite Q2, P1, <- app_assoc; reflexivity|]. split; [intros O; simpl; rewrite (Q3 O); reflexivity|].
      intros [|i] t' N.
      + simpl in N. injection N as <-. destruct (P2 t eq_refl) as [r [R1 R2]]. destruct (settings_root C R1) as [S1 [S2 S3]].
        exists r, d. split; [reflexivity|]. rewrite Nat.add_0_r. auto.
      + simpl in N. destruct (Q4 i t' N) as [r [x' [R0 [R1 [R2 R3]]]]]. rewrite E in R2. exists r, x'.
        split; [exact R0|]. split; [|auto]. rewrite R1, P1, app_length. simpl. f_equal. lia.
  Qed.
  Arguments given_spec {a l sc ts ok sc'}.

  Lemma verify_spec k a (sc : scen) o sc' : type_of k = ReachTube -> sane (st sc) -> verify k a sc = (o, sc') ->
    st sc' = st sc /\ past_runs sc' = past_runs sc ++ match o with Some t => [t] | None => [] end /\
    forall t, o = Some t -> exists r, info_of t = mkinfo k a r (length (past_runs sc)) /\ starts_from (st sc) r.
  Proof.
    intros K S H. unfold Runs.verify in H. destruct (check_init (st sc)) eqn:C.
    2:{ injection H as <- <-. rewrite app_nil_r. split; [reflexivity|]. split; [reflexivity|discriminate]. }
    destruct (boxes_all (hp (st sc)) (init_dict (st sc))) as [init|] eqn:B.
    2:{ injection H as <- <-. rewrite app_nil_r. split; [reflexivity|]. split; [reflexivity|discriminate]. }
    destruct (run_spec H) as [E1 [_ [E2 E3]]]. split; [exact E1|]. split; [exact E2|]. intros t Ht.
    destruct (E3 t Ht) as [r [Rr Ri]]. exists r. split; [exact Ri|]. destruct (settings_root C Rr) as [Se [Ri1 Ty]].
    assert (B' : mapM (fun e => do x <- (fun o => do v <- read (hp (st sc)) o; Some (Boxes [v])) (snd e); Some (fst e, x)) (init_dict (st sc)) = Some init).
    { rewrite <- B. unfold boxes_all. clear. induction (init_dict (st sc)) as [|[id o] d IH]; simpl; [reflexivity|]. rewrite IH.
      destruct (read (hp (st sc)) o); reflexivity. }
    assert (P := mapM_dget B').
    split; [exact Se|]. split; [congruence|]. rewrite Ri1. split.
    - intros id Kn. destruct (check_known C Kn) as [Ci _]. specialize (P id).
      destruct (dget word_eqb id (init_dict (st sc))) as [o1|] eqn:D; [|congruence]. destruct P as [x [P1 P2]].
      unfold stored_init. rewrite D. cbn [obind]. destruct (read (hp (st sc)) o1) as [v|]; [|discriminate].
      cbn [obind] in P1. injection P1 as <-. exists v. auto.
    - intros id Kn. specialize (P id). destruct (dget word_eqb id (init_dict (st sc))) as [o1|] eqn:D; [|exact P].
      exfalso. apply Kn, known_iff, (sane_init S id D).
  Qed.
  Arguments verify_spec {k a sc o sc'}.

  Lemma prepare_spec (sc sc1 : scen) ok : sane (st sc) -> prepare sc = (sc1, ok) ->
    sane (st sc1) /\ kept (st sc) (st sc1) /\ past_runs sc1 = past_runs sc /\ st sc1 = fst (get_init_from_agent (st sc)) /\
    (ok = true -> check_init (st sc1) = true).
  Proof.
    intros S H. unfold prepare in H. destruct (get_init_from_agent (st sc)) as [s1 o] eqn:G. injection H as <- <-.
    destruct (fill_spec S G) as [S1 [K1 _]]. cbn [st past_runs fst]. repeat (split; [auto|]).
    intros E. apply andb_true_iff in E. tauto.
  Qed.
  Arguments prepare_spec {sc sc1 ok}.

  Lemma multi_call_spec a given seed n (sc : scen) ts ok sc' : sane (st sc) -> simulate_multi a given seed n sc = (ts, ok, sc') ->
    sane (st sc') /\ st sc' = fst (get_init_from_agent (st sc)) /\ past_runs sc' = past_runs sc ++ ts /\
    match given with
    | None => (ok = true -> length ts = n) /\ length ts <= n /\ forall i t, nth_error ts i = Some t -> exists r,
        info_of t = mkinfo Simulate a r (length (past_runs sc) + i) /\ starts_in (st sc') r /\
        forall z, seed = Some z -> drawn (z + Z.of_nat i) (st sc') r
    | Some l => (ok = true -> length ts = length l) /\ forall i t, nth_error ts i = Some t -> exists r d, nth_error l i = Some d /\
        info_of t = mkinfo Simulate a r (length (past_runs sc) + i) /\ settings (st sc') r /\ r_type r = SimTrace /\
        r_init r = map (fun e => (fst e, Point (snd e))) d
    end.
  Proof.
    intros S H. unfold Runs.simulate_multi in H. destruct (prepare sc) as [sc1 o] eqn:P.
    destruct (prepare_spec S P) as [S1 [_ [P1 [P2 P3]]]]. destruct o.
    2:{ injection H as <- <- <-. rewrite app_nil_r. repeat (split; [assumption|]).
        destruct given as [l|]; (split; [discriminate|]); [|split; [simpl; lia|]]; intros [|i] t E; discriminate. }
    specialize (P3 eq_refl). destruct given as [l|].
    - destruct (given_spec P3 H) as [Q1 [Q2 [Q3 Q4]]]. rewrite Q1, Q2, P1. rewrite P1 in Q4.
      split; [exact S1|]. split; [exact P2|]. split; [reflexivity|]. split; assumption.
    - destruct (multi_spec S1 P3 H) as [Q1 [Q2 [Q3 [Q5 Q4]]]]. rewrite Q1, Q2, P1. rewrite P1 in Q4.
      rewrite map_length, seq_length in Q3, Q5. split; [exact S1|]. split; [exact P2|]. split; [reflexivity|]. split; [exact Q3|].
      split; [exact Q5|].
      intros i t N. destruct (Q4 i t N) as [r [x [X0 [X1 [X2 X3]]]]]. exists r. split; [exact X1|]. split; [exact X2|].
      intros z ->. apply X3. assert (L : i < n). { assert (length ts <= n) by exact Q5. assert (i < length ts) by (apply nth_error_Some; congruence). lia. }
      rewrite nth_error_map in X0. destruct (nth_error (seq 0 n) i) as [j|] eqn:J; [|discriminate]. simpl in X0. injection X0 as <-.
      assert (J' : nth i (seq 0 n) 0 = j) by (apply nth_error_nth; exact J). rewrite seq_nth in J' by exact L. simpl in J'. subst j. reflexivity.
  Qed.
  Arguments multi_call_spec {a given seed n sc ts ok sc'}.

  (** ** Histories *)
  Lemma single_app (o : option tree) (sc1 : scen) ts ok sc' : single (o, sc1) = (ts, ok, sc') ->
    sc1 = sc' /\ ts = match o with Some t => [t] | None => [] end /\ (forall t, ts = [t] -> o = Some t).
  Proof. destruct o; intros [= <- <- <-]; split; auto; split; auto; [intros t' [= <-]; reflexivity|discriminate]. Qed.
  Arguments single_app {o sc1 ts ok sc'}.

  Lemma call_spec (sc : scen) c ts ok sc' : sane (st sc) -> legal sc c -> do_call sc c = (ts, ok, sc') ->
    sane (st sc') /\ past_runs sc' = match c with CClean _ => [] | _ => past_runs sc ++ ts end /\ (c = CClean args -> ts = []) /\
    forall i t, nth_error ts i = Some t -> i_num (info_of t) = length (past_runs sc) + i.
  Proof.
    intros S L H. destruct c; simpl in H, L.
    - injection H as <- <- <-. cbn [on_state st past_runs]. rewrite app_nil_r.
      split; [apply sane_map, S|]. split; [reflexivity|]. split; [discriminate|]. intros [|i] t E; discriminate.
    - destruct (add_agent (st sc) ag) as [s|] eqn:A; injection H as <- <- <-; cbn [on_state st past_runs]; rewrite app_nil_r.
      + split; [exact (sane_add S L A)|]. split; [reflexivity|]. split; [discriminate|]. intros [|i] t E; discriminate.
      + split; [exact S|]. split; [reflexivity|]. split; [discriminate|]. intros [|i] t E; discriminate.
    - destruct (set_init_single (st sc) id o mode static uncertain) as [s b] eqn:A. injection H as <- <- <-.
      cbn [on_state st past_runs]. rewrite app_nil_r. destruct L as [L1 [L2 L3]].
      split; [exact (sane_set S L1 L2 L3 A)|]. split; [reflexivity|]. split; [discriminate|]. intros [|i] t E; discriminate.
    - destruct (agent_set_initial (st sc) id o mode static uncertain) as [s|] eqn:A; injection H as <- <- <-;
        cbn [on_state st past_runs]; rewrite app_nil_r.
      + split; [exact (sane_agent S A)|]. split; [reflexivity|]. split; [discriminate|]. intros [|i] t E; discriminate.
      + split; [exact S|]. split; [reflexivity|]. split; [discriminate|]. intros [|i] t E; discriminate.
    - injection H as <- <- <-. cbn [on_state st past_runs]. rewrite app_nil_r.
      split; [apply (sane_heap S); [apply (@wf_new_inner (hp (st sc)) l (sane_wf S))|apply (@ext_new_inner (hp (st sc)) l)]|].
      split; [reflexivity|]. split; [discriminate|]. intros [|i] t E; discriminate.
    - injection H as <- <- <-. cbn [on_state st past_runs]. rewrite app_nil_r.
      split; [apply (sane_heap S); [apply (@wf_new_outer (hp (st sc)) rows (sane_wf S) L)|apply (@ext_new_outer (hp (st sc)) rows)]|].
      split; [reflexivity|]. split; [discriminate|]. intros [|i] t E; discriminate.
    - destruct (simulate Simulate a seed sc) as [o sc1] eqn:Si. destruct (single_app H) as [<- [-> _]].
      destruct (simulate_spec (or_introl eq_refl) S Si) as [S1 [_ [P1 P2]]].
      split; [exact S1|]. split; [exact P1|]. split; [discriminate|]. intros [|i] t E; destruct o as [t0|]; try discriminate; [|destruct i; discriminate].
      injection E as <-. destruct (P2 t0 eq_refl) as [_ [r [R1 _]]]. rewrite R1. simpl. lia.
    - destruct (simulate SimulateSimple a seed sc) as [o sc1] eqn:Si. destruct (single_app H) as [<- [-> _]].
      destruct (simulate_spec (or_intror eq_refl) S Si) as [S1 [_ [P1 P2]]].
      split; [exact S1|]. split; [exact P1|]. split; [discriminate|]. intros [|i] t E; destruct o as [t0|]; try discriminate; [|destruct i; discriminate].
      injection E as <-. destruct (P2 t0 eq_refl) as [_ [r [R1 _]]]. rewrite R1. simpl. lia.
    - destruct (multi_call_spec S H) as [S1 [_ [P1 P2]]]. split; [exact S1|]. split; [exact P1|]. split; [discriminate|].
      intros i t E. destruct given as [l|].
      + destruct P2 as [_ P2]. destruct (P2 i t E) as [r [d [_ [R1 _]]]]. rewrite R1. reflexivity.
      + destruct P2 as [_ [_ P2]]. destruct (P2 i t E) as [r [R1 _]]. rewrite R1. reflexivity.
    - destruct (verify Verify a sc) as [o sc1] eqn:Si. destruct (single_app H) as [<- [-> _]].
      destruct (verify_spec (k:=Verify) eq_refl S Si) as [E1 [P1 P2]]. rewrite E1.
      split; [exact S|]. split; [exact P1|]. split; [discriminate|]. intros [|i] t E; destruct o as [t0|]; try discriminate; [|destruct i; discriminate].
      injection E as <-. destruct (P2 t0 eq_refl) as [r [R1 _]]. rewrite R1. simpl. lia.
    - destruct (verify VerifyPartitioned a sc) as [o sc1] eqn:Si. destruct (single_app H) as [<- [-> _]].
      destruct (verify_spec (k:=VerifyPartitioned) eq_refl S Si) as [E1 [P1 P2]]. rewrite E1.
      split; [exact S|]. split; [exact P1|]. split; [discriminate|]. intros [|i] t E; destruct o as [t0|]; try discriminate; [|destruct i; discriminate].
      injection E as <-. destruct (P2 t0 eq_refl) as [r [R1 _]]. rewrite R1. simpl. lia.
    - injection H as <- <- <-. cbn [cleanup_cache st past_runs]. split; [exact S|]. split; [reflexivity|]. split; [reflexivity|].
      intros [|i] t E; discriminate.
  Qed.
  Arguments call_spec {sc c ts ok sc'}.

  Lemma finished_snoc (log : list (call args * list tree * bool)) : forall (p : list tree) c ts ok, (c = CClean args -> ts = []) ->
    finished p (log ++ [(c, ts, ok)]) = match c with CClean _ => [] | _ => finished p log ++ ts end.
  Proof.
    induction log as [|[[c0 ts0] ok0] log IH]; intros p c ts ok N; simpl.
    - destruct c; reflexivity.
    - destruct c0; rewrite (IH _ c ts ok N); destruct c; reflexivity.
  Qed.

  Lemma played_spec log sc : played log sc -> sane (st sc) /\ past_runs sc = finished [] log /\
    forall i t, nth_error (past_runs sc) i = Some t -> i_num (info_of t) = i.
  Proof.
    induction 1 as [h g W|log sc c ts ok sc' P [S [F N]] L D].
    - split; [apply sane_new, W|]. split; [reflexivity|]. intros [|i] t E; discriminate.
    - destruct (call_spec S L D) as [S1 [P1 [P2 P3]]]. split; [exact S1|]. rewrite (finished_snoc _ _ _ P2), P1, F. split; [reflexivity|].
      rewrite <- F. assert (Q : forall i t, nth_error (past_runs sc ++ ts) i = Some t -> i_num (info_of t) = i).
      { intros i t E. destruct (Nat.lt_ge_cases i (length (past_runs sc))) as [Lt|Ge].
        - rewrite nth_error_app1 in E by exact Lt. exact (N i t E).
        - rewrite nth_error_app2 in E by exact Ge. rewrite (P3 _ _ E). lia. }
      destruct c; try exact Q. intros [|i] t E; discriminate.
  Qed.

  Lemma drawn_same z s1 s2 r1 r2 : (forall id, stored_init s1 id = stored_init s2 id) -> drawn z s1 r1 -> drawn z s2 r2 ->
    forall id, dget word_eqb id (r_init r1) = dget word_eqb id (r_init r2).
  Proof.
    intros E D1 D2 id. specialize (D1 id). specialize (D2 id). rewrite (E id) in D1. destruct (stored_init s2 id) as [v|]; [|congruence].
    destruct D1 as [p [P1 Q1]], D2 as [q [P2 Q2]]. specialize (P1 (seeded 0)). specialize (P2 (seeded 0)). congruence.
  Qed.
End Main.
Arguments simulate_spec {rng tree engine args seeded draw analyse} info_of draw_range info_ok {k a seed sc o sc'}.
Arguments multi_call_spec {rng tree engine args seeded draw analyse} info_of draw_range info_ok {a given seed n sc ts ok sc'}.
Arguments verify_spec {rng tree engine args analyse} info_of info_ok {k a sc o sc'}.
Arguments single_app {rng tree engine o sc1 ts ok sc'}.
