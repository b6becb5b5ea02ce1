(** Property C120: experiments from the command line. *)
From Coq Require Import Ascii String Permutation Lqa.
From Verif Require Import Base BaseFacts Dict PyText Guard Tree TreeSpec TreeProofs TreeProps Bench BenchSpec.
Set Implicit Arguments.
Open Scope nat_scope.

Lemma has_In x arg : has x arg = true <-> In x arg.
Proof. unfold has. rewrite existsb_exists. split; [intros (y & I & E); apply Ascii.eqb_eq in E; subst; exact I|intros I; exists x; split; [exact I|apply Ascii.eqb_refl]]. Qed.
Lemma erase_all os arg : fold_left (fun arg o => erase o arg) os arg = filter (fun c => negb (existsb (Ascii.eqb c) os)) arg.
Proof.
  revert arg. induction os as [|o os IH]; intros arg; cbn [fold_left existsb]; [induction arg as [|c arg IHa]; cbn in *; congruence|]. rewrite IH. unfold erase. induction arg as [|c arg IHa]; [reflexivity|].
  cbn [filter]. destruct (Ascii.eqb c o) eqn:E; cbn [negb orb]; [exact IHa|]. cbn [filter]. destruct (existsb (Ascii.eqb c) os); cbn [negb]; [exact IHa|]. f_equal. exact IHa.
Qed.
Lemma without_filter os arg : without os arg (filter (fun c => negb (existsb (Ascii.eqb c) os)) arg).
Proof.
  induction arg as [|c arg IH]; [constructor|]. cbn [filter]. destruct (existsb (Ascii.eqb c) os) eqn:E; cbn [negb].
  - apply without_gone; [|exact IH]. apply existsb_exists in E. destruct E as (y & I & E). apply Ascii.eqb_eq in E. subst. exact I.
  - apply without_kept; [|exact IH]. intros I. apply Bool.not_true_iff_false in E. apply E. apply existsb_exists. exists c. split; [exact I|apply Ascii.eqb_refl].
Qed.

(** ** C120: the switches of the second word are read letter by letter; what is left of it and the other words are kept. *)
Theorem C120_switches : forall Kw argv (k : Kw) arg, switches argv arg ->
  let e := from_arg argv k in
  (incremental (config e) = true <-> In "i"%char arg) /\ (parallel (config e) = true <-> In "l"%char arg) /\
  (try_local (config e) = true <-> In "t"%char arg) /\ others (config e) = k /\
  (compare e = true <-> In "c"%char arg) /\ (plot e = true <-> In "p"%char arg) /\ (dump e = true <-> In "d"%char arg) /\
  (sim e = true <-> ~ In "v"%char arg) /\ without (w "cilpdv") arg (args e) /\
  match argv with x :: y :: r => rest e = r | _ => rest e = [] end.
Proof.
  intros Kw argv k arg Sw e. assert (E : (if length argv <? 2 then [] else nth 1 argv []) = arg) by (destruct argv as [|x [|y r]]; cbn in *; auto).
  unfold e, from_arg. rewrite E. cbn [config incremental parallel try_local others compare plot dump sim args rest]. rewrite Bool.negb_true_iff, <- Bool.not_true_iff_false, !has_In.
  do 8 (split; [tauto|]). split; [rewrite erase_all; apply without_filter|]. destruct argv as [|x [|y r]]; reflexivity.
Qed.
Print Assumptions C120_switches.

(** ** C120: the order of the switches and their repetition do not matter. *)
Theorem C120_order : forall Kw x arg arg' r (k : Kw), (forall c, In c arg <-> In c arg') ->
  let e := from_arg (x :: arg :: r) k in let e' := from_arg (x :: arg' :: r) k in
  config e = config e' /\ compare e = compare e' /\ plot e = plot e' /\ dump e = dump e' /\ sim e = sim e' /\ rest e = rest e'.
Proof.
  intros Kw x arg arg' r k H. assert (E : forall c, has c arg = has c arg') by (intros c; apply Bool.eq_iff_eq_true; rewrite !has_In; apply H).
  unfold from_arg. cbn -[has]. rewrite !E. repeat split.
Qed.
Print Assumptions C120_order.

(** ** The letter for try_local is read and also left for the script, unlike the others. *)
Theorem C120_letters_refuted : exists argv, let e := from_arg argv tt in try_local (config e) = true /\ In "t"%char (args e).
Proof. exists [w "demo.py"; w "vt"]. vm_compute. auto. Qed.
Print Assumptions C120_letters_refuted.

Lemma int_div_ok x y n : int_div x y = Some n -> ~ (y == 0)%Q /\ truncated x y n.
Proof.
  unfold int_div, truncated. destruct (Qeq_bool y 0) eqn:Z; [discriminate|]. cbn zeta. generalize (x / y)%Q. intros [p q] E. cbn [Qnum Qden] in E. injection E as <-. split; [intros H; apply Qeq_bool_iff in H; congruence|].
  pose proof (Z.quot_rem' p (Zpos q)) as D. split; intros H; unfold Qle, Qlt, inject_Z, Qplus, Qminus, Qopp in *; cbn [Qnum Qden] in *; change (1 * 1)%positive with 1%positive in *; rewrite ?Z.mul_1_r in *.
  - pose proof (Z.rem_bound_pos p (Zpos q) ltac:(nia) ltac:(lia)). split; nia.
  - assert (B : (- Zpos q < Z.rem p (Zpos q) <= 0)%Z). { pose proof (Z.rem_bound_pos (- p) (Zpos q) ltac:(nia) ltac:(lia)) as B. rewrite Z.rem_opp_l in B by lia. lia. } cbn [Qplus Qnum Qden]. rewrite ?Z.mul_1_r. split; nia.
Qed.

Section Props.
  Variables Kw Sc T : Type.
  Variable simulate : Sc -> list Q -> option (Sc * tree T).
  Variable verify : Sc -> list Q -> Kw -> option (Sc * tree T).
  Variables sim_hits tube_hits trans_hits : Sc -> nat * nat.
  Variable agents : Sc -> nat.
  Variable update_config : Sc -> sconfig Kw -> Sc.
  Variable contains : tree T -> tree T -> option bool.
  Notation bench := (bench Kw Sc).
  Notation run := (run simulate verify sim_hits tube_hits trans_hits agents).
  Notation compare_run := (compare_run simulate verify sim_hits tube_hits trans_hits agents contains).

  (** ** C120: a run analyses the scenario once, by simulation exactly when there is no switch v, and records the number of
      time steps, of nodes and of leaves of the result, and the counters of the caches that were used. *)
  Theorem C120_run : forall (b b' : bench) a k t, run b a k = Some (b', t) ->
    exists x y r s, a = x :: y :: r /\ ~ (y == 0)%Q /\
      (sim (b_config b) = true -> simulate (b_scenario b) a = Some (s, t)) /\
      (sim (b_config b) = false -> verify (b_scenario b) a k = Some (s, t)) /\
      b_config b' = b_config b /\ b_scenario b' = s /\ exists st, b_stats b' = Some st /\
        truncated x y (b_timesteps st) /\ b_agents st = agents s /\
        (exists ps, NoDup ps /\ (forall p, In p ps <-> at_path t p <> None) /\ b_nodes st = length ps) /\
        (exists ps, NoDup ps /\ (forall p, In p ps <-> exists n, at_path t p = Some n /\ child n = []) /\ b_leaves st = length ps) /\
        (sim (b_config b) = true -> b_hits st = sim_hits s) /\
        (sim (b_config b) = false -> fst (b_hits st) = fst (tube_hits s) + fst (trans_hits s) /\ snd (b_hits st) = snd (tube_hits s) + snd (trans_hits s)).
  Proof.
    intros b b' a k t E. unfold Bench.run in E. destruct a as [|x [|y r]]; try discriminate. cbn [nth_error obind] in E. destruct (int_div x y) as [n|] eqn:I; [|discriminate]. cbn [obind] in E. apply int_div_ok in I. destruct I as [Y I].
    destruct (if sim (b_config b) then _ else _) as [[s t']|] eqn:R in E; [|discriminate]. cbn [obind fst snd] in E. destruct (nodes t') as [ns|] eqn:N; [|discriminate]. cbn [obind] in E. injection E as <- <-.
    exists x, y, r, s. split; [reflexivity|]. split; [exact Y|]. split; [intros Es; rewrite Es in R; exact R|]. split; [intros Es; rewrite Es in R; exact R|]. cbn [b_config b_scenario b_stats]. split; [reflexivity|]. split; [reflexivity|].
    eexists. split; [reflexivity|]. cbn [b_timesteps b_agents b_nodes b_leaves b_hits]. split; [exact I|]. split; [reflexivity|]. split.
    { destruct (nodes_spec t') as (out & N' & P & _). rewrite N' in N. injection N as <-. exists (map fst out). 
      assert (Pm : Permutation (map fst out) (map fst (pre [] t'))) by (apply Permutation_map; exact P).
      split; [apply (Permutation_NoDup (Permutation_sym Pm)); apply pre_NoDup|]. split; [|rewrite !map_length; reflexivity].
      intros p. transitivity (In p (map fst (pre [] t'))); [split; apply Permutation_in; [exact Pm|apply Permutation_sym; exact Pm]|]. rewrite in_map_iff. split.
      - intros ([q m] & <- & H). apply pre_In in H. destruct H as (s0 & Es & H). cbn in *. subst. congruence.
      - intros H. destruct (at_path t' p) as [m|] eqn:Em; [|destruct (H eq_refl)]. exists (p, m). split; [reflexivity|]. apply pre_In. exists p. auto. }
    split; [destruct (@C35_leaves T t' ns N) as ((ps & Nd & H & L & _) & _); exists ps; auto|]. split; intros Es; rewrite Es; auto.
  Qed.

  (** ** Keywords of a run, such as a seed, do not reach a simulation. *)
  Theorem C120_keywords_refuted : forall (b : bench) a k k', sim (b_config b) = true -> run b a k = run b a k'.
  Proof. intros b a k k' E. unfold Bench.run. rewrite E. reflexivity. Qed.

  (** ** C120: a report after a run succeeds unless the run is incremental and looked nothing up; then the rate is the
      percentage of lookups that hit. *)
  Theorem C120_report : forall (b : bench) st, b_stats b = Some st ->
    (incremental (config (b_config b)) = false -> exists p, report b = Some p /\ r_hits p = None /\ r_nodes p = b_nodes st /\ r_leaves p = b_leaves st /\ r_timesteps p = b_timesteps st /\ r_agents p = b_agents st) /\
    (incremental (config (b_config b)) = true -> fst (b_hits st) + snd (b_hits st) <> 0 -> exists p rate, report b = Some p /\ r_hits p = Some (b_hits st, rate) /\
       (0 <= rate <= 100)%Q /\ (rate * inject_Z (Z.of_nat (fst (b_hits st) + snd (b_hits st))) == 100 * inject_Z (Z.of_nat (fst (b_hits st))))%Q) /\
    (incremental (config (b_config b)) = true -> fst (b_hits st) + snd (b_hits st) = 0 -> report b = None).
  Proof.
    intros b st E. unfold report. rewrite E. cbn [obind]. split; [|split]; intros I; rewrite I; cbn [obind].
    - eexists. split; [reflexivity|]. cbn. auto.
    - destruct (b_hits st) as [x y]. cbn [fst snd]. intros N. apply Nat.eqb_neq in N as N'. rewrite N'. cbn [obind]. eexists. eexists. split; [reflexivity|]. cbn [r_hits]. split; [reflexivity|].
      assert (P : (0 < inject_Z (Z.of_nat (x + y)))%Q) by (change 0%Q with (inject_Z 0); rewrite <- Zlt_Qlt; lia).
      assert (X : (0 <= inject_Z (Z.of_nat x))%Q) by (change 0%Q with (inject_Z 0); rewrite <- Zle_Qle; lia).
      assert (L : (inject_Z (Z.of_nat x) <= inject_Z (Z.of_nat (x + y)))%Q) by (rewrite <- Zle_Qle; lia).
      set (u := inject_Z (Z.of_nat x)) in *. set (v := inject_Z (Z.of_nat (x + y))) in *.
      assert (0 <= u / v)%Q by (apply Qle_shift_div_l; [exact P|lra]). assert (u / v <= 1)%Q by (apply Qle_shift_div_r; [exact P|lra]).
      split; [split; lra|]. field. lra.
    - destruct (b_hits st) as [x y]. cbn [fst snd]. intros ->. reflexivity.
  Qed.

  (** ** C120: a comparison without further words is two runs, the second of the scenario that the first left, each with its
      report, and the two results of containment. *)
  Theorem C120_compare : forall (b b' : bench) a k t1 t2 p1 p2 c12 c21,
    compare_run b a k = Some (b', (t1, t2), (p1, p2), (c12, c21)) ->
    compare (b_config b) = true /\ rest (b_config b) = [] /\
    exists b1, run b a k = Some (b1, t1) /\ report b1 = Some p1 /\ run b1 a k = Some (b', t2) /\ report b' = Some p2 /\
      contains t1 t2 = Some c12 /\ contains t2 t1 = Some c21.
  Proof.
    intros b b' a k t1 t2 p1 p2 c12 c21 E. unfold Bench.compare_run in E. destruct (compare (b_config b)); [|discriminate].
    destruct (run b a k) as [[b1 u1]|] eqn:R1; [|discriminate]. cbn [obind fst snd] in E. destruct (report b1) as [q1|] eqn:P1; [|discriminate]. cbn [obind] in E. destruct (rest (b_config b1)) eqn:Er; [|discriminate].
    destruct (run b1 a k) as [[b2 u2]|] eqn:R2; [|discriminate]. cbn [obind fst snd] in E. destruct (report b2) as [q2|] eqn:P2; [|discriminate]. cbn [obind] in E.
    destruct (contains u1 u2) as [d1|] eqn:D1; [|discriminate]. cbn [obind] in E. destruct (contains u2 u1) as [d2|] eqn:D2; [|discriminate]. cbn [obind] in E. injection E as <- <- <- <- <- <- <-.
    destruct (@C120_run _ _ _ _ _ R1) as (x' & y' & r' & s' & _ & _ & _ & _ & Ec & _). rewrite Ec in Er. split; [reflexivity|]. split; [exact Er|]. exists b1. auto 7.
  Qed.
  Theorem C120_compare_runs : forall (b b1 b2 : bench) a k t1 t2 p1 p2 c12 c21, compare (b_config b) = true -> rest (b_config b) = [] ->
    run b a k = Some (b1, t1) -> report b1 = Some p1 -> run b1 a k = Some (b2, t2) -> report b2 = Some p2 ->
    contains t1 t2 = Some c12 -> contains t2 t1 = Some c21 -> compare_run b a k = Some (b2, (t1, t2), (p1, p2), (c12, c21)).
  Proof.
    intros b b1 b2 a k t1 t2 p1 p2 c12 c21 C Er R1 P1 R2 P2 D1 D2. unfold Bench.compare_run. destruct (@C120_run _ _ _ _ _ R1) as (x' & y' & r' & s' & _ & _ & _ & _ & Ec & _).
    rewrite C, R1. cbn [obind fst snd]. rewrite P1. cbn [obind]. rewrite Ec, Er, R2. cbn [obind fst snd]. rewrite P2. cbn [obind]. rewrite D1. cbn [obind]. rewrite D2. reflexivity.
  Qed.

  (** ** A comparison of two configurations, with words after the switches, never succeeds. *)
  Theorem C120_compare_refuted : forall (b : bench) a k, rest (b_config b) <> [] -> compare_run b a k = None.
  Proof.
    intros b a k N. unfold Bench.compare_run. destruct (compare (b_config b)); [|reflexivity]. destruct (run b a k) as [[b1 u1]|] eqn:R1; [|reflexivity]. cbn [obind fst snd]. destruct (report b1); [|reflexivity]. cbn [obind].
    destruct (@C120_run _ _ _ _ _ R1) as (x' & y' & r' & s' & _ & _ & _ & _ & Ec & _). rewrite Ec. destruct (rest (b_config b)); [destruct (N eq_refl)|reflexivity].
  Qed.

  (** ** C120: replacing the scenario configures the new one by the third word, and keeps the other switches. *)
  Theorem C120_replace : forall (b : bench) s arg r, rest (b_config b) = arg :: r -> exists b', replace_scenario update_config b s = Some b' /\
    b_scenario b' = update_config s (config (b_config b')) /\
    (incremental (config (b_config b')) = true <-> In "i"%char arg) /\ (parallel (config (b_config b')) = true <-> In "l"%char arg) /\
    others (config (b_config b')) = kw (b_config b) /\ sim (b_config b') = sim (b_config b) /\ compare (b_config b') = compare (b_config b) /\
    plot (b_config b') = plot (b_config b) /\ dump (b_config b') = dump (b_config b) /\ rest (b_config b') = rest (b_config b) /\ args (b_config b') = args (b_config b).
  Proof.
    intros b s arg r E. unfold replace_scenario. rewrite E. cbn [nth_error obind]. eexists. split; [reflexivity|]. cbn [b_scenario b_config config incremental parallel others sim compare plot dump rest args].
    rewrite !has_In. auto 12 using iff_refl.
  Qed.

  (** ** After a replacement results are never tried locally, whatever the words say. *)
  Theorem C120_replace_refuted : forall (b b' : bench) s, replace_scenario update_config b s = Some b' -> try_local (config (b_config b')) = false.
  Proof. intros b b' s. unfold replace_scenario. destruct (nth_error _ _); [|discriminate]. cbn [obind]. intros E. injection E as <-. reflexivity. Qed.
End Props.
Print Assumptions C120_run.
Print Assumptions C120_keywords_refuted.
Print Assumptions C120_report.
Print Assumptions C120_compare.
Print Assumptions C120_compare_runs.
Print Assumptions C120_compare_refuted.
Print Assumptions C120_replace.
Print Assumptions C120_replace_refuted.

(** Cases that meet the hypotheses: a scenario that counts its runs as lookups. *)
Module Example_bench.
  Definition scen := (nat * nat)%type.
  Definition res : tree nat := Node 0 [Node 1 []; Node 2 []].
  Definition simulate (s : scen) (a : list Q) : option (scen * tree nat) := Some ((fst s + 1, snd s + 1), res).
  Definition verify (s : scen) (a : list Q) (k : nat) : option (scen * tree nat) := Some ((fst s, snd s + k), res).
  Definition new (argv : list word) : bench nat scen := init (fun _ => (0, 0)) argv 7.
  Definition cmp (b : bench nat scen) := compare_run simulate verify (fun s => s) (fun s => s) (fun s => s) (fun _ => 2) (fun _ _ => Some true) b [40%Q; 1 # 20] 3.
  Example words : switches [w "demo.py"; w "vic2"] (w "vic2") /\ args (b_config (new [w "demo.py"; w "vic2"])) = w "2".
  Proof. split; reflexivity. Qed.
  Example compared : exists b t p q, cmp (new [w "demo.py"; w "ic"]) = Some (b, t, (p, q), (true, true)) /\ r_timesteps p = 800%Z /\ r_nodes p = 3 /\ r_leaves p = 2 /\
    (exists x, r_hits p = Some (1, 1, x) /\ (x == 50)%Q) /\ exists y, r_hits q = Some (2, 2, y).
  Proof. do 4 eexists. split; [vm_compute; reflexivity|]. cbn. repeat split; eexists; repeat split. Qed.
  Example more_words : rest (b_config (new [w "demo.py"; w "ic"; w "i"])) = [w "i"] /\ cmp (new [w "demo.py"; w "ic"; w "i"]) = None.
  Proof. split; vm_compute; reflexivity. Qed.
  Example replaced : exists b, replace_scenario (fun s _ => s) (new [w "demo.py"; w "vtc"; w "ilt"]) (5, 5) = Some b /\ incremental (config (b_config b)) = true /\ try_local (config (b_config b)) = false.
  Proof. eexists. split; [reflexivity|]. split; reflexivity. Qed.
  Example no_lookups : exists b st, b_stats b = Some st /\ incremental (config (b_config (Kw := nat) (S := scen) b)) = true /\ fst (b_hits st) + snd (b_hits st) = 0.
  Proof. exists (mk_bench (b_config (new [w "demo.py"; w "i"])) (0, 0) (Some (mk_stats (0, 0) 1 1 1 0%Z))). eexists. split; [reflexivity|]. split; reflexivity. Qed.
End Example_bench.
