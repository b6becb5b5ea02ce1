(** One verification step: properties C15, C20, C26, C60.

    [step unsafe max_height nd remain] is what [Verifier.compute_full_reachtube_step] makes of a node. *)
From Coq Require Import Ascii String.
From Verif Require Import Base BaseFacts Dict PyText Boxes Overlay OverlaySpec OverlayProofs Scan ScanSpec ScanProofs TransProofs ScanMain Round Step StepSpec StepProofs Toy.
From Coq Require Import Permutation Sorted Lqa.
Set Implicit Arguments.
Open Scope nat_scope.

Section Props.
  Variables path cond : Type.
  Variable pvar : path -> word.
  Variable agents : list (dlogic path cond).
  Variable tube_of : nat -> mode -> list (vec * vec) -> Q -> option (list vec).
  Variable g_disc : list mode -> list (vec * vec) -> nat -> path -> bool.
  Variable g_hyb : list mode -> list (vec * vec) -> nat -> path -> bool.
  Variable g_cont : list mode -> list (vec * vec) -> nat -> path -> bool * bool.
  Variable g_certain : list mode -> list (vec * vec) -> nat -> cond -> bool.
  Variable g_reset : list mode -> list (vec * vec) -> nat -> list path -> option (list mode * (vec * vec)).
  Variable maph : option word -> option mode -> option mode -> option word.
  Variable digits : nat.

  Notation fill := (fill agents tube_of).
  Notation search := (search pvar agents g_disc g_hyb g_cont g_certain g_reset maph).
  Notation step := (step pvar agents tube_of g_disc g_hyb g_cont g_certain g_reset maph digits).

  Definition below (max_height : option nat) (nd : node) : Prop := forall h, max_height = Some h -> n_height nd < h.

  Lemma below_test max_height nd : below max_height nd -> match max_height with Some h => h <=? n_height nd | None => false end = false.
  Proof. unfold below. destruct max_height as [h|]; [|reflexivity]. intros H. apply Nat.leb_gt. apply H. reflexivity. Qed.

  (** C20, the tubes of a node: an inherited tube is kept; the other agents get the tube of their mode from their
      initial sets over the remaining time, beginning at the start time of the node. *)
  Theorem C20_tubes nd remain trs :
    (forall a m i t, tube_of a m i remain = Some t -> forall row, In row t -> row <> []) ->
    fill nd remain = Some trs ->
    length trs = length agents /\
    forall a tr, nth_error trs a = Some tr ->
      nth_error (n_trace nd) a = Some (Some tr) \/
      nth_error (n_trace nd) a = Some None /\
      exists m i t, nth_error (n_mode nd) a = Some m /\ nth_error (n_init nd) a = Some i /\
        tube_of a m i remain = Some t /\ Forall2 (later (n_start nd)) t tr.
  Proof.
    intros Hrow EF. split; [exact (fill_length _ _ _ _ EF)|]. intros a tr Ha. unfold Step.fill in EF. apply mapM_Forall2 in EF.
    destruct (Forall2_nth_r _ EF Ha) as (a' & Ea & H). assert (Hl : a < length agents).
    { rewrite <- (seq_length (length agents) 0). apply nth_error_Some. congruence. }
    rewrite (nth_error_seq 0 Hl) in Ea. injection Ea as <-. cbn in H.
    destruct (nth_error (n_trace nd) a) as [[t|]|]; [left; cbn [obind] in H; congruence| |discriminate]. right. split; [reflexivity|]. cbn [obind] in H.
    destruct (nth_error (n_mode nd) a) as [m|]; [|discriminate]. cbn [obind] in H. destruct (nth_error (n_init nd) a) as [i|]; [|discriminate]. cbn [obind] in H.
    destruct (tube_of a m i remain) as [t|] eqn:Et; [|discriminate]. injection H as <-. exists m, i, t. split; [reflexivity|]. split; [reflexivity|]. split; [exact Et|].
    specialize (Hrow _ _ _ _ Et). clear Et EF Ha. induction t as [|row t IH]; cbn; constructor.
    - destruct row as [|x rest]; [exfalso; exact (Hrow [] (or_introl eq_refl) eq_refl)|]. exists x, rest. auto.
    - apply IH. intros r Hr. apply Hrow. right. exact Hr.
  Qed.

  (** C20: a node whose tubes are [trs] and whose transitions are [ts] gets exactly one child per transition,
      in order, built as [is_child] says; its tubes are cut right behind the last hit row, and not at all
      without transitions. *)
  Theorem C20_children unsafe max_height nd remain trs ts :
    node_ok (length agents) nd -> below max_height nd -> rectangular trs ->
    fill nd remain = Some trs -> search trs (n_mode nd) = Some (inr ts) ->
    exists r, step unsafe max_height nd remain = Some r /\ r_asserts r = None /\
      Forall2 (is_child digits nd trs) ts (r_child r) /\
      (ts = [] -> r_trace r = trs) /\
      (ts <> [] -> exists m, (exists t, In t ts /\ In m (t_idx t)) /\ (forall t i, In t ts -> In i (t_idx t) -> i <= m) /\
                             Forall2 (prefix_of (2 * (m + 1))) trs (r_trace r)).
  Proof.
    intros (_ & _ & Hm) Hb HR EF ES. pose proof (fill_length _ _ _ _ EF) as HL.
    destruct (@children_spec _ _ pvar agents g_disc g_hyb g_cont g_certain g_reset maph digits nd trs (n_mode nd) ts) as (cs & Ec & HC);
      [lia|exact HL|exact HR|exact ES|].
    unfold Step.step. rewrite EF. cbn [obind]. rewrite ES. cbn [obind]. rewrite (below_test Hb), Ec. cbn [obind].
    eexists. split; [reflexivity|]. cbn [r_asserts r_child r_trace]. split; [reflexivity|].
    split; [rewrite somes_map; exact HC|]. split; [intros ->; reflexivity|].
    intros Hne. pose proof (search_shape _ _ _ _ _ _ _ _ _ _ ES) as HS.
    destruct (@max_end_spec path ts) as [M1 M2]; [intros t Ht; destruct (HS t Ht) as (_ & _ & A & _ & B & _); auto|].
    exists (max_end ts). destruct (M2 Hne) as (t & Ht & Hi). split; [exists t; auto|]. split; [exact M1|].
    destruct ts as [|t0 ts0] eqn:Ets; [congruence|]. rewrite <- Ets in *.
    replace (2 * (max_end ts + 1)) with ((max_end ts + 1) * 2) by lia. apply cut_prefix. intros tr Htr.
    destruct (HS t Ht) as (_ & _ & _ & _ & _ & HT). specialize (HT _ _ Hi Htr). lia.
  Qed.

  (** C20, reported assertions: no children, and the tubes end with the step of the violation. *)
  Theorem C20_assertion max_height nd remain trs asr i :
    fill nd remain = Some trs -> search trs (n_mode nd) = Some (inl (asr, i)) ->
    exists r, step false max_height nd remain = Some r /\ r_asserts r = Some asr /\ r_child r = [] /\
      Forall2 (prefix_of (2 * (i + 1))) trs (r_trace r).
  Proof.
    intros EF ES. unfold Step.step. rewrite EF. cbn [obind]. rewrite ES. cbn [obind].
    eexists. split; [reflexivity|]. cbn [r_asserts r_child r_trace]. split; [reflexivity|]. split; [reflexivity|].
    replace (2 * (i + 1)) with ((i + 1) * 2) by lia. apply cut_prefix. intros tr Htr.
    destruct (search_inv _ _ _ _ _ _ _ _ _ _ ES) as (l & bs & El & Eb & EG).
    destruct (gt_violation _ _ _ _ _ _ _ _ _ _ EG) as (Hi & _). pose proof (min_len_le _ _ El Htr). pose proof (Nat.mul_div_le l 2). lia.
  Qed.

  (** ** C15 *)
  Variable holds : list mode -> nat -> cond -> list vec -> Prop.
  (** What the evaluation of an assertion part on a joint box means. *)
  Definition certain_sound : Prop := forall modes bs a c s, g_certain modes bs a c = true -> in_joint bs s -> holds modes a c s.
  Definition certain_complete : Prop := forall modes bs a c, (exists s, in_joint bs s) ->
    (forall s, in_joint bs s -> holds modes a c s) -> g_certain modes bs a c = true.

  (** No guard may fire anywhere in the tubes. *)
  Definition quiet (modes : list mode) (trs : list (list vec)) : Prop :=
    forall i bs a lg p, box_at trs i = Some bs -> checked agents a lg -> In p (d_paths lg) ->
      g_hyb modes bs a p = false \/ g_cont modes bs a p = (false, false).

  (** C15: let a state in the final tubes, at step [i], violate an assertion whose path condition holds in
      the whole box of that step.  Then the violation is reported for that agent and label, and [i] is the
      last step of the tubes.  This needs that the node has a child or an assertion report or that no guard
      may fire.  Missing from the full property: path conditions that hold in a part of the box only
      ([C15_path_condition_refuted]) and nodes all of whose transitions the map rejects
      ([C15_rejected_transitions_refuted]). *)
  Theorem C15_reported_partial max_height nd remain trs r i s a lg x :
    certain_sound -> certain_complete ->
    node_ok (length agents) nd -> below max_height nd -> rectangular trs -> fill nd remain = Some trs ->
    step false max_height nd remain = Some r ->
    r_child r <> [] \/ r_asserts r <> None \/ quiet (n_mode nd) trs ->
    state_at (r_trace r) i s -> checked agents a lg -> In x (d_asserts lg) ->
    (forall s', state_at (r_trace r) i s' -> holds (n_mode nd) a (snd (fst x)) s') ->
    ~ holds (n_mode nd) a (snd x) s ->
    exists asr ls, r_asserts r = Some asr /\ In (a, ls) asr /\ In (fst (fst x)) ls /\
      forall tr, In tr (r_trace r) -> length tr = 2 * (i + 1).
  Proof.
    intros HS HC Hok Hb HR EF Er Hcase Hs Hch Hx Hpre Hbad.
    assert (Hstep := Er). unfold Step.step in Er. rewrite EF in Er. cbn [obind] in Er.
    destruct (search trs (n_mode nd)) as [res|] eqn:ES; [|discriminate]. cbn [obind] in Er.
    destruct (search_inv _ _ _ _ _ _ _ _ _ _ ES) as (l & bs & El & Eb & EG).
    (* the kept rows are rows of the tubes *)
    assert (Hrows : exists n, Forall2 (prefix_of (2 * n)) trs (r_trace r) /\ i < n /\ n <= l / 2 \/
                              r_trace r = trs /\ i < l / 2).
    { assert (Hidx : r_trace r = trs -> i < l / 2).
      { intros E. rewrite E in Hs. assert (Hlen : forall tr, In tr trs -> 2 * i + 1 < length tr).
        { intros tr Ht. unfold state_at in Hs. destruct (Forall2_In_l _ Hs Ht) as (y & _ & (lo & hi & _ & E2 & _)).
          apply nth_error_Some. congruence. }
        assert (2 * i + 2 <= l).
        { unfold min_len in El. destruct trs as [|t0 ts0]; [discriminate|]. injection El as <-.
          assert (G : forall (L : list (list vec)) m, 2 * i + 2 <= m -> (forall tr, In tr L -> 2 * i + 1 < length tr) -> 2 * i + 2 <= fold_left (fun m x => Nat.min m (length x)) L m).
          { clear. induction L as [|y L IH]; intros m Hm H; simpl; [exact Hm|]. apply IH; [specialize (H y (or_introl eq_refl)); lia|intros; apply H; simpl; auto]. }
          apply G; [specialize (Hlen t0 (or_introl eq_refl)); lia|intros; apply Hlen; simpl; auto]. }
        apply Nat.div_le_lower_bound with (b := 2) (q := S i); lia. }
      destruct res as [[asr j]|ts].
      - destruct (@C20_assertion max_height nd remain trs asr j EF ES) as (r' & Er' & _ & _ & HP). rewrite Hstep in Er'. injection Er' as <-.
        exists (j + 1). left. split; [exact HP|].
        destruct (gt_violation _ _ _ _ _ _ _ _ _ _ EG) as (Hj & _).
        assert (r_trace r <> []).
        { intros E. rewrite E in HP. inversion HP; subst. discriminate. }
        destruct (r_trace r) as [|tr rest] eqn:Et; [congruence|]. inversion HP as [|t1 ? ? ? P1 P2]; subst. destruct P1 as [P1 _].
        inversion Hs as [|? ? ? ? (lo & hi & _ & E2 & _) _]; subst. assert (2 * i + 1 < length tr) by (apply nth_error_Some; congruence). lia.
      - destruct (@C20_children false max_height nd remain trs ts Hok Hb HR EF ES) as (r' & Er' & _ & _ & H0 & H1). rewrite Hstep in Er'. injection Er' as <-.
        destruct ts as [|t0 ts0] eqn:Ets; [exists 0; right; split; [apply H0; reflexivity|apply Hidx; apply H0; reflexivity]|].
        rewrite <- Ets in *. destruct H1 as (m & (t & Ht & Hi) & _ & HP); [rewrite Ets; discriminate|].
        exists (m + 1). left. split; [exact HP|].
        destruct (search_shape _ _ _ _ _ _ _ _ _ _ ES t Ht) as (_ & _ & _ & _ & _ & HT).
        assert (Hmn : m < l / 2).
        { destruct (gt_transitions _ _ _ _ _ _ _ _ _ _ EG) as (n & g & Hn & Hv & He & Hc & HTr).
          edestruct transitions_shape as (_ & HL & _ & _); [exact Hc|exact HTr|exact Ht|].
          apply In_nth_error in Hi. destruct Hi as (k & Hk). destruct (nth_error (t_inits t) k) as [rc|] eqn:Erc.
          2: { apply nth_error_None in Erc. assert (k < length (t_idx t)) by (apply nth_error_Some; congruence). lia. }
          edestruct transitions_sound as (A & _); [exact Hc|exact HTr|exact Ht|exists k; eauto|]. lia. }
        assert (r_trace r <> []).
        { intros E. rewrite E in HP. inversion HP; subst. discriminate. }
        destruct (r_trace r) as [|tr rest] eqn:Et; [congruence|]. inversion HP as [|t1 ? ? ? P1 P2]; subst. destruct P1 as [P1 _].
        inversion Hs as [|? ? ? ? (lo & hi & _ & E2 & _) _]; subst. assert (2 * i + 1 < length tr) by (apply nth_error_Some; congruence). lia. }
    destruct Hrows as (n & Hrows).
    assert (Hil : i < l / 2) by (destruct Hrows as [(_ & A & B)|(_ & A)]; lia).
    assert (Heq : forall s', state_at trs i s' <-> state_at (r_trace r) i s').
    { destruct Hrows as [(HP & Hin & _)|(-> & _)]; [|reflexivity]. clear - HP Hin. intros s'. unfold state_at.
      revert s'. induction HP as [|tr tr' trs trs' (PL & P) HF IH]; intros s'.
      - split; intros X; inversion X; constructor.
      - split; intros X; inversion X as [|? y ? s'' X1 X2]; subst; constructor; try (apply IH; exact X2);
          destruct X1 as (lo & hi & E1 & E2 & HB); exists lo, hi.
        + rewrite !P by lia. auto.
        + rewrite <- !P by lia. auto. }
    pose proof (boxes_of_nth Eb Hil) as Ebi.
    assert (Hlen : forall tr, In tr trs -> 2 * i + 1 < length tr).
    { intros tr Ht. pose proof (min_len_le _ _ El Ht). pose proof (Nat.mul_div_le l 2). lia. }
    assert (Hjoint : forall s', state_at trs i s' <-> in_joint (nth i bs []) s') by (intros s'; apply box_at_covers; assumption).
    assert (Hvio : violates agents (ge g_certain (n_mode nd) bs) a i /\ broken (ge g_certain (n_mode nd) bs) a i x).
    { assert (B : broken (ge g_certain (n_mode nd) bs) a i x).
      { unfold broken, ge. split.
        - apply HC; [exists s; apply Hjoint, Heq; exact Hs|]. intros s' Hs'. apply Hpre. apply Heq, Hjoint. exact Hs'.
        - destruct (g_certain _ _ a (snd x)) eqn:Ec; [|reflexivity]. exfalso. apply Hbad. eapply HS; [exact Ec|]. apply Hjoint, Heq. exact Hs. }
      split; [|exact B]. exists lg, x. auto. }
    destruct Hvio as [Hvio HB].
    destruct res as [[asr j]|ts].
    - destruct (gt_violation _ _ _ _ _ _ _ _ _ _ EG) as (Hj & (V & _) & _ & HL).
      assert (Hr : r = {| r_child := []; r_trace := map (firstn ((j + 1) * 2)) trs; r_asserts := Some asr |}) by congruence.
      assert (Hij : i = j).
      { assert (i <= j).
        { destruct (Nat.le_gt_cases i j) as [|Hlt]; [assumption|]. exfalso. rewrite Hr in Hs. cbn [r_trace] in Hs.
          destruct trs as [|t0 ts0]; [discriminate|]. simpl in Hs. inversion Hs as [|? ? ? ? (lo & hi & _ & E2 & _) _]; subst.
          assert (2 * i + 1 < length (firstn ((j + 1) * 2) t0)) by (apply nth_error_Some; congruence). rewrite firstn_length in *. lia. }
        destruct (Nat.eq_dec i j) as [|]; [assumption|]. exfalso. apply (V i); [lia|]. exists a. exact Hvio. }
      subst j. exists asr, (asserts_at (ge g_certain (n_mode nd) bs) lg a i). rewrite Hr. cbn [r_asserts r_trace].
      split; [reflexivity|]. split; [apply HL; split; [exact Hvio|exists lg; auto]|].
      split; [apply asserts_at_In; exists x; auto|].
      intros tr Ht. apply in_map_iff in Ht. destruct Ht as (t0 & <- & Ht0). rewrite firstn_length. specialize (Hlen t0 Ht0). lia.
    - exfalso. destruct (gt_transitions _ _ _ _ _ _ _ _ _ _ EG) as (n' & g & Hn & Hv & He & Hc & HTr).
      destruct (@C20_children false max_height nd remain trs ts Hok Hb HR EF ES) as (r' & Er' & Ha & HF & H0 & H1). rewrite Hstep in Er'. injection Er' as <-.
      assert (Hin : i < n').
      { destruct ts as [|t0 ts0] eqn:Ets.
        - destruct Hcase as [Hcase|[Hcase|Hq]]; [inversion HF; congruence|congruence|].
          destruct He as [->|[(Hn0 & a' & p & ((lg' & Hch' & Hp) & _ & Hh & Hcc) & _)|(Hnl & _ & _ & j & Hj & (a' & p & ((lg' & Hch' & Hp) & _ & Hh & Hcc) & _))]]; [exact Hil| |].
          + unfold gh, gc in Hh, Hcc. assert (Hlt : pred n' < l / 2) by lia. destruct (Hq (pred n') _ a' lg' p (boxes_of_nth Eb Hlt) Hch' Hp) as [E|E]; rewrite E in *; discriminate.
          + unfold gh, gc in Hh, Hcc. assert (Hlt : j < l / 2) by lia. destruct (Hq j _ a' lg' p (boxes_of_nth Eb Hlt) Hch' Hp) as [E|E]; rewrite E in *; discriminate.
        - rewrite <- Ets in *. destruct H1 as (m & (t & Ht & Hi) & _ & HP); [rewrite Ets; discriminate|].
          assert (m < n').
          { edestruct transitions_shape as (_ & HL & _ & _); [exact Hc|exact HTr|exact Ht|].
            apply In_nth_error in Hi. destruct Hi as (k & Hk). destruct (nth_error (t_inits t) k) as [rc|] eqn:Erc.
            2: { apply nth_error_None in Erc. assert (k < length (t_idx t)) by (apply nth_error_Some; congruence). lia. }
            edestruct transitions_sound as (A & _); [exact Hc|exact HTr|exact Ht|exists k; eauto|]. exact A. }
          destruct (r_trace r) as [|tr rest]; [inversion HP; subst; discriminate|]. inversion HP as [|t1 ? ? ? (PL & _) P2]; subst.
          inversion Hs as [|? ? ? ? (lo & hi & _ & E2 & _) _]; subst. assert (2 * i + 1 < length tr) by (apply nth_error_Some; congruence). lia. }
      destruct Hv as (V & _). apply (V i Hin). exists a. exact Hvio.
  Qed.

  (** ** C26 *)
  (** C26: without a violated assertion, [unsafe_continue] makes no difference.  Missing: continuing past a
      violated assertion ([C26_unsafe_continue_refuted]). *)
  Theorem C26_no_violation_partial max_height nd remain trs ts :
    fill nd remain = Some trs -> search trs (n_mode nd) = Some (inr ts) ->
    step true max_height nd remain = step false max_height nd remain.
  Proof. intros EF ES. unfold Step.step. rewrite EF. cbn [obind]. rewrite ES. reflexivity. Qed.

  (** C26 is false: with [unsafe_continue] every step whose tube violates an assertion fails. *)
  Theorem C26_always_fails max_height nd remain trs asr i :
    fill nd remain = Some trs -> search trs (n_mode nd) = Some (inl (asr, i)) -> step true max_height nd remain = None.
  Proof. intros EF ES. unfold Step.step. rewrite EF. cbn [obind]. rewrite ES. reflexivity. Qed.
End Props.

Print Assumptions C20_tubes.
Print Assumptions C20_children.
Print Assumptions C20_assertion.
Print Assumptions C15_reported_partial.
Print Assumptions C26_no_violation_partial.
Print Assumptions C26_always_fails.

(** ** C60 *)
(** C60, when the transition's hits are at consecutive rows, one reset set each (and one set per segment): every
    trajectory that starts in a reset set is in the child's tube at the right row.  Missing: several reset
    sets at one row, or rows without one ([C60_same_destination_refuted]). *)
Theorem C60_consecutive_partial :
  forall path N d flow engine (t : transition path (vec * vec)) i0,
  engine_sound N d flow engine -> BoxesSpec.dim_ok d (t_inits t) -> t_inits t <> [] ->
  t_idx t = seq i0 (length (t_inits t)) ->
  exists tb, calc_full_plain engine (t_inits t) 1 = Some tb /\
    forall i r s j s', has_entry t i r -> in_box (fst r) (snd r) s -> flow s j s' ->
      (i - i0) + j < N -> covers tb ((i - i0) + j) s'.
Proof.
  intros path N d flow engine t i0 He Hd Hne Hidx.
  destruct (calc_full_plain_one He Hd Hne) as (tb & E & _ & HC). exists tb. split; [exact E|].
  intros i r s j s' (k & Hk & Hr) Hs Hf HN.
  assert (Hkl : k < length (t_inits t)) by (apply nth_error_Some; congruence).
  rewrite Hidx, (nth_error_seq i0 Hkl) in Hk. injection Hk as <-.
  replace (i0 + k - i0) with k in * by lia. eapply HC; eauto.
Qed.
Print Assumptions C60_consecutive_partial.

(** * Concrete scenarios: one agent, guards and assertions on its own box *)
Section Scenario.
  Variable lg : dlogic tpath (vec * vec).
  Variable maph : option word -> option mode -> option mode -> option word.
  Variable tube_of : nat -> mode -> list (vec * vec) -> Q -> option (list vec).
  Definition toy_search := search tp_var [lg] t_disc t_hyb t_cont t_certain t_reset maph.
  Definition toy_step := step tp_var [lg] tube_of t_disc t_hyb t_cont t_certain t_reset maph 10.
  Definition toy_fill := fill [lg] tube_of.
End Scenario.
Definition start (m : mode) (b : vec * vec) : node :=
  {| n_trace := [None]; n_init := [[b]]; n_mode := [m]; n_start := 0%Q; n_height := 0 |}.
Definition no_map : option word -> option mode -> option mode -> option word := fun _ _ _ => None.
Definition t_holds' (_ : list mode) := t_holds.

(** The evaluation of assertions is sound and complete in these scenarios. *)
Example ex_certain : certain_sound t_certain t_holds' /\ certain_complete t_certain t_holds'.
Proof. split; [intros modes bs a c s; apply t_certain_right|intros modes bs a c; apply t_certain_complete]. Qed.

(** ** C15 is false when the path condition holds in a part of the box only

    [if x >= 1: assert y <= 0] with x in [0,2] and y = 5. *)
Definition cautious : dlogic tpath (vec * vec) :=
  {| has_args := true; d_paths := []; d_types := [];
     d_asserts := [(w "safe", ([1; -(100)], [100; 100]), ([-(100); -(100)], [100; 0]))%Q] |}.

Theorem C15_path_condition_refuted :
  exists lg nd trs r i s x,
    node_ok 1 nd /\ rectangular trs /\ toy_fill lg (still_tubes 2) nd 2 = Some trs /\
    toy_step lg no_map (still_tubes 2) false None nd 2 = Some r /\
    quiet [lg] t_hyb t_cont (n_mode nd) trs /\ state_at (r_trace r) i s /\
    checked [lg] 0 lg /\ In x (d_asserts lg) /\ t_holds 0 (snd (fst x)) s /\ ~ t_holds 0 (snd x) s /\
    r_asserts r = None.
Proof.
  exists cautious, (start [w "A"] ([0; 5], [2; 5])%Q). eexists. eexists.
  exists 0, [[3 # 2; 5]]%Q. eexists.
  split; [repeat split; reflexivity|]. split; [|split; [vm_compute; reflexivity|]].
  { intros tr [<-|[]]. exists 2. intros row Hr. simpl in Hr. intuition; subst; reflexivity. }
  split; [vm_compute; reflexivity|]. split; [intros i bs a lg p _ (E & _) Hp; destruct a as [|[|a]]; simpl in E; try discriminate; injection E as <-; destruct Hp|].
  split. { constructor; [|constructor]. eexists _, _. split; [reflexivity|]. split; [reflexivity|]. simpl. repeat split; lra. }
  split; [split; reflexivity|]. split; [left; reflexivity|]. split; [unfold t_holds; simpl; repeat split; lra|].
  split; [|reflexivity]. unfold t_holds. simpl. intros (_ & (_ & A) & _). lra.
Qed.
Print Assumptions C15_path_condition_refuted.

(** ** C15 is false when the map rejects all transitions

    The agent is certain to leave for mode B in the first step, but the map does not allow it; the scan has
    stopped there, and the violation of [x <= 1] in the second step of the tube is not reported. *)
Definition leaver : dlogic tpath (vec * vec) :=
  {| has_args := true; d_types := [w "M"; w "TrackMode"];
     d_paths := [{| tp_var := w "mode"; tp_src := [w "A"; w "T0"]; tp_lo := [-(100)]%Q; tp_hi := [100]%Q; tp_dest := Some [w "B"; w "T0"]; tp_set := None |}];
     d_asserts := [(w "safe", ([-(100)], [100]), ([-(100)], [1]))%Q] |}.
Definition jump_tube (a : nat) (m : mode) (inits : list (vec * vec)) (remain : Q) : option (list vec) :=
  Some ([[0; 0]; [1; 0]; [1; 5]; [2; 5]])%Q.

Theorem C15_rejected_transitions_refuted :
  exists lg maph nd trs r i s x,
    node_ok 1 nd /\ rectangular trs /\ toy_fill lg jump_tube nd 2 = Some trs /\
    toy_step lg maph jump_tube false None nd 2 = Some r /\
    state_at (r_trace r) i s /\ checked [lg] 0 lg /\ In x (d_asserts lg) /\
    (forall s', state_at (r_trace r) i s' -> t_holds 0 (snd (fst x)) s') /\ ~ t_holds 0 (snd x) s /\
    r_asserts r = None /\ r_child r = [].
Proof.
  exists leaver, (fun _ _ _ => Some (w "T9")), (start [w "A"; w "T0"] ([0], [0])%Q). eexists. eexists.
  exists 1, [[5]]%Q. eexists.
  split; [repeat split; reflexivity|]. split; [|split; [vm_compute; reflexivity|]].
  { intros tr [<-|[]]. exists 1. intros row Hr. simpl in Hr. intuition; subst; reflexivity. }
  split; [vm_compute; reflexivity|].
  split. { constructor; [|constructor]. eexists _, _. split; [reflexivity|]. split; [reflexivity|]. simpl. repeat split; lra. }
  split; [split; reflexivity|]. split; [left; reflexivity|]. split.
  { intros s' Hs. inversion Hs as [|? y ? s'' (lo & hi & E1 & E2 & HB) H2]; subst. inversion H2; subst. simpl in E1, E2. injection E1 as <-. injection E2 as <-.
    destruct y as [|v [|? ?]]; simpl in HB; try tauto. unfold t_holds. simpl. repeat split; lra. }
  split; [|split; reflexivity]. unfold t_holds. simpl. intros ((_ & A) & _). lra.
Qed.
Print Assumptions C15_rejected_transitions_refuted.

(** A node that meets the hypotheses of [C15_reported_partial]: the violation is in the second step. *)
Definition watcher : dlogic tpath (vec * vec) :=
  {| has_args := true; d_types := []; d_paths := []; d_asserts := [(w "safe", ([-(100)], [100]), ([-(100)], [1]))%Q] |}.
Example ex_reported : toy_step watcher no_map jump_tube false None (start [w "A"] ([0], [0])%Q) 2 =
  Some {| r_child := []; r_trace := [[[0 + 0; 0]; [1 + 0; 0]; [1 + 0; 5]; [2 + 0; 5]]]%Q; r_asserts := Some [(0, [w "safe"])] |}.
Proof. reflexivity. Qed.

(** ** C26: one such node, verified without [unsafe_continue], fails with it *)
Theorem C26_unsafe_continue_refuted :
  exists lg nd r, toy_step lg no_map jump_tube false None nd 2 = Some r /\ r_asserts r <> None /\
    toy_step lg no_map jump_tube true None nd 2 = None.
Proof. exists watcher, (start [w "A"] ([0], [0])%Q). eexists. split; [reflexivity|]. split; [discriminate|reflexivity]. Qed.
Print Assumptions C26_unsafe_continue_refuted.

(** ** C20: a step with two children *)
Definition brancher : dlogic tpath (vec * vec) :=
  {| has_args := true; d_types := []; d_asserts := [];
     d_paths := [{| tp_var := w "mode"; tp_src := [w "A"]; tp_lo := [4]%Q; tp_hi := [6]%Q; tp_dest := Some [w "B"]; tp_set := None |};
                 {| tp_var := w "mode"; tp_src := [w "A"]; tp_lo := [-(1)]%Q; tp_hi := [9]%Q; tp_dest := Some [w "C"]; tp_set := None |}] |}.
Definition walk_tube (a : nat) (m : mode) (inits : list (vec * vec)) (remain : Q) : option (list vec) :=
  Some ([[0; -(5)]; [1; -(4)]; [1; -(4)]; [2; 4]; [2; 4]; [3; 5]; [3; 5]; [4; 6]])%Q.
Example ex_two_children : exists r c1 c2, toy_step brancher no_map walk_tube false (Some 5) (start [w "A"] ([0], [0])%Q) 4 = Some r /\
  r_child r = [c1; c2] /\ n_mode c1 = [[w "B"]] /\ n_mode c2 = [[w "C"]] /\ r_trace r = [firstn 6 [[0 + 0; -(5)]; [1 + 0; -(4)]; [1 + 0; -(4)]; [2 + 0; 4]; [2 + 0; 4]; [3 + 0; 5]; [3 + 0; 5]; [4 + 0; 6]]]%Q.
Proof. eexists _, _, _. split; [vm_compute; reflexivity|]. repeat split; reflexivity. Qed.

(** The tube of a node that starts at time 3. *)
Example ex_C20_tubes : toy_fill brancher walk_tube {| n_trace := [None]; n_init := [[([0], [0])]]; n_mode := [[w "A"]]; n_start := 3; n_height := 1 |}%Q 4 =
  Some [map (shift_row 3) ([[0; -(5)]; [1; -(4)]; [1; -(4)]; [2; 4]; [2; 4]; [3; 5]; [3; 5]; [4; 6]])%Q].
Proof. reflexivity. Qed.

(** ** C60 is false

    In mode A the agent may leave for B; at the same time it resets x to 0 or to 10.  Both results have the
    same destination, so they are two initial sets of one child; the second one only enters the child's tube
    one row later. *)
Definition splitter : dlogic tpath (vec * vec) :=
  {| has_args := true; d_types := []; d_asserts := [];
     d_paths := [{| tp_var := w "mode"; tp_src := [w "A"]; tp_lo := [0]%Q; tp_hi := [9]%Q; tp_dest := Some [w "B"]; tp_set := None |};
                 {| tp_var := w "x"; tp_src := [w "A"]; tp_lo := [0]%Q; tp_hi := [5]%Q; tp_dest := None; tp_set := Some (0, 0%Q) |};
                 {| tp_var := w "x"; tp_src := [w "A"]; tp_lo := [5]%Q; tp_hi := [9]%Q; tp_dest := None; tp_set := Some (0, 10%Q) |}] |}.

Theorem C60_same_destination_refuted :
  exists lg nd trs ts t i0 i r s c tb,
    toy_fill lg (still_tubes 3) nd 3 = Some trs /\ toy_search lg no_map trs (n_mode nd) = Some (inr ts) /\ In t ts /\
    nth_error (t_idx t) 0 = Some i0 /\ has_entry t i r /\ in_box (fst r) (snd r) s /\
    (** the child and its tube *)
    is_child 10 nd trs t c /\ (exists res, toy_step lg no_map (still_tubes 3) false None nd 3 = Some res /\ In c (r_child res)) /\
    toy_fill lg (still_tubes 3) c 3 = Some [tb] /\
    (** the state right after this reset is not in the child's tube *)
    ~ covers tb (i - i0) s.
Proof.
  set (nd := start [w "A"] ([4], [6])%Q).
  assert (E1 : exists trs, toy_fill splitter (still_tubes 3) nd 3 = Some trs) by (eexists; vm_compute; reflexivity).
  destruct E1 as (trs & E1).
  assert (E2 : exists ts, toy_search splitter no_map trs (n_mode nd) = Some (inr ts)).
  { vm_compute in E1. injection E1 as <-. eexists. vm_compute. reflexivity. }
  destruct E2 as (ts & E2).
  destruct (@C20_children _ _ tp_var [splitter] (still_tubes 3) t_disc t_hyb t_cont t_certain t_reset no_map 10 false None nd 3%Q trs ts) as (res & Er & _ & HF & _ & _).
  - repeat split; reflexivity.
  - intros h Hh. discriminate.
  - vm_compute in E1. injection E1 as <-. intros tr [<-|[]]. exists 1. intros row Hr. simpl in Hr. intuition; subst; reflexivity.
  - exact E1.
  - exact E2.
  - exists splitter, nd, trs, ts. vm_compute in E1. injection E1 as <-. vm_compute in E2. injection E2 as <-.
    destruct (r_child res) as [|c cs] eqn:Hch; [inversion HF|]. inversion HF as [|? ? ? ? HC HF']; subst.
    eexists. exists 0, 0, ([10], [10])%Q, [10]%Q, c. clear HF HF'.
    assert (Ec : exists tb, toy_fill splitter (still_tubes 3) c 3 = Some [tb] /\ ~ covers tb 0 [10]%Q).
    { destruct HC as (d & i0 & Ed & Ei & (tr & row & time & A1 & A2 & A3 & Es) & _ & Em & _ & Lt & Li & Lm & Ht & Hi & _).
      cbn [t_agent t_inits t_dest] in *. injection Ed as <-.
      destruct c as [tr0 in0 m0 s0 h0]. cbn [n_trace n_init n_mode n_start] in *. 
      destruct tr0 as [|t0 [|? ?]]; try discriminate. destruct in0 as [|i1 [|? ?]]; try discriminate. destruct m0 as [|m1 [|? ?]]; try discriminate.
      simpl in Em, Ht, Hi. injection Em as ->. injection Ht as ->. injection Hi as ->.
      eexists. split; [vm_compute; reflexivity|].
      intros (lo & hi & B1 & B2 & HB). simpl in B1, B2. injection B1 as <-. injection B2 as <-. simpl in HB. lra. }
    destruct Ec as (tb & Ec & Hn). exists tb.
    split; [vm_compute; reflexivity|]. split; [vm_compute; reflexivity|]. split; [left; reflexivity|]. cbn [t_idx t_inits]. split; [reflexivity|].
    split; [exists 1; split; reflexivity|]. split; [simpl; repeat split; lra|]. split; [exact HC|].
    split; [exists res; split; [exact Er|rewrite Hch; left; reflexivity]|]. split; [exact Ec|exact Hn].
Qed.
Print Assumptions C60_same_destination_refuted.
