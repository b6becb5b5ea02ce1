(** Whole figures. *)
From Coq Require Import Ascii String Lqa.
From Verif Require Import Base BaseFacts Dict PyText Guard Tree TreeSpec TreeProofs TreeProps ResetProofs Plot PlotSpec PlotGeom PlotProofs.
Set Implicit Arguments.
Open Scope nat_scope.

Lemma scheme_index i : exists c, scheme_of i = Some c /\ dget word_eqb c scheme_dict = Some (i mod num_theme).
Proof.
  unfold scheme_of. assert (H : i mod num_theme < 9) by (apply (Nat.mod_upper_bound i num_theme); discriminate). revert H. generalize (i mod num_theme). intros j H.
  do 9 (destruct j as [|j]; [eexists; split; reflexivity|]). lia.
Qed.
Lemma shade_ok pc i n : enough pc n -> i < n -> exists c line fill, scheme_of i = Some c /\ shade pc c 0 = Some line /\ shade pc c 1 = Some fill /\ agent_colors pc i line fill.
Proof.
  intros E H. destruct (scheme_index i) as (c & Ec & D).
  destruct (E (i mod num_theme)) as (row & Er & L); [pose proof (Nat.mod_le i num_theme ltac:(discriminate)); lia|apply Nat.mod_upper_bound; discriminate|].
  destruct (nth_error row 0) as [l|] eqn:E0; [|apply nth_error_None in E0; lia]. destruct (nth_error row 1) as [f|] eqn:E1; [|apply nth_error_None in E1; lia].
  exists c, l, f. unfold shade. rewrite D. cbn [obind]. rewrite Er. cbn [obind]. repeat (split; [assumption|]). exists row. auto.
Qed.
Lemma agent_colors_fun pc i l f l' f' : agent_colors pc i l f -> agent_colors pc i l' f' -> l = l' /\ f = f'.
Proof. intros (r & A & B & C) (r' & A' & B' & C'). rewrite A in A'. injection A' as <-. split; congruence. Qed.

Lemma combine_seq_In {A} (l : list A) i a : forall k, In (i, a) (combine (seq k (length l)) l) <-> k <= i /\ nth_error l (i - k) = Some a.
Proof.
  induction l as [|x l IH]; intros k; cbn [length seq combine].
  - cbn. split; [intros []|]. intros [_ H]. destruct (i - k); discriminate.
  - cbn [In]. rewrite IH. split.
    + intros [[= -> ->]|[H E]]; [rewrite Nat.sub_diag; auto|]. split; [lia|]. replace (i - k) with (S (i - S k)) by lia. exact E.
    + intros [H E]. destruct (Nat.eq_dec i k) as [->|N]; [left; rewrite Nat.sub_diag in E; cbn in E; congruence|]. right. split; [lia|]. replace (i - k) with (S (i - S k)) in E by lia. exact E.
Qed.
Lemma Forall2_concat {A} (P : A -> shape -> Prop) l ss : Forall2 (fun a s => forall sh, In sh s <-> P a sh) l ss ->
  forall sh, In sh (concat ss) <-> exists a, In a l /\ P a sh.
Proof.
  induction 1 as [|a s l ss H _ IH]; intros sh; cbn; [split; [intros []|intros (a & [] & _)]|].
  rewrite in_app_iff, H, IH. split; [intros [X|(b & I & X)]; [exists a; auto|exists b; auto]|intros (b & [<-|I] & X); [left; exact X|right; exists b; auto]].
Qed.

Lemma complete_trace t x y q n a : complete t x y -> at_path (t_root t) q = Some n -> In a (t_agents t) -> exists tr, dget word_eqb a (p_trace (content n)) = Some tr.
Proof.
  intros [_ C] Q H. destruct (C q n Q) as (_ & A & _). destruct (dget word_eqb a (p_trace (content n))) as [tr|] eqn:E; [eauto|].
  apply dget_None in E; [|exact word_eqb_eq]. exfalso. apply E. apply A. exact H.
Qed.
Lemma num_dim_ok t x y : complete t x y -> exists d, num_dim_of t = Some d /\ check_dim d x y = Some tt.
Proof.
  intros C. pose proof C as [N C']. unfold num_dim_of. destruct (t_agents t) as [|a l] eqn:E; [contradiction|]. cbn [nth_error obind].
  destruct (@complete_trace t x y [] (t_root t) a C eq_refl) as [tr D]; [rewrite E; left; reflexivity|]. rewrite D. cbn [obind].
  destruct (C' [] (t_root t) eq_refl) as (_ & _ & T). destruct (T a tr D) as [Ne F]. destruct tr as [|r tr]; [contradiction|]. inversion F as [|? ? [Hx Hy] _]; subst.
  exists (length r). split; [reflexivity|]. unfold check_dim. rewrite (proj2 (Nat.leb_gt _ _) Hx), (proj2 (Nat.leb_gt _ _) Hy). reflexivity.
Qed.

Section Fig.
  Variables (t : ptree) (x_dim y_dim : nat) (labels scale : bool) (plot_color : list (list word)).
  Hypothesis C : complete t x_dim y_dim.
  Hypothesis Nm : labels = true -> named t.
  Hypothesis En : enough plot_color (length (t_agents t)).

  (** The shapes of the agents. *)
  Definition drawn (f : word -> word -> list vec -> option (list shape)) (sh : shape) : Prop :=
    exists i a q tr s l c, nth_error (t_agents t) i = Some a /\ agent_colors plot_color i l c /\ trace_at t q a tr /\ f l c tr = Some s /\ In sh s.

  Definition range_ok (s : acc) : Prop := forall q a tr r, trace_at t q a tr -> In r tr ->
    forall p, point_of x_dim y_dim r p -> in_range (widen (fst (a_lo s)) (fst (a_hi s))) (fst p) /\ in_range (widen (snd (a_lo s)) (snd (a_hi s))) (snd p).

  Lemma widen_in lo hi v : (lo <= v <= hi)%Q -> in_range (widen (Some lo) (Some hi)) v.
  Proof. intros H. unfold in_range, widen. eexists. eexists. split; [reflexivity|]. lra. Qed.

  Lemma known_facts need s l : known t x_dim y_dim labels need l s ->
    (forall n kv, In (n, kv) l <-> (exists q, at_path (t_root t) q = Some n) /\ In kv (p_trace (content n))) ->
    range_ok s /\
    (forall sh, In sh (a_new s) -> (exists p tx c, sh = Label p tx c) \/ exists p txs, sh = Hit p txs) /\
    (forall p txs, In (Hit p txs) (a_new s) <-> (need = true -> labels = true) /\
       exists q a tr r texts, trace_at t q a tr /\ violated t q a texts /\ last_row tr r /\ point_of x_dim y_dim r p /\ txs = map hit_text texts) /\
    (forall p tx c, In (Label p tx c) (a_new s) -> labels = true /\
       exists q n a tr r m m0, at_path (t_root t) q = Some n /\ dget word_eqb a (p_trace (content n)) = Some tr /\ nth_error tr 0 = Some r /\ point_of x_dim y_dim r p /\
         dget word_eqb a (p_mode (content n)) = Some m /\ nth_error m 0 = Some m0 /\ tx = caption a m0) /\
    (labels = true -> forall q n a m m0, at_path (t_root t) q = Some n -> In a (t_agents t) -> dget word_eqb a (p_mode (content n)) = Some m -> nth_error m 0 = Some m0 ->
       exists p c, In (Label p (caption a m0) c) (a_new s)).
  Proof.
    intros K L. pose proof C as [_ C'].
    assert (Dg : forall q n a tr, at_path (t_root t) q = Some n -> (In (a, tr) (p_trace (content n)) <-> dget word_eqb a (p_trace (content n)) = Some tr)).
    { intros q n a tr Q. destruct (C' q n Q) as (ND & _). split; [apply In_dget; [exact word_eqb_eq|exact ND]|apply dget_In; exact word_eqb_eq]. }
    assert (Snd : forall sh, In sh (a_new s) -> exists q n a tr, at_path (t_root t) q = Some n /\ dget word_eqb a (p_trace (content n)) = Some tr /\ In (n, (a, tr)) l /\ (hit_of x_dim y_dim labels need n (a, tr) sh \/ label_of x_dim y_dim labels n (a, tr) sh)).
    { intros sh H. destruct (k_sound K sh H) as (n & [a tr] & I & X). pose proof (proj1 (L _ _) I) as [[q Q] I2]. exists q, n, a, tr. repeat split; try assumption. apply (Dg q); assumption. }
    split; [|split; [|split; [|split]]].
    - intros q a tr r (n & Q & D) Ir p [Px Py]. assert (I : In (n, (a, tr)) l) by (apply L; split; [eauto|apply (Dg q); assumption]).
      destruct (@k_x _ _ _ _ _ _ _ K n (a, tr) r _ I Ir Px) as (lo & hi & -> & -> & W). destruct (@k_y _ _ _ _ _ _ _ K n (a, tr) r _ I Ir Py) as (lo' & hi' & -> & -> & W'). split; apply widen_in; assumption.
    - intros sh H. destruct (Snd sh H) as (q & n & a & tr & _ & _ & _ & [[_ (h & texts & r & p & _ & _ & _ & _ & ->)]|[_ (m & m0 & r & p & c & _ & _ & _ & _ & ->)]]).
      + right. eauto.
      + left. eauto.
    - intros p txs. split.
      + intros H. destruct (Snd _ H) as (q & n & a & tr & Q & D & _ & [[V (h & texts & r & p' & Hh & Dh & Lr & Po & E)]|[_ (m & m0 & r & p' & c & _ & _ & _ & _ & E)]]); [|discriminate].
        injection E as -> ->. split; [exact V|]. exists q, a, tr, r, texts. split; [exists n; auto|]. split; [exists n, h; auto|]. auto.
      + intros (V & q & a & tr & r & texts & (n & Q & D) & (n' & h & Q' & Hh & Dh) & Lr & Po & ->). rewrite Q in Q'. injection Q' as <-.
        apply (@k_hits _ _ _ _ _ _ _ K n (a, tr)); [apply L; split; [eauto|apply (Dg q); assumption]|]. split; [exact V|]. exists h, texts, r, p. auto.
    - intros p tx c H. destruct (Snd _ H) as (q & n & a & tr & Q & D & _ & [[V (h & texts & r & p' & _ & _ & _ & _ & E)]|[HL (m & m0 & r & p' & c' & Em & E0 & Er & Po & E)]]); [discriminate|].
      injection E as -> -> ->. split; [exact HL|]. exists q, n, a, tr, r, m, m0. repeat split; try assumption; apply Po.
    - intros HL q n a m m0 Q Ia Em E0. destruct (@complete_trace t x_dim y_dim q n a C Q Ia) as [tr D].
      apply (@k_labels _ _ _ _ _ _ _ K HL n (a, tr) m m0); [apply L; split; [eauto|apply (Dg q); assumption]|exact Em|exact E0].
  Qed.

  (** Folding over the agents. *)
  Lemma agents_fold (step : figure -> nat * word -> option figure) f :
    (forall i a, nth_error (t_agents t) i = Some a -> exists s, (forall g, step g (i, a) = Some (adds s g)) /\
       forall sh, In sh s <-> exists q tr s' l c, agent_colors plot_color i l c /\ trace_at t q a tr /\ f l c tr = Some s' /\ In sh s') ->
    exists ss, (forall g, foldM step (combine (seq 0 (length (t_agents t))) (t_agents t)) g = Some (adds ss g)) /\ forall sh, In sh ss <-> drawn f sh.
  Proof.
    intros H. destruct (@foldM_adds _ step (fun ia s => forall sh, In sh s <-> exists q tr s' l c, agent_colors plot_color (fst ia) l c /\ trace_at t q (snd ia) tr /\ f l c tr = Some s' /\ In sh s')
      (combine (seq 0 (length (t_agents t))) (t_agents t))) as (ss & F & E).
    { intros [i a] I. apply combine_seq_In in I. destruct I as [_ I]. rewrite Nat.sub_0_r in I. destruct (H i a I) as (s & A & B). exists s. auto. }
    exists (concat ss). split; [exact E|]. intros sh. etransitivity; [refine (@Forall2_concat _ (fun ia sh => exists q tr s' l c, agent_colors plot_color (fst ia) l c /\ trace_at t q (snd ia) tr /\ f l c tr = Some s' /\ In sh s') _ _ F sh)|]. unfold drawn. split.
    - intros ([i a] & I & q & tr & s' & l & c & X). apply combine_seq_In in I. destruct I as [_ I]. rewrite Nat.sub_0_r in I. cbn [fst snd] in X. exists i, a, q, tr, s', l, c. tauto.
    - intros (i & a & q & tr & s' & l & c & I & X). exists (i, a). split; [apply combine_seq_In; rewrite Nat.sub_0_r; split; [lia|exact I]|]. exists q, tr, s', l, c. exact X.
  Qed.

  Lemma single_ok f i a : nth_error (t_agents t) i = Some a -> (forall q b tr l c, trace_at t q b tr -> f l c tr <> None) ->
    exists c line fill s, scheme_of i = Some c /\ shade plot_color c 0 = Some line /\ shade plot_color c 1 = Some fill /\
      each_node (t_root t) a (f line fill) = Some s /\
      forall sh, In sh s <-> exists q tr s' l c, agent_colors plot_color i l c /\ trace_at t q a tr /\ f l c tr = Some s' /\ In sh s'.
  Proof.
    intros I Hf. assert (Li : i < length (t_agents t)) by (apply nth_error_Some; congruence). destruct (shade_ok En Li) as (c & line & fill & E1 & E2 & E3 & Ac).
    destruct (@each_node_spec (t_root t) a (f line fill)) as (s & Es & S).
    { intros q n Q. destruct (@complete_trace t x_dim y_dim q n a C Q) as [tr D]; [eapply nth_error_In; exact I|]. exists tr. split; [exact D|]. apply (Hf q a). exists n. auto. }
    exists c, line, fill, s. repeat (split; [assumption|]). intros sh. rewrite S. split.
    - intros (q & n & tr & s' & Q & D & E & X). exists q, tr, s', line, fill. split; [exact Ac|]. split; [exists n; auto|auto].
    - intros (q & tr & s' & l & c' & Ac' & (n & Q & D) & E & X). destruct (agent_colors_fun Ac Ac') as [<- <-]. exists q, n, tr, s'. auto.
  Qed.

  Lemma reachtube_fig lanes fig comb : (forall q a tr l c, trace_at t q a tr -> tube_shapes x_dim y_dim l c comb tr <> None) ->
    exists fig' s l, reachtube_tree t lanes fig x_dim y_dim scale labels 1 comb plot_color = Some (t, fig') /\
      (forall sh, In sh (f_shapes fig') <-> In sh (f_shapes fig) \/ In sh lanes \/ drawn (fun l c => tube_shapes x_dim y_dim l c comb) sh \/ In sh (a_new s)) /\
      (scale = true -> f_x fig' = widen (fst (a_lo s)) (fst (a_hi s)) /\ f_y fig' = widen (snd (a_lo s)) (snd (a_hi s))) /\
      known t x_dim y_dim labels true l s /\ (forall n kv, In (n, kv) l <-> (exists q, at_path (t_root t) q = Some n) /\ In kv (p_trace (content n))).
  Proof.
    intros Hf. unfold reachtube_tree. rewrite sample_trace_1. cbn [obind]. destruct (num_dim_ok C) as (d & -> & Cd). cbn [obind]. rewrite Cd. cbn [obind].
    destruct (@agents_fold (fun f ia => do c <- scheme_of (fst ia); reachtube_tree_single (t_root t) (snd ia) x_dim y_dim c comb plot_color f) (fun l c => tube_shapes x_dim y_dim l c comb)) as (ss & E & S).
    { intros i a I. destruct (@single_ok (fun l c => tube_shapes x_dim y_dim l c comb) i a I Hf) as (c & line & fill & s & E1 & E2 & E3 & E4 & S).
      exists s. split; [|exact S]. intros g. cbn [fst snd]. rewrite E1. cbn [obind]. unfold reachtube_tree_single. rewrite E3, E2. cbn [obind]. rewrite E4. reflexivity. }
    rewrite E. cbn [obind]. destruct (@marks_ok t x_dim y_dim labels true plot_color C Nm En) as (s & l & -> & K & L). cbn [obind].
    eexists. exists s, l. split; [reflexivity|]. split; [|split; [|auto]].
    - intros sh. rewrite <- S. unfold scaled. destruct scale; cbn [f_shapes adds]; rewrite !in_app_iff; tauto.
    - intros ->. cbn. auto.
  Qed.

  Lemma sim_ok tr l : Forall (has_dims x_dim y_dim) tr -> tr <> [] -> exists path, sim_shapes x_dim y_dim l tr = Some (Line path l) /\ Forall2 (point_of x_dim y_dim) tr path.
  Proof.
    intros F Ne. unfold sim_shapes.
    destruct (@column_ok x_dim y_dim tr (seq 0 (length tr)) x_dim F (or_introl eq_refl)) as [xs Ex]; [intros i Hi; apply in_seq in Hi; lia|].
    destruct (@column_ok x_dim y_dim tr (seq 0 (length tr)) y_dim F (or_intror eq_refl)) as [ys Ey]; [intros i Hi; apply in_seq in Hi; lia|].
    rewrite Ex, Ey. cbn [obind]. destruct tr as [|r0 tr0] eqn:Etr; [contradiction|]. cbn [nth_error obind]. rewrite <- Etr in *. eexists. split; [reflexivity|].
    assert (Lx : length xs = length tr) by (apply mapM_length in Ex; rewrite seq_length in Ex; exact Ex). assert (Ly : length ys = length tr) by (apply mapM_length in Ey; rewrite seq_length in Ey; exact Ey).
    assert (Px : forall i r, nth_error tr i = Some r -> nth_error r x_dim = nth_error xs i).
    { intros i r R. rewrite Forall_forall in F. destruct (F r (nth_error_In _ _ R)) as [A _]. destruct (nth_error r x_dim) as [v|] eqn:V; [|apply nth_error_None in V; lia]. symmetry. exact (@column_nth _ _ _ _ _ _ Ex R V). }
    assert (Py : forall i r, nth_error tr i = Some r -> nth_error r y_dim = nth_error ys i).
    { intros i r R. rewrite Forall_forall in F. destruct (F r (nth_error_In _ _ R)) as [_ A]. destruct (nth_error r y_dim) as [v|] eqn:V; [|apply nth_error_None in V; lia]. symmetry. exact (@column_nth _ _ _ _ _ _ Ey R V). }
    clear - Lx Ly Px Py. revert xs ys Lx Ly Px Py. induction tr as [|r tr IH]; intros [|x xs] [|y ys] Lx Ly Px Py; try discriminate; cbn [zip]; constructor.
    - split; cbn [fst snd]; [exact (Px 0 r eq_refl)|exact (Py 0 r eq_refl)].
    - apply IH; cbn in *; try lia; intros i r' R; [exact (Px (S i) r' R)|exact (Py (S i) r' R)].
  Qed.

  (** Lines of an agent: one for every node, in breadth-first order. *)
  Definition sim_row (i : nat) (sh : shape) (a : word) : Prop :=
    exists q tr path l, trace_at t q a tr /\ Forall2 (point_of x_dim y_dim) tr path /\ sh = Line path l /\
      exists row, nth_error plot_color (i mod num_theme) = Some row /\ In l row.
  Hypothesis Five : forall i row, i < length (t_agents t) -> nth_error plot_color (i mod num_theme) = Some row -> 5 <= length row.

  Lemma sim_single_ok i a : nth_error (t_agents t) i = Some a ->
    exists c s, scheme_of i = Some c /\ (forall g, simulation_tree_single (t_root t) a x_dim y_dim c plot_color g = Some (adds s g)) /\
      (forall sh, In sh s -> sim_row i sh a) /\
      (forall q tr path, trace_at t q a tr -> Forall2 (point_of x_dim y_dim) tr path -> exists l, In (Line path l) s).
  Proof.
    intros I. assert (Li : i < length (t_agents t)) by (apply nth_error_Some; congruence). assert (Ia : In a (t_agents t)) by (eapply nth_error_In; exact I).
    destruct (scheme_index i) as (c & Ec & Dc).
    destruct (En (i := i mod num_theme)) as (row & Er & _); [pose proof (Nat.mod_le i num_theme ltac:(discriminate)); lia|apply Nat.mod_upper_bound; discriminate|].
    pose proof (@Five i row Li Er) as Lr. pose proof C as [_ C'].
    assert (Sh : forall k, k < 5 -> exists l, shade plot_color c k = Some l /\ In l row).
    { intros k Hk. unfold shade. rewrite Dc. cbn [obind]. rewrite Er. cbn [obind]. destruct (nth_error row k) as [l|] eqn:E; [|apply nth_error_None in E; lia]. exists l. split; [reflexivity|]. eapply nth_error_In; exact E. }
    exists c. unfold simulation_tree_single. destruct (nodes_In (t_root t)) as (ns & -> & N). cbn [obind].
    set (go := fix go l color_id := match l with [] => Some [] | n :: l' => match dget word_eqb a (p_trace (content n)) with None => Some [] | Some tr => do c0 <- shade plot_color c color_id; do s <- sim_shapes x_dim y_dim c0 tr; do r <- go l' ((color_id + 4) mod 5); Some (s :: r) end end).
    assert (G : forall l k, (forall n, In n l -> In n ns) -> k < 5 -> exists s, go l k = Some s /\
      (forall sh, In sh s -> sim_row i sh a) /\ forall n tr path, In n l -> dget word_eqb a (p_trace (content n)) = Some tr -> Forall2 (point_of x_dim y_dim) tr path -> exists l0, In (Line path l0) s).
    { induction l as [|n l IH]; intros k Hl Hk.
      - exists []. split; [reflexivity|]. split; [intros sh []|intros n tr path []].
      - destruct (IH ((k + 4) mod 5)) as (s & Es & S1 & S2); [intros m Hm; apply Hl; right; exact Hm|apply Nat.mod_upper_bound; discriminate|].
        destruct (proj1 (N n)) as [q Q]; [apply Hl; left; reflexivity|]. destruct (@complete_trace t x_dim y_dim q n a C Q Ia) as [tr D].
        destruct (C' q n Q) as (_ & _ & T). destruct (T a tr D) as [Ne F]. destruct (Sh k Hk) as (l0 & E0 & I0). destruct (sim_ok l0 F Ne) as (path & Ep & Fp).
        exists (Line path l0 :: s). cbn [go]. rewrite D, E0. cbn [obind]. rewrite Ep. cbn [obind]. fold go. rewrite Es. cbn [obind]. split; [reflexivity|]. split.
        + intros sh [<-|H]; [|apply S1; exact H]. exists q, tr, path, l0. split; [exists n; auto|]. split; [exact Fp|]. split; [reflexivity|]. exists row. auto.
        + intros m tr' path' [<-|H] D' F'.
          * rewrite D in D'. injection D' as <-. assert (path' = path) as ->; [|exists l0; left; reflexivity]. clear - Fp F'. revert path' F'. induction Fp as [|r p tr path [A B] _ IH]; intros path' F'; inversion F' as [|? p' ? path2 [A' B'] F2]; subst; [reflexivity|].
            f_equal; [destruct p, p'; cbn in *; congruence|apply IH; exact F2].
          * destruct (S2 m tr' path' H D' F') as [l1 X]. exists l1. right. exact X. }
    destruct (G ns 0 (fun n i => i) ltac:(lia)) as (s & Es & S1 & S2). exists s. split; [exact Ec|]. split; [intros g; rewrite Es; reflexivity|]. split; [exact S1|].
    intros q tr path (n & Q & D) Fp. apply (S2 n tr path); [apply N; eauto|exact D|exact Fp].
  Qed.

  Lemma simulation_fig lanes fig :
    exists fig' s l ss, simulation_tree t lanes fig x_dim y_dim scale labels 1 plot_color = Some (t, fig') /\
      (forall sh, In sh (f_shapes fig') <-> In sh (f_shapes fig) \/ In sh lanes \/ In sh ss \/ In sh (a_new s)) /\
      (forall sh, In sh ss -> exists i a, nth_error (t_agents t) i = Some a /\ sim_row i sh a) /\
      (forall i a q tr path, nth_error (t_agents t) i = Some a -> trace_at t q a tr -> Forall2 (point_of x_dim y_dim) tr path -> exists l, In (Line path l) ss) /\
      (scale = true -> f_x fig' = widen (fst (a_lo s)) (fst (a_hi s)) /\ f_y fig' = widen (snd (a_lo s)) (snd (a_hi s))) /\
      known t x_dim y_dim labels false l s /\ (forall n kv, In (n, kv) l <-> (exists q, at_path (t_root t) q = Some n) /\ In kv (p_trace (content n))).
  Proof.
    unfold simulation_tree. rewrite sample_trace_1. cbn [obind]. destruct (num_dim_ok C) as (d & -> & Cd). cbn [obind]. rewrite Cd. cbn [obind].
    destruct (@foldM_adds _ (fun f ia => do c <- scheme_of (fst ia); simulation_tree_single (t_root t) (snd ia) x_dim y_dim c plot_color f)
      (fun ia s => (forall sh, In sh s -> sim_row (fst ia) sh (snd ia)) /\ forall q tr path, trace_at t q (snd ia) tr -> Forall2 (point_of x_dim y_dim) tr path -> exists l, In (Line path l) s)
      (combine (seq 0 (length (t_agents t))) (t_agents t))) as (ss & F & E).
    { intros [i a] I. apply combine_seq_In in I. destruct I as [_ I]. rewrite Nat.sub_0_r in I. destruct (sim_single_ok i I) as (c & s & E1 & E2 & A & B). exists s. cbn [fst snd]. split; [auto|]. intros f. rewrite E1. apply E2. }
    rewrite E. cbn [obind].
    assert (En' : enough colors (length (t_agents t))). { intros i _ Hi. unfold num_theme, colors in Hi. cbn in Hi. do 9 (destruct i as [|i]; [eexists; split; [reflexivity|cbn; lia]|]). lia. }
    destruct (@marks_ok t x_dim y_dim labels false colors C Nm En') as (s & l & -> & K & L). cbn [obind].
    eexists. exists s, l, (concat ss). split; [reflexivity|]. split; [|split; [|split; [|split; [|auto]]]].
    - intros sh. unfold scaled. destruct scale; cbn [f_shapes adds]; rewrite !in_app_iff; tauto.
    - intros sh H. apply in_concat in H. destruct H as (s' & I' & I2). apply In_nth_error in I'. destruct I' as [k Hk]. destruct (@Forall2_nth_r _ _ _ _ _ k _ F Hk) as ([i a] & Hi & A & _).
      apply nth_error_In in Hi. apply combine_seq_In in Hi. destruct Hi as [_ Hi]. rewrite Nat.sub_0_r in Hi. exists i, a. split; [exact Hi|]. apply A. exact I2.
    - intros i a q tr path Hi Ht Fp. assert (In (i, a) (combine (seq 0 (length (t_agents t))) (t_agents t))) as I by (apply combine_seq_In; rewrite Nat.sub_0_r; split; [lia|exact Hi]).
      apply In_nth_error in I. destruct I as [k Hk]. destruct (@Forall2_nth_l _ _ _ _ _ k _ F Hk) as (s' & Hs & _ & B). destruct (B q tr path Ht Fp) as [l0 X]. exists l0. apply in_concat. exists s'. split; [eapply nth_error_In; exact Hs|exact X].
    - intros ->. cbn. auto.
  Qed.
End Fig.
