(** C102: sampling, and the simulation plot.  C103: slices of tubes. *)
From Coq Require Import Ascii String Lqa.
From Verif Require Import Base BaseFacts Dict PyText Guard Tree TreeSpec TreeProofs TreeProps ResetProofs Plot PlotSpec PlotGeom PlotProofs PlotMain PlotProps PlotSlice.
Set Implicit Arguments.
Import Example_tubes.
Open Scope nat_scope.

Section Sim.
  Variables (t : ptree) (lanes : list shape) (fig : figure) (x_dim y_dim : nat) (scale labels : bool) (plot_color : list (list word)).
  Hypothesis C : complete t x_dim y_dim.
  Hypothesis Nm : labels = true -> named t.
  Hypothesis En : enough plot_color (length (t_agents t)).
  Hypothesis Five : forall i row, i < length (t_agents t) -> nth_error plot_color (i mod num_theme) = Some row -> 5 <= length row.
  Hypothesis Ln : only_lanes lanes.

  (** C102.  Plotting a simulation with any positive sampling rate succeeds.  Every node gives one line for every agent, through
      the sampled states of that node in order and no others, in a shade of the agent; nothing else is drawn as a line.  With and
      without labels, each violation is marked, at the last sampled state of its node, and there are no other marks. *)
  Theorem C102_lines k : 0 < k ->
    exists t' fig', simulation_tree t lanes fig x_dim y_dim scale labels k plot_color = Some (t', fig') /\ sampled k t t' /\
      (forall path l, In (Line path l) (f_shapes fig') -> In (Line path l) (f_shapes fig) \/
         exists i a q tr tr' row, nth_error (t_agents t) i = Some a /\ trace_at t q a tr /\ every k tr tr' /\ Forall2 (point_of x_dim y_dim) tr' path /\
           nth_error plot_color (i mod num_theme) = Some row /\ In l row) /\
      (forall q a tr, In a (t_agents t) -> trace_at t q a tr ->
         exists tr' path l, every k tr tr' /\ Forall2 (point_of x_dim y_dim) tr' path /\ In (Line path l) (f_shapes fig')) /\
      (forall p txs, In (Hit p txs) (f_shapes fig') <-> In (Hit p txs) (f_shapes fig) \/
         exists q a tr tr' r texts, trace_at t q a tr /\ every k tr tr' /\ violated t q a texts /\ last_row tr' r /\ point_of x_dim y_dim r p /\ txs = map hit_text texts) /\
      (forall path l c, In (Filled path l c) (f_shapes fig') -> In (Filled path l c) (f_shapes fig)).
  Proof.
    intros Hk. destruct (sampled_ok t Hk) as (t' & Et & S). pose proof S as (Ag & _). pose proof (sampled_complete Hk S C) as C'.
    assert (En' : enough plot_color (length (t_agents t'))) by (rewrite Ag; exact En).
    assert (Five' : forall i row, i < length (t_agents t') -> nth_error plot_color (i mod num_theme) = Some row -> 5 <= length row) by (rewrite Ag; exact Five).
    destruct (@simulation_fig t' x_dim y_dim labels scale plot_color C' (fun H => sampled_named S (Nm H)) En' Five' lanes fig) as (fig' & s & l & ss & E & Sh & S1 & S2 & _ & K & L).
    exists t', fig'. split. { unfold simulation_tree in *. rewrite sample_trace_1 in E. rewrite Et. exact E. }
    split; [exact S|]. destruct (known_facts C' K L) as (_ & Sn & Ht & _).
    assert (Ns : forall sh, In sh ss -> exists path c, sh = Line path c). { intros sh H. destruct (S1 sh H) as (i & a & _ & q & tr & path & c & _ & _ & -> & _). eauto. }
    split; [|split; [|split]].
    - intros path c H. apply Sh in H. destruct H as [H|[H|[H|H]]]; [auto|destruct (Ln _ H); discriminate| |destruct (Sn _ H) as [(? & ? & ? & [=])|(? & ? & [=])]].
      right. destruct (S1 _ H) as (i & a & Hi & q & tr' & path' & c' & Tr & Fp & [= -> ->] & row & R & I). destruct (sampled_trace S q a) as [_ Bk]. destruct (Bk tr' Tr) as (tr & Tt & Ev).
      exists i, a, q, tr, tr', row. rewrite Ag in Hi. auto 10.
    - intros q a tr Ia Tr. destruct (sampled_trace S q a) as [Fw _]. destruct (Fw tr Tr) as (tr' & Tr' & Ev). rewrite <- Ag in Ia. destruct (In_nth_error _ _ Ia) as [i Hi].
      assert (Fp : exists path, Forall2 (point_of x_dim y_dim) tr' path).
      { destruct Tr' as (n & Q & D). destruct C' as [_ C2]. destruct (C2 q n Q) as (_ & _ & T). destruct (T a tr' D) as [Ne F]. destruct (@sim_ok x_dim y_dim tr' [] F Ne) as (path & _ & X). eauto. }
      destruct Fp as [path Fp]. destruct (S2 i a q tr' path Hi Tr' Fp) as [c X]. exists tr', path, c. split; [exact Ev|]. split; [exact Fp|]. apply Sh. auto.
    - intros p txs. rewrite Sh, Ht. split.
      + intros [H|[H|[H|[_ (q & a & tr' & r & texts & Tr & V & X)]]]]; [auto|destruct (Ln _ H); discriminate|destruct (Ns _ H) as (? & ? & [=])|]. right.
        destruct (sampled_trace S q a) as [_ Bk]. destruct (Bk tr' Tr) as (tr & Tt & Ev). exists q, a, tr, tr', r, texts. split; [exact Tt|]. split; [exact Ev|]. split; [apply (sampled_violated q a texts S); exact V|exact X].
      + intros [H|(q & a & tr & tr' & r & texts & Tr & Ev & V & Lr & X)]; [auto|]. right. right. right. split; [discriminate|].
        destruct (sampled_trace S q a) as [Fw _]. destruct (Fw tr Tr) as (tr2 & Tr2 & Ev2). assert (tr2 = tr') as ->.
        { apply nth_eq. intros j. rewrite (Ev j). apply Ev2. }
        exists q, a, tr', r, texts. split; [exact Tr2|]. split; [apply (sampled_violated q a texts S); exact V|]. split; [exact Lr|exact X].
    - intros path c d H. apply Sh in H. destruct H as [H|[H|[H|H]]]; [exact H|destruct (Ln _ H); discriminate|destruct (Ns _ H) as (? & ? & [=])|destruct (Sn _ H) as [(? & ? & ? & [=])|(? & ? & [=])]].
  Qed.

  (** C102.  With the default rate the tree is left as it was, and with [scale_type="trace"] every state lies within the ranges
      of the axes. *)
  Theorem C102_unchanged : exists fig', simulation_tree t lanes fig x_dim y_dim scale labels 1 plot_color = Some (t, fig') /\
    (scale = true -> forall q a tr r p, trace_at t q a tr -> In r tr -> point_of x_dim y_dim r p -> in_range (f_x fig') (fst p) /\ in_range (f_y fig') (snd p)).
  Proof.
    destruct (@simulation_fig t x_dim y_dim labels scale plot_color C Nm En Five lanes fig) as (fig' & s & l & ss & E & Sh & S1 & S2 & R & K & L).
    exists fig'. split; [exact E|]. intros Hs q a tr r p Ht Ir Hp. destruct (R Hs) as [-> ->]. destruct (known_facts C K L) as (Rg & _). exact (Rg q a tr r Ht Ir p Hp).
  Qed.
End Sim.

Module Example_sim.
  (** The simulated version of the two cars, with three states in the first node. *)
  Definition s_leaf : tree pnode := Node (mkp [(name_a, [[2; 4; 0]; [3; 6; 0]]%Q); (name_b, [[2; 5; 3]; [3; 6; 4]]%Q)] [(name_a, [w "Brake"]); (name_b, [w "Normal"])] (Some [(name_a, [w "unsafe"])])) [].
  Definition s_root : tree pnode := Node (mkp [(name_a, [[0; 0; 0]; [1; 2; 0]; [2; 4; 0]]%Q); (name_b, [[0; 1; 3]; [1; 2; 4]; [2; 5; 3]]%Q)] [(name_a, [w "Normal"]); (name_b, [w "Normal"])] None) [s_leaf].
  Definition sims : ptree := mkt [name_a; name_b] SimTrace s_root.
  Example fine : complete sims 1 2 /\ named sims /\ (forall i row, i < length (t_agents sims) -> nth_error colors (i mod num_theme) = Some row -> 5 <= length row).
  Proof.
    assert (P : forall q n, at_path s_root q = Some n -> n = s_root \/ n = s_leaf).
    { intros [|[|i] q] n; cbn; [intros [= <-]; auto| |destruct i; discriminate]. destruct q as [|[|i] q]; cbn; [intros [= <-]; auto|discriminate..]. }
    split; [|split].
    - split; [discriminate|]. intros q n Q. specialize (P q n Q). split; [|split].
      + destruct P as [-> | ->]; repeat constructor; cbn; intuition discriminate.
      + intros a. destruct P as [-> | ->]; cbn; tauto.
      + intros a tr D. apply dget_In in D; [|exact word_eqb_eq]. destruct P as [-> | ->]; cbn in D; destruct D as [[= <- <-]|[[= <- <-]|[]]]; (split; [discriminate|repeat constructor; cbn; lia]).
    - intros q n a Q Ia. cbn in Ia. destruct (P q n Q) as [-> | ->], Ia as [<-|[<-|[]]]; eexists; (split; [reflexivity|discriminate]).
    - intros i row Li. cbn in Li. destruct i as [|[|i]]; [| |lia]; cbn; intros [= <-]; cbn; lia.
  Qed.
  Example six : exists fig', simulation_tree sims [] blank 1 2 true true 1 colors = Some (sims, fig') /\ length (f_shapes fig') = 8.
  Proof. eexists. split; vm_compute; reflexivity. Qed.
End Example_sim.
Import Example_sim.

(** What C102 does not say.  Plotting with a rate above 1 changes the tree of the caller. *)
Theorem C102_changed_refuted : exists t' fig', simulation_tree sims [] blank 1 2 true false 2 colors = Some (t', fig') /\ t' <> sims /\
  exists tr r, trace_at sims [] name_a tr /\ In r tr /\ forall tr', trace_at t' [] name_a tr' -> ~ In r tr'.
Proof.
  eexists. eexists. split; [vm_compute; reflexivity|]. split; [discriminate|]. exists [[0; 0; 0]; [1; 2; 0]; [2; 4; 0]]%Q, [1; 2; 0]%Q. split; [eexists; split; reflexivity|]. split; [cbn; auto|].
  intros tr' (n & Q & D) H. injection Q as <-. vm_compute in D. injection D as <-. cbn in H. intuition discriminate.
Qed.
(** The mark of a violation is not at the end of the node then. *)
Theorem C102_hit_refuted : exists t' fig' tr r p, simulation_tree sims [] blank 1 2 true false 2 colors = Some (t', fig') /\
  trace_at sims [0] name_a tr /\ violated sims [0] name_a [w "unsafe"] /\ last_row tr r /\ point_of 1 2 r p /\ forall txs, ~ In (Hit p txs) (f_shapes fig').
Proof.
  eexists. eexists. exists [[2; 4; 0]; [3; 6; 0]]%Q, [3; 6; 0]%Q, (6, 0)%Q. split; [vm_compute; reflexivity|]. split; [eexists; split; reflexivity|]. split; [eexists; eexists; split; [reflexivity|split; reflexivity]|].
  split; [reflexivity|]. split; [split; reflexivity|]. intros txs H. cbn in H. repeat (destruct H as [H|H]; [discriminate|]). destruct H.
Qed.
(** A tube is never recognised as one by the sampling: with a rate of 2 only the lower corners of its boxes are kept, and the
    boxes between them are drawn. *)
Theorem C102_tube_refuted : exists tr t' fig', boxed (one tr) 1 2 /\ reachtube_tree (one tr) [] blank 1 2 true false 2 (Some 1) colors = Some (t', fig') /\
  (exists p, reached (one tr) 1 2 name_a p /\ ~ shown fig' p) /\ (exists p, shown fig' p /\ ~ reached (one tr) 1 2 name_a p).
Proof.
  exists [[0; 0; 0]; [1; 1; 1]; [1; 4; 4]; [2; 5; 5]; [2; 8; 8]; [3; 9; 9]; [3; 12; 12]; [4; 13; 13]]%Q. eexists. eexists. split; [|split; [vm_compute; reflexivity|split]].
  - intros q a tr Ht. apply one_trace in Ht. destruct Ht as (-> & -> & ->). split; [exists 4; reflexivity|]. intros j lo hi x0 x1 y0 y1 B X0 X1 Y0 Y1. pose proof (box_index B) as J. cbn [length] in J. destruct B as [A B].
    destruct j as [|[|[|[|j]]]]; [| | | |lia]; cbn in A, B; injection A as <-; injection B as <-; cbn in X0, X1, Y0, Y1; injection X0 as <-; injection X1 as <-; injection Y0 as <-; injection Y1 as <-; unfold Qle; cbn; lia.
  - exists (13, 13)%Q. split.
    + exists []. eexists. exists 3. eexists. eexists. split; [eexists; split; [reflexivity|reflexivity]|]. split; [split; reflexivity|]. do 4 eexists. do 4 (split; [reflexivity|]). unfold Qle; cbn; lia.
    + intros (path & l & c & H & F). revert F. apply outside_ok. cbn in H. destruct H as [E|[E|[]]]; injection E as <- _ _; vm_compute; reflexivity.
  - exists (0, 4)%Q. split.
    + eexists. eexists. eexists. split; [left; reflexivity|]. left. apply Exists_exists. eexists. split; [right; right; right; left; reflexivity|]. exists 0%Q. repeat split; unfold Qle, Qeq; cbn; lia.
    + intros (q & tr & j & lo & hi & Ht & B & x0 & x1 & y0 & y1 & X0 & X1 & Y0 & Y1 & L). apply one_trace in Ht. destruct Ht as (_ & _ & ->). pose proof (box_index B) as J. cbn [length] in J. destruct B as [A B].
      destruct j as [|[|[|[|j]]]]; [| | | |lia]; cbn in A, B; injection A as <-; injection B as <-; cbn in X0, X1, Y0, Y1; injection X0 as <-; injection X1 as <-; injection Y0 as <-; injection Y1 as <-; cbn [fst snd] in L; unfold Qle in L; cbn in L; lia.
Qed.

Section Slices.
  Variables (t : ptree) (lanes : list shape) (fig : figure) (x_dim y_dim : nat) (scale labels : bool) (plot_color : list (list word)) (lower upper : option Q).
  Hypothesis C : complete t x_dim y_dim.
  Hypothesis Nm : labels = true -> named t.
  Hypothesis En : enough plot_color (length (t_agents t)).
  Hypothesis Bx : boxed t x_dim y_dim.
  Hypothesis Ln : only_lanes lanes.

  (** C103.  Plotting a slice fills exactly the boxes that lie in the interval of time, from 0 on if no lower bound is given. *)
  Theorem C103_slice k : k <= 1 -> (forall q a tr, trace_at t q a tr -> varies tr x_dim y_dim /\ timed tr) ->
    exists fig', reachtube_tree_slice t lanes fig x_dim y_dim scale labels 1 (Some k) plot_color lower upper = Some (t, fig') /\
      forall p, shown fig' p <-> shown fig p \/
        exists a, In a (t_agents t) /\ reached_during t (match lower with None => 0%Q | Some q => q end) upper x_dim y_dim a p.
  Proof.
    intros Hk Va.
    assert (Fine : forall q a tr, trace_at t q a tr -> exists m, length tr = 2 * m /\ 0 < m /\ Forall (has_dims x_dim y_dim) tr) by exact (tube_fine C Bx Hk).
    set (low := match lower with None => 0%Q | Some q => q end).
    destruct (@slice_fig t x_dim y_dim labels scale plot_color lower upper C Nm En lanes fig (Some k)) as (fig' & s & l & E & S & K & L).
    { intros q a tr l c Ht. destruct (Fine q a tr Ht) as (m & Lm & Hm & F). destruct (@slice_default x_dim y_dim l c low upper k tr m Hk F Lm Hm (proj2 (Va q a tr Ht))) as (s & Es & _). fold low. rewrite Es. discriminate. }
    fold low in S. exists fig'. split; [exact E|]. destruct (known_facts C K L) as (_ & Sn & _). intros p. split.
    - intros (path & c & d & H & F). apply S in H. destruct H as [H|[H|[H|H]]]; [left; exists path, c, d; auto|destruct (Ln _ H); discriminate| |destruct (Sn _ H) as [(? & ? & ? & [=])|(? & ? & [=])]].
      right. destruct H as (i & a & q & tr & s' & l' & c' & I & Ac & Ht & Es & X). destruct (Fine q a tr Ht) as (m & Lm & Hm & Fd). destruct (Va q a tr Ht) as [Vr Ti].
      destruct (@slice_default x_dim y_dim l' c' low upper k tr m Hk Fd Lm Hm Ti) as (s2 & E2 & _ & B2). rewrite Es in E2. injection E2 as <-.
      apply (B2 (still_varies Vr)) in X. destruct X as (j & lo & hi & x0 & x1 & y0 & y1 & B & (lo' & hi' & t0 & t1 & [B1 B3] & T0 & T1 & Lo & Up) & X0 & X1 & Y0 & Y1 & [= -> -> ->]).
      pose proof B as [B4 B5]. rewrite B1 in B4. injection B4 as ->. rewrite B3 in B5. injection B5 as ->.
      exists a. split; [eapply nth_error_In; exact I|]. destruct (@Bx q a tr Ht) as [_ O]. destruct (O _ _ _ _ _ _ _ B X0 X1 Y0 Y1) as [Ox Oy]. apply (filled_rectangle p Ox Oy) in F.
      exists q, tr, j, lo, hi, t0, t1. repeat (split; [assumption|]). exists x0, x1, y0, y1. auto.
    - intros [(path & c & d & H & F)|(a & Ia & q & tr & j & lo & hi & t0 & t1 & Ht & B & T0 & T1 & Lo & Up & x0 & x1 & y0 & y1 & X0 & X1 & Y0 & Y1 & In_)].
      + exists path, c, d. split; [apply S; left; exact H|exact F].
      + destruct (In_nth_error _ _ Ia) as [i Hi]. assert (Li : i < length (t_agents t)) by (apply nth_error_Some; congruence).
        destruct (shade_ok En Li) as (cc & line & fill & _ & _ & _ & Ac). destruct (Fine q a tr Ht) as (m & Lm & Hm & F). destruct (Va q a tr Ht) as [Vr Ti].
        destruct (@slice_default x_dim y_dim line fill low upper k tr m Hk F Lm Hm Ti) as (s' & E' & _ & Bb).
        destruct (@Bx q a tr Ht) as [_ O]. destruct (O _ _ _ _ _ _ _ B X0 X1 Y0 Y1) as [Ox Oy].
        exists (corners x0 x1 y0 y1), line, fill. split; [|apply filled_rectangle; assumption]. apply S. right. right. left.
        exists i, a, q, tr, s', line, fill. repeat (split; [assumption|]). apply (Bb (still_varies Vr)). exists j, lo, hi, x0, x1, y0, y1. split; [exact B|]. split; [|auto 10].
        exists lo, hi, t0, t1. auto 10.
  Qed.
End Slices.

Module Example_slice.
  (** The hypotheses for the two cars of C101, with the interval from 1 to 3. *)
  Example fine_slice : forall q a tr, trace_at tubes q a tr -> varies tr 1 2 /\ timed tr.
  Proof.
    intros q a tr Ht. split; [apply Example_tubes.fine in Ht; exact Ht|]. apply traces in Ht. cbn in Ht.
    intros i j lo hi lo' hi' t1 t1' Hij B B' T1 T1'. pose proof (box_index B) as J. pose proof (box_index B') as J'. destruct B as [_ B], B' as [_ B'].
    repeat (destruct Ht as [<-|Ht]); [..|destruct Ht]; cbn [length] in J, J'; (destruct i as [|[|i]]; [| |lia]); (destruct j as [|[|j]]; [| |lia]); try lia;
      cbn in B, B'; injection B as <-; injection B' as <-; cbn in T1, T1'; injection T1 as <-; injection T1' as <-; unfold Qle; cbn; lia.
  Qed.
  Example four : exists fig', reachtube_tree_slice tubes [] blank 1 2 true false 1 (Some 1) colors (Some 1%Q) (Some 3%Q) = Some (tubes, fig') /\ length (f_shapes fig') = 4.
  Proof. eexists. split; vm_compute; reflexivity. Qed.
End Example_slice.

(** What C103 does not say.  With [combine_rect=None] the call raises an exception (an index past the last row). *)
Theorem C103_outline_refuted : reachtube_tree_slice tubes [] blank 1 2 true false 1 None colors None None = None.
Proof. vm_compute. reflexivity. Qed.
(** So does every call for a tube whose times do not decrease: no figure is ever drawn. *)
Theorem C103_outline_never_refuted : forall root a x_dim y_dim color plot_color lower upper fig q n tr m,
  at_path root q = Some n -> dget word_eqb a (p_trace (content n)) = Some tr -> length tr = 2 * m -> varies tr x_dim y_dim ->
  (forall i j ri rj ti tj, i <= j -> nth_error tr i = Some ri -> nth_error tr j = Some rj -> nth_error ri 0 = Some ti -> nth_error rj 0 = Some tj -> (ti <= tj)%Q) ->
  reachtube_tree_single_slice root a x_dim y_dim color None plot_color lower upper fig = None.
Proof.
  intros root a x_dim y_dim color plot_color lower upper fig q n tr m Q D L V Up. unfold reachtube_tree_single_slice.
  destruct (shade plot_color color 1) as [fill|]; [|reflexivity]. cbn [obind]. destruct (shade plot_color color 0) as [line|]; [|reflexivity]. cbn [obind].
  assert (FI : forall (A B : Type) (P : A -> B -> Prop) l l' x, Forall2 P l l' -> In x l -> exists y, In y l' /\ P x y).
  { intros A B P l l' x F. induction F as [|u v l l' Huv F IH]; intros Hx; [destruct Hx|]. destruct Hx as [<-|Hx]; [exists v; cbn; auto|]. destruct (IH Hx) as (y & ? & ?). exists y. cbn. auto. }
  destruct (nodes_In root) as (ns & -> & Ns). cbn [obind].
  destruct (mapM _ ns) as [ls|] eqn:Em; [|reflexivity]. exfalso.
  assert (I : In n ns) by (apply Ns; exists q; exact Q).
  apply mapM_Forall2 in Em. destruct (FI _ _ _ _ _ _ Em I) as (l & _ & El). cbv beta in El. rewrite D in El. cbn [obind] in El. revert El. unfold slice_shapes.
  pose proof (still_varies V) as St. destruct (still x_dim y_dim tr) as [[|]|]; [destruct (St eq_refl)| |discriminate]. cbn [obind]. unfold slice_outline. cbv zeta.
  assert (M : 0 < m) by (destruct V as (i & j & ri & rj & d & u & v & _ & Hi & _); lia).
  destruct (column_if lower upper tr tr x_dim (range_by 0 (length tr - 1) 2)) as [xo|] eqn:Eo; [|discriminate]. cbn [obind].
  destruct (column_if lower upper tr tr x_dim (range_by 1 (length tr - 1 + 1) 2)) as [xe|] eqn:Ee; [|discriminate]. cbn [obind].
  destruct (column_if lower upper tr tr y_dim (range_by 0 (length tr - 1) 2)) as [yo|]; [|discriminate]. cbn [obind].
  destruct (column_if lower upper tr tr y_dim (range_by 1 (length tr - 1 + 1) 2)) as [ye|]; [|discriminate]. cbn [obind].
  assert (X : xo = []); [|rewrite X; discriminate].
  unfold column_if in Eo, Ee.
  destruct (mapM _ (range_by 1 (length tr - 1 + 1) 2)) as [le|] eqn:Me; [|discriminate Ee]. apply mapM_Forall2 in Me.
  assert (Ie : In (2 * m - 1) (range_by 1 (length tr - 1 + 1) 2)) by (apply range_by_In; [lia|]; exists (m - 1); lia).
  destruct (FI _ _ _ _ _ _ Me Ie) as (c & _ & Ec). cbv beta in Ec. destruct (cell tr (2 * m - 1) 0) as [t0|] eqn:C0; [|discriminate]. cbn [obind] in Ec.
  destruct (Qle_bool lower t0) eqn:Lt.
  { unfold cell in Ec at 1. rewrite (proj2 (nth_error_None tr (2 * m - 1 + 1))) in Ec by lia. discriminate. }
  destruct (mapM _ (range_by 0 (length tr - 1) 2)) as [lo|] eqn:Mo; [|discriminate Eo]. cbn [obind] in Eo. injection Eo as <-. apply mapM_Forall2 in Mo.
  assert (A : forall idx lo, Forall2 (fun i l => (do t0 <- cell tr i 0;
      if Qle_bool lower t0 then do t1 <- cell tr (i + 1) 0; if until upper t1 then do v <- cell tr i x_dim; Some [v] else Some [] else Some []) = Some l) idx lo ->
      (forall i, In i idx -> i <= 2 * m - 1) -> concat lo = []).
  { clear -C0 Lt Up. induction 1 as [|i l idx lo Hi _ IH]; intros B; [reflexivity|]. cbn [concat]. rewrite (IH (fun j Hj => B j (or_intror Hj))).
    destruct (cell tr i 0) as [ti|] eqn:Ci; [|discriminate]. cbn [obind] in Hi.
    assert (Ti : (ti <= t0)%Q).
    { unfold cell in Ci, C0. destruct (nth_error tr i) as [ri|] eqn:Ri; [|discriminate]. destruct (nth_error tr (2 * m - 1)) as [rj|] eqn:Rj; [|discriminate]. cbn [obind] in Ci, C0. exact (Up _ _ _ _ _ _ (B i (or_introl eq_refl)) Ri Rj Ci C0). }
    destruct (Qle_bool lower ti) eqn:Li; [|injection Hi as <-; reflexivity]. apply Qle_bool_iff in Li. assert (W : (lower <= t0)%Q) by (eapply Qle_trans; eassumption). apply Qle_bool_iff in W. congruence. }
  apply (A _ _ Mo). intros i Hi. apply range_by_In in Hi; [|lia]. destruct Hi as (j & -> & Hj). lia.
Qed.
Print Assumptions C103_outline_never_refuted.
(** With groups of two, the times looked at are those of the first group for all of them: here a box of times 2 to 4 is filled in
    the slice from 0 to 2. *)
Theorem C103_group_refuted : exists tr fig', timed tr /\
  reachtube_tree_slice (one tr) [] blank 1 2 true false 1 (Some 2) colors (Some 0%Q) (Some 2%Q) = Some (one tr, fig') /\
  exists p, shown fig' p /\ ~ reached_during (one tr) 0 (Some 2%Q) 1 2 name_a p.
Proof.
  exists [[0; 0; 0]; [1; 1; 1]; [1; 1; 0]; [2; 2; 1]; [2; 2; 0]; [3; 3; 1]; [3; 3; 0]; [4; 4; 1]]%Q. eexists. split; [|split; [vm_compute; reflexivity|]].
  - intros i j lo hi lo' hi' t1 t1' Hij B B' T1 T1'. pose proof (box_index B) as J. pose proof (box_index B') as J'. destruct B as [_ B], B' as [_ B']. cbn [length] in J, J'.
    do 4 (destruct i as [|i]; [do 4 (destruct j as [|j]; [first [lia|cbn in B, B'; injection B as <-; injection B' as <-; cbn in T1, T1'; injection T1 as <-; injection T1' as <-; unfold Qle; cbn; lia]|]); lia|]). lia.
  - exists (3, 0)%Q. split.
    + eexists. eexists. eexists. split; [right; left; reflexivity|]. left. apply Exists_exists. eexists. split; [right; left; reflexivity|]. exists 0%Q. repeat split; unfold Qle, Qeq; cbn; lia.
    + intros (q & tr & j & lo & hi & t0 & t1 & Ht & B & T0 & T1 & Lo & Up & x0 & x1 & y0 & y1 & X0 & X1 & Y0 & Y1 & L). apply one_trace in Ht. destruct Ht as (_ & _ & ->). pose proof (box_index B) as J. cbn [length] in J. destruct B as [A B]. specialize (Up _ eq_refl).
      destruct j as [|[|[|[|j]]]]; [| | | |lia]; cbn in A, B; injection A as <-; injection B as <-; cbn in T0, T1, X0, X1, Y0, Y1; injection T0 as <-; injection T1 as <-; injection X0 as <-; injection X1 as <-; injection Y0 as <-; injection Y1 as <-; cbn [fst snd] in L; unfold Qle in *; cbn in *; lia.
Qed.
(** A node that looks as if it stood still is drawn in every slice. *)
Theorem C103_still_refuted : exists tr fig' p l, reachtube_tree_slice (one tr) [] blank 1 2 true false 1 (Some 1) colors (Some 5%Q) (Some 6%Q) = Some (one tr, fig') /\
  In (Dot p l) (f_shapes fig') /\ forall p, ~ reached_during (one tr) 5 (Some 6%Q) 1 2 name_a p.
Proof.
  exists [[0; 0; 0]; [1; 0; 0]]%Q. eexists. eexists. eexists. split; [vm_compute; reflexivity|]. split; [left; reflexivity|].
  intros p (q & tr & j & lo & hi & t0 & t1 & Ht & B & T0 & _ & Lo & _). apply one_trace in Ht. destruct Ht as (_ & _ & ->). pose proof (box_index B) as J. cbn [length] in J. destruct B as [A _].
  destruct j as [|j]; [|lia]. cbn in A. injection A as <-. cbn in T0. injection T0 as <-. unfold Qle in Lo. cbn in Lo. lia.
Qed.
