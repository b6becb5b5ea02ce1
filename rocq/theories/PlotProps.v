(** C101: the reach-tube plot. *)
From Coq Require Import Ascii String Lqa.
From Verif Require Import Base BaseFacts Dict PyText Guard Tree TreeSpec TreeProofs TreeProps ResetProofs Plot PlotSpec PlotGeom PlotProofs PlotMain PlotBand PlotGroup.
Set Implicit Arguments.
Open Scope nat_scope.

Section Props.
  Variables (t : ptree) (lanes : list shape) (fig : figure) (x_dim y_dim : nat) (scale labels : bool) (plot_color : list (list word)).
  (** The tree is a finished tube: every node has the boxes of every agent; with labels also its mode; there are colours
      for the agents; and what is drawn of the map are lanes. *)
  Hypothesis C : complete t x_dim y_dim.
  Hypothesis Nm : labels = true -> named t.
  Hypothesis En : enough plot_color (length (t_agents t)).
  Hypothesis Bx : boxed t x_dim y_dim.
  Hypothesis Ln : only_lanes lanes.

  Lemma tube_fine k (Hk : k <= 1) q a tr : trace_at t q a tr -> exists m, length tr = 2 * m /\ 0 < m /\ Forall (has_dims x_dim y_dim) tr.
  Proof.
    intros Ht. destruct (@Bx q a tr Ht) as [[m L] _]. destruct Ht as (n & Q & D). destruct C as [_ C']. destruct (C' q n Q) as (_ & _ & T). destruct (T a tr D) as [Ne F].
    exists m. split; [exact L|]. split; [|exact F]. destruct tr; [contradiction|cbn in L; lia].
  Qed.
  Lemma in_agents q a tr : trace_at t q a tr -> In a (t_agents t).
  Proof.
    intros (n & Q & D). destruct C as [_ C']. destruct (C' q n Q) as (_ & A & _). apply A. apply dget_In in D; [|exact word_eqb_eq]. apply in_map_iff. exists (a, tr). auto.
  Qed.
  Lemma plotted k (Hk : k <= 1) : exists fig' s l, reachtube_tree t lanes fig x_dim y_dim scale labels 1 (Some k) plot_color = Some (t, fig') /\
      (forall sh, In sh (f_shapes fig') <-> In sh (f_shapes fig) \/ In sh lanes \/ drawn t plot_color (fun l c => tube_shapes x_dim y_dim l c (Some k)) sh \/ In sh (a_new s)) /\
      (scale = true -> f_x fig' = widen (fst (a_lo s)) (fst (a_hi s)) /\ f_y fig' = widen (snd (a_lo s)) (snd (a_hi s))) /\
      known t x_dim y_dim labels true l s /\ (forall n kv, In (n, kv) l <-> (exists q, at_path (t_root t) q = Some n) /\ In kv (p_trace (content n))).
  Proof.
    apply (reachtube_fig scale C Nm En). intros q a tr l c Ht. destruct (tube_fine Hk Ht) as (m & L & Hm & F). destruct (@tube_default x_dim y_dim l c k tr m Hk F L Hm) as (s & -> & _). discriminate.
  Qed.

  Lemma tube_shape k (Hk : k <= 1) sh : drawn t plot_color (fun l c => tube_shapes x_dim y_dim l c (Some k)) sh ->
    exists i a q tr l c, nth_error (t_agents t) i = Some a /\ agent_colors plot_color i l c /\ trace_at t q a tr /\
      ((exists r p, nth_error tr 0 = Some r /\ point_of x_dim y_dim r p /\ sh = Dot p l) \/
       exists j lo hi x0 x1 y0 y1, box_at tr j lo hi /\
         nth_error lo x_dim = Some x0 /\ nth_error hi x_dim = Some x1 /\ nth_error lo y_dim = Some y0 /\ nth_error hi y_dim = Some y1 /\ sh = Filled (corners x0 x1 y0 y1) l c).
  Proof.
    intros (i & a & q & tr & s & l & c & I & Ac & Ht & Es & X). destruct (tube_fine Hk Ht) as (m & L & Hm & F). destruct (@tube_default x_dim y_dim l c k tr m Hk F L Hm) as (s' & E' & A & B).
    rewrite Es in E'. injection E' as <-. exists i, a, q, tr, l, c. split; [exact I|]. split; [exact Ac|]. split; [exact Ht|].
    destruct (@still_ok x_dim y_dim tr F) as [[|] Est].
    - left. destruct (A Est) as (r & p & R & P & ->). destruct X as [<-|[]]. exists r, p. auto.
    - right. apply (B ltac:(congruence)). exact X.
  Qed.
  Lemma no_fill s l path c d : known t x_dim y_dim labels true l s -> (forall n kv, In (n, kv) l <-> (exists q, at_path (t_root t) q = Some n) /\ In kv (p_trace (content n))) ->
    In (Filled path c d) lanes \/ In (Filled path c d) (a_new s) -> False.
  Proof.
    intros K L [H|H]; [destruct (Ln _ H); discriminate|]. destruct (known_facts C K L) as (_ & S & _). destruct (S _ H) as [(p & tx & c' & E)|(p & txs & E)]; discriminate.
  Qed.

  (** C101.  With the default sampling and grouping, plotting into any figure succeeds, leaves the tree as it was, and
      the points filled are those filled before and the projections of the states of the tubes, provided no node looks as if
      it stood still. *)
  Theorem C101_tube k : k <= 1 -> (forall q a tr, trace_at t q a tr -> varies tr x_dim y_dim) ->
    exists fig', reachtube_tree t lanes fig x_dim y_dim scale labels 1 (Some k) plot_color = Some (t, fig') /\
      forall p, shown fig' p <-> shown fig p \/ exists a, In a (t_agents t) /\ reached t x_dim y_dim a p.
  Proof.
    intros Hk Va. destruct (plotted Hk) as (fig' & s & l & E & S & _ & K & L). exists fig'. split; [exact E|]. intros p. split.
    - intros (path & c & d & H & F). apply S in H. destruct H as [H|[H|[H|H]]]; [left; exists path, c, d; auto|destruct (no_fill _ _ _ K L (or_introl H))| |destruct (no_fill _ _ _ K L (or_intror H))].
      right. destruct (tube_shape Hk H) as (i & a & q & tr & l' & c' & I & _ & Ht & [(r & p' & _ & _ & [=])|(j & lo & hi & x0 & x1 & y0 & y1 & B & X0 & X1 & Y0 & Y1 & [= -> -> ->])]).
      exists a. split; [eapply nth_error_In; exact I|]. destruct (@Bx q a tr Ht) as [_ O]. destruct (O _ _ _ _ _ _ _ B X0 X1 Y0 Y1) as [Ox Oy]. apply (filled_rectangle p Ox Oy) in F.
      exists q, tr, j, lo, hi. split; [exact Ht|]. split; [exact B|]. exists x0, x1, y0, y1. auto.
    - intros [(path & c & d & H & F)|(a & Ia & q & tr & j & lo & hi & Ht & B & x0 & x1 & y0 & y1 & X0 & X1 & Y0 & Y1 & In_)].
      + exists path, c, d. split; [apply S; left; exact H|exact F].
      + destruct (In_nth_error _ _ Ia) as [i Hi]. assert (Li : i < length (t_agents t)) by (apply nth_error_Some; congruence).
        destruct (shade_ok En Li) as (cc & line & fill & _ & _ & _ & Ac). destruct (tube_fine Hk Ht) as (m & Lm & Hm & F).
        destruct (@tube_default x_dim y_dim line fill k tr m Hk F Lm Hm) as (s' & E' & _ & Bb).
        destruct (@Bx q a tr Ht) as [_ O]. destruct (O _ _ _ _ _ _ _ B X0 X1 Y0 Y1) as [Ox Oy].
        exists (corners x0 x1 y0 y1), line, fill. split; [|apply filled_rectangle; assumption]. apply S. right. right. left.
        exists i, a, q, tr, s', line, fill. repeat (split; [assumption|]). apply (Bb (still_varies (@Va q a tr Ht))). exists j, lo, hi, x0, x1, y0, y1. auto 10.
  Qed.

  (** C101.  Each agent is filled with its own shade: the points filled with a shade are those filled with it before and the
      projections of the states of the agents that have it. *)
  Theorem C101_agent k : k <= 1 -> (forall q a tr, trace_at t q a tr -> varies tr x_dim y_dim) ->
    exists fig', reachtube_tree t lanes fig x_dim y_dim scale labels 1 (Some k) plot_color = Some (t, fig') /\
      forall c p, shown_in fig' c p <-> shown_in fig c p \/
        exists i a l, nth_error (t_agents t) i = Some a /\ agent_colors plot_color i l c /\ reached t x_dim y_dim a p.
  Proof.
    intros Hk Va. destruct (plotted Hk) as (fig' & s & l & E & S & _ & K & L). exists fig'. split; [exact E|]. intros d p. split.
    - intros (path & c & H & F). apply S in H. destruct H as [H|[H|[H|H]]]; [left; exists path, c; auto|destruct (no_fill _ _ _ K L (or_introl H))| |destruct (no_fill _ _ _ K L (or_intror H))].
      right. destruct (tube_shape Hk H) as (i & a & q & tr & l' & c' & I & Ac & Ht & [(r & p' & _ & _ & [=])|(j & lo & hi & x0 & x1 & y0 & y1 & B & X0 & X1 & Y0 & Y1 & [= -> -> ->])]).
      exists i, a, l'. split; [exact I|]. split; [exact Ac|]. destruct (@Bx q a tr Ht) as [_ O]. destruct (O _ _ _ _ _ _ _ B X0 X1 Y0 Y1) as [Ox Oy]. apply (filled_rectangle p Ox Oy) in F.
      exists q, tr, j, lo, hi. split; [exact Ht|]. split; [exact B|]. exists x0, x1, y0, y1. auto.
    - intros [(path & c & H & F)|(i & a & line & Hi & Ac & q & tr & j & lo & hi & Ht & B & x0 & x1 & y0 & y1 & X0 & X1 & Y0 & Y1 & In_)].
      + exists path, c. split; [apply S; left; exact H|exact F].
      + destruct (tube_fine Hk Ht) as (m & Lm & Hm & F).
        destruct (@tube_default x_dim y_dim line d k tr m Hk F Lm Hm) as (s' & E' & _ & Bb).
        destruct (@Bx q a tr Ht) as [_ O]. destruct (O _ _ _ _ _ _ _ B X0 X1 Y0 Y1) as [Ox Oy].
        exists (corners x0 x1 y0 y1), line. split; [|apply filled_rectangle; assumption]. apply S. right. right. left.
        exists i, a, q, tr, s', line, d. repeat (split; [assumption|]). apply (Bb (still_varies (@Va q a tr Ht))). exists j, lo, hi, x0, x1, y0, y1. auto 10.
  Qed.

  (** C101.  Whatever the nodes, every point filled and every dot is new only if it is the projection of a state of a tube. *)
  Theorem C101_sound k : k <= 1 ->
    exists fig', reachtube_tree t lanes fig x_dim y_dim scale labels 1 (Some k) plot_color = Some (t, fig') /\
      (forall p, shown fig' p -> shown fig p \/ exists a, In a (t_agents t) /\ reached t x_dim y_dim a p) /\
      (forall p l, In (Dot p l) (f_shapes fig') -> In (Dot p l) (f_shapes fig) \/ exists a, In a (t_agents t) /\ reached t x_dim y_dim a p) /\
      (forall path l, In (Line path l) (f_shapes fig') -> In (Line path l) (f_shapes fig)).
  Proof.
    intros Hk. destruct (plotted Hk) as (fig' & s & l & E & S & _ & K & L). exists fig'. split; [exact E|].
    destruct (known_facts C K L) as (_ & Sn & _).
    split; [|split].
    - intros p (path & c & d & H & F). apply S in H. destruct H as [H|[H|[H|H]]]; [left; exists path, c, d; auto|destruct (no_fill _ _ _ K L (or_introl H))| |destruct (no_fill _ _ _ K L (or_intror H))].
      right. destruct (tube_shape Hk H) as (i & a & q & tr & l' & c' & I & _ & Ht & [(r & p' & _ & _ & [=])|(j & lo & hi & x0 & x1 & y0 & y1 & B & X0 & X1 & Y0 & Y1 & [= -> -> ->])]).
      exists a. split; [eapply nth_error_In; exact I|]. destruct (@Bx q a tr Ht) as [_ O]. destruct (O _ _ _ _ _ _ _ B X0 X1 Y0 Y1) as [Ox Oy]. apply (filled_rectangle p Ox Oy) in F.
      exists q, tr, j, lo, hi. split; [exact Ht|]. split; [exact B|]. exists x0, x1, y0, y1. auto.
    - intros p c H. apply S in H. destruct H as [H|[H|[H|H]]]; [auto|destruct (Ln _ H); discriminate| |destruct (Sn _ H) as [(? & ? & ? & [=])|(? & ? & [=])]].
      right. destruct (tube_shape Hk H) as (i & a & q & tr & l' & c' & I & _ & Ht & [(r & p' & R & [Px Py] & [= -> ->])|(j & lo & hi & x0 & x1 & y0 & y1 & B & X0 & X1 & Y0 & Y1 & [=])]).
      exists a. split; [eapply nth_error_In; exact I|]. destruct (tube_fine Hk Ht) as (m & Lm & Hm & F). destruct (@cell_ok x_dim y_dim tr 1 F) as (r1 & x1 & y1 & R1 & X1 & Y1 & _); [lia|].
      destruct (@Bx q a tr Ht) as [_ O]. assert (B : box_at tr 0 r r1) by (split; assumption). destruct (O _ _ _ _ _ _ _ B Px X1 Py Y1) as [Ox Oy].
      exists q, tr, 0, r, r1. split; [exact Ht|]. split; [exact B|]. exists (fst p'), x1, (snd p'), y1. repeat (split; [assumption|]). repeat split; try apply Qle_refl; assumption.
    - intros path c H. apply S in H. destruct H as [H|[H|[H|H]]]; [auto|destruct (Ln _ H); discriminate| |destruct (Sn _ H) as [(? & ? & ? & [=])|(? & ? & [=])]].
      destruct (tube_shape Hk H) as (i & a & q & tr & l' & c' & I & _ & Ht & [(r & p' & R & [Px Py] & [=])|(j & lo & hi & x0 & x1 & y0 & y1 & B & X0 & X1 & Y0 & Y1 & [=])]).
  Qed.

  (** C101.  With boxes grouped by [k], all that is reached is still filled, provided the boxes of every node move right and
      down or left and up.  Missing: what else is filled; and the claim is false for other movements (below). *)
  Theorem C101_combined_partial k : 2 <= k -> (forall q a tr, trace_at t q a tr -> varies tr x_dim y_dim /\ falling tr x_dim y_dim) ->
    exists fig', reachtube_tree t lanes fig x_dim y_dim scale labels 1 (Some k) plot_color = Some (t, fig') /\
      forall p, shown fig p \/ (exists a, In a (t_agents t) /\ reached t x_dim y_dim a p) -> shown fig' p.
  Proof.
    intros Hk Va. assert (Fine := tube_fine (k := 0) ltac:(lia)).
    destruct (@reachtube_fig t x_dim y_dim labels scale plot_color C Nm En lanes fig (Some k)) as (fig' & s & l & E & S & _).
    { intros q a tr l c Ht. destruct (Fine q a tr Ht) as (m & Lm & Hm & F). destruct (Va q a tr Ht) as [V Fa]. destruct (@Bx q a tr Ht) as [_ O].
      destruct (@grouped x_dim y_dim l c k tr m Hk F Lm Fa (still_varies V) O) as (s & -> & _). discriminate. }
    exists fig'. split; [exact E|]. intros p [(path & c & d & H & F)|(a & Ia & q & tr & j & lo & hi & Ht & B & In_)].
    - exists path, c, d. split; [apply S; left; exact H|exact F].
    - destruct (In_nth_error _ _ Ia) as [i Hi]. assert (Li : i < length (t_agents t)) by (apply nth_error_Some; congruence).
      destruct (shade_ok En Li) as (cc & line & fill & _ & _ & _ & Ac). destruct (Fine q a tr Ht) as (m & Lm & Hm & F). destruct (Va q a tr Ht) as [V Fa]. destruct (@Bx q a tr Ht) as [_ O].
      destruct (@grouped x_dim y_dim line fill k tr m Hk F Lm Fa (still_varies V) O) as (s' & Es & Cov). destruct (Cov j lo hi p B In_) as (path & I & Fp).
      exists path, line, fill. split; [|exact Fp]. apply S. right. right. left. exists i, a, q, tr, s', line, fill. auto 10.
  Qed.

  (** C101.  With [scale_type="trace"] every plotted state lies within the ranges of the axes. *)
  Theorem C101_range k : k <= 1 -> scale = true ->
    exists fig', reachtube_tree t lanes fig x_dim y_dim scale labels 1 (Some k) plot_color = Some (t, fig') /\
      forall q a tr r p, trace_at t q a tr -> In r tr -> point_of x_dim y_dim r p -> in_range (f_x fig') (fst p) /\ in_range (f_y fig') (snd p).
  Proof.
    intros Hk Hs. destruct (plotted Hk) as (fig' & s & l & E & _ & R & K & L). exists fig'. split; [exact E|]. destruct (R Hs) as [-> ->]. destruct (known_facts C K L) as (Rg & _).
    intros q a tr r p Ht Ir Hp. exact (Rg q a tr r Ht Ir p Hp).
  Qed.

  (** C101.  With labels, each violation is marked, at the last state of its node, with its texts, and there are no other
      marks; each mode an agent has in some node is written somewhere; and each label stands at the first state of a node whose
      mode it names. *)
  Theorem C101_labels k : k <= 1 -> labels = true ->
    exists fig', reachtube_tree t lanes fig x_dim y_dim scale labels 1 (Some k) plot_color = Some (t, fig') /\
      (forall p txs, In (Hit p txs) (f_shapes fig') <-> In (Hit p txs) (f_shapes fig) \/
         exists q a tr r texts, trace_at t q a tr /\ violated t q a texts /\ last_row tr r /\ point_of x_dim y_dim r p /\ txs = map hit_text texts) /\
      (forall q n a m m0, at_path (t_root t) q = Some n -> In a (t_agents t) -> dget word_eqb a (p_mode (content n)) = Some m -> nth_error m 0 = Some m0 ->
         exists p c, In (Label p (caption a m0) c) (f_shapes fig')) /\
      (forall p tx c, In (Label p tx c) (f_shapes fig') -> In (Label p tx c) (f_shapes fig) \/
         exists q n a tr r m m0, at_path (t_root t) q = Some n /\ dget word_eqb a (p_trace (content n)) = Some tr /\ nth_error tr 0 = Some r /\ point_of x_dim y_dim r p /\
           dget word_eqb a (p_mode (content n)) = Some m /\ nth_error m 0 = Some m0 /\ tx = caption a m0).
  Proof.
    intros Hk HL. destruct (plotted Hk) as (fig' & s & l & E & S & _ & K & L). exists fig'. split; [exact E|]. destruct (known_facts C K L) as (_ & _ & Ht & Lb & Lc).
    assert (Nd : forall sh, drawn t plot_color (fun l c => tube_shapes x_dim y_dim l c (Some k)) sh -> (forall p txs, sh <> Hit p txs) /\ forall p tx c, sh <> Label p tx c).
    { intros sh H. destruct (tube_shape Hk H) as (i & a & q & tr & l' & c' & I & _ & _ & [(r & p' & R & _ & ->)|(j & lo & hi & x0 & x1 & y0 & y1 & B & X0 & X1 & Y0 & Y1 & ->)]); split; discriminate. }
    split; [|split].
    - intros p txs. rewrite S. rewrite Ht. split.
      + intros [H|[H|[H|[_ H]]]]; [auto|destruct (Ln _ H); discriminate|destruct (Nd _ H) as [N _]; destruct (N _ _ eq_refl)|auto].
      + intros [H|H]; [auto|]. right. right. right. auto.
    - intros q n a m m0 Q Ia Em E0. destruct (Lc HL q n a m m0 Q Ia Em E0) as (p & c & H). exists p, c. apply S. auto.
    - intros p tx c H. apply S in H. destruct H as [H|[H|[H|H]]]; [auto|destruct (Ln _ H); discriminate|destruct (Nd _ H) as [_ N]; destruct (N _ _ _ eq_refl)|]. right. apply (Lb p tx c H).
  Qed.
End Props.

(** C101.  With the default colours and up to seven agents, the points filled with the shade of an agent in a new figure are
    exactly the projections of its states. *)
Theorem C101_default t lanes x_dim y_dim scale labels :
  complete t x_dim y_dim -> (labels = true -> named t) -> boxed t x_dim y_dim -> only_lanes lanes -> (forall q a tr, trace_at t q a tr -> varies tr x_dim y_dim) ->
  length (t_agents t) <= 7 ->
  exists fig', reachtube_tree t lanes blank x_dim y_dim scale labels 1 (Some 1) colors = Some (t, fig') /\
    forall i a row, nth_error (t_agents t) i = Some a -> nth_error colors i = Some row ->
      forall p, shown_in fig' (nth 1 row []) p <-> reached t x_dim y_dim a p.
Proof.
  intros C Nm Bx Ln Va L7.
  assert (En : enough colors (length (t_agents t))). { intros i _ Hi. unfold num_theme in Hi. cbn in Hi. do 9 (destruct i as [|i]; [eexists; split; [reflexivity|cbn; lia]|]). lia. }
  destruct (@C101_agent t lanes blank x_dim y_dim scale labels colors C Nm En Bx Ln 1 (le_n 1) Va) as (fig' & E & S). exists fig'. split; [exact E|].
  intros i a row Ha Hr p. rewrite S. assert (Li : i < 7) by (assert (i < length (t_agents t)) by (apply nth_error_Some; congruence); lia).
  split.
  - intros [(path & l & [] & _)|(i' & a' & l & Ha' & (row' & R' & _ & F') & H)]. enough (i' = i) by (subst; congruence).
    assert (Li' : i' < 7) by (assert (i' < length (t_agents t)) by (apply nth_error_Some; congruence); lia).
    rewrite Nat.mod_small in R' by (unfold num_theme; cbn; lia). clear - Hr R' F' Li Li'.
    do 7 (destruct i as [|i]; [do 7 (destruct i' as [|i']; [first [reflexivity|exfalso; cbn in Hr, R'; injection Hr as <-; injection R' as <-; cbn in F'; discriminate]|]); lia|]). lia.
  - intros H. right. exists i, a, (nth 0 row []). split; [exact Ha|]. split; [|exact H]. exists row. rewrite Nat.mod_small by (unfold num_theme; cbn; lia). split; [exact Hr|].
    clear - Hr Li. do 7 (destruct i as [|i]; [cbn in Hr; injection Hr as <-; split; reflexivity|]). lia.
Qed.

Lemma box_index tr j lo hi : box_at tr j lo hi -> 2 * j + 1 < length tr.
Proof. intros [_ H]. apply nth_error_Some. congruence. Qed.

Module Example_tubes.
  Definition name_a : word := w "car1". Definition name_b : word := w "car2".
  (** Two cars; the root has two boxes for each, its child one node of two boxes.  Rows: time, x, y. *)
  Definition leaf : tree pnode := Node (mkp [(name_a, [[2; 4; 0]; [3; 6; 1]; [3; 5; 0]; [4; 7; 1]]%Q); (name_b, [[2; 5; 3]; [3; 6; 4]; [3; 7; 3]; [4; 8; 4]]%Q)]
    [(name_a, [w "Brake"]); (name_b, [w "Normal"])] (Some [(name_a, [w "unsafe"])])) [].
  Definition root : tree pnode := Node (mkp [(name_a, [[0; 0; 0]; [1; 2; 1]; [1; 2; 0]; [2; 4; 1]]%Q); (name_b, [[0; 1; 3]; [1; 2; 4]; [1; 3; 3]; [2; 4; 4]]%Q)]
    [(name_a, [w "Normal"]); (name_b, [w "Normal"])] None) [leaf].
  Definition tubes : ptree := mkt [name_a; name_b] ReachTube root.

  Lemma paths q n : at_path root q = Some n -> n = root \/ n = leaf.
  Proof.
    destruct q as [|[|i] q]; cbn; [intros [= <-]; auto| |destruct i; discriminate].
    destruct q as [|[|i] q]; cbn; [intros [= <-]; auto|discriminate..].
  Qed.
  Lemma traces q a tr : trace_at tubes q a tr -> In tr (map snd (p_trace (content root)) ++ map snd (p_trace (content leaf))).
  Proof.
    intros (n & Q & D). apply dget_In in D; [|exact word_eqb_eq]. apply (in_map snd) in D. cbn [snd] in D. apply in_or_app. destruct (paths q Q) as [-> | ->]; auto.
  Qed.
  (** The hypotheses of the theorems of C101. *)
  Example fine : complete tubes 1 2 /\ named tubes /\ boxed tubes 1 2 /\ (forall q a tr, trace_at tubes q a tr -> varies tr 1 2) /\ length (t_agents tubes) <= 7.
  Proof.
    split; [|split; [|split; [|split]]].
    - split; [discriminate|]. intros q n Q. assert (E : n = root \/ n = leaf) by (eapply paths; exact Q). split; [|split].
      + destruct E as [-> | ->]; repeat constructor; cbn; intuition discriminate.
      + intros a. destruct E as [-> | ->]; cbn; tauto.
      + intros a tr D. apply dget_In in D; [|exact word_eqb_eq]. destruct E as [-> | ->]; cbn in D; destruct D as [[= <- <-]|[[= <- <-]|[]]]; (split; [discriminate|repeat constructor; cbn; lia]).
    - intros q n a Q Ia. cbn in Ia. destruct (paths q Q) as [-> | ->], Ia as [<-|[<-|[]]]; eexists; (split; [reflexivity|discriminate]).
    - intros q a tr Ht. apply traces in Ht. cbn in Ht. repeat (destruct Ht as [<-|Ht]); [..|destruct Ht]; (split; [exists 2; reflexivity|]);
        intros [|[|j]] lo hi x0 x1 y0 y1 B X0 X1 Y0 Y1; pose proof (box_index B) as J; cbn [length] in J; try lia; destruct B as [A B]; cbn in A, B; injection A as <-; injection B as <-; cbn in X0, X1, Y0, Y1;
        injection X0 as <-; injection X1 as <-; injection Y0 as <-; injection Y1 as <-; unfold Qle; cbn; lia.
    - intros q a tr Ht. apply traces in Ht. cbn in Ht. repeat (destruct Ht as [<-|Ht]); [..|destruct Ht];
        (exists 0, 1; eexists; eexists; exists 1; eexists; eexists; split; [auto|]; split; [cbn; lia|]; split; [cbn; lia|]; split; [reflexivity|]; split; [reflexivity|]; split; [reflexivity|]; split; [reflexivity|]; unfold Qeq; cbn; lia).
    - cbn. lia.
  Qed.
  Example plotted_eight : exists fig', reachtube_tree tubes [] blank 1 2 true true 1 (Some 1) colors = Some (tubes, fig') /\ length (f_shapes fig') = 12.
  Proof. eexists. split; vm_compute; reflexivity. Qed.
  Example hypotheses_colors : enough colors (length (t_agents tubes)).
  Proof. intros i _ Hi. unfold num_theme in Hi. cbn in Hi. do 9 (destruct i as [|i]; [eexists; split; [reflexivity|cbn; lia]|]). lia. Qed.

  (** A tree of one node. *)
  Definition one (tr : list vec) : ptree := mkt [name_a] ReachTube (Node (mkp [(name_a, tr)] [(name_a, [w "Normal"])] None) []).
  Lemma one_trace tr q a tr' : trace_at (one tr) q a tr' -> q = [] /\ a = name_a /\ tr' = tr.
  Proof.
    intros (n & Q & D). destruct q as [|[|i] q]; cbn in Q; try discriminate. injection Q as <-. apply dget_In in D; [|exact word_eqb_eq]. destruct D as [[= <- <-]|[]]. auto.
  Qed.
  Lemma one_complete tr x y : tr <> [] -> Forall (has_dims x y) tr -> complete (one tr) x y.
  Proof.
    intros Ne F. split; [discriminate|]. intros q n Q. assert (n = t_root (one tr)) as -> by (destruct q as [|[|i] q]; cbn in Q; try discriminate; injection Q as <-; reflexivity).
    cbn [t_root one content p_trace map fst t_agents]. split; [repeat constructor; intros []|]. split; [tauto|]. intros a tr' D. apply (@dget_In _ _ _ word_eqb_eq) in D. destruct D as [[= <- <-]|[]]. auto.
  Qed.
End Example_tubes.
Import Example_tubes.

(** What C101 does not say.  A node with a single box is always drawn as a dot: the test for standing still leaves out its
    second row. *)
Theorem C101_dot_refuted : exists tr fig', complete (one tr) 1 2 /\ boxed (one tr) 1 2 /\
  reachtube_tree (one tr) [] blank 1 2 true false 1 (Some 1) colors = Some (one tr, fig') /\
  reached (one tr) 1 2 name_a (1, 1)%Q /\ ~ shown fig' (1, 1)%Q.
Proof.
  exists [[0; 0; 0]; [1; 2; 2]]%Q. eexists. split; [apply one_complete; [discriminate|repeat constructor; cbn; lia]|]. split.
  - intros q a tr Ht. apply one_trace in Ht. destruct Ht as (-> & -> & ->). split; [exists 1; reflexivity|]. intros [|j] lo hi x0 x1 y0 y1 B X0 X1 Y0 Y1; pose proof (box_index B) as J; cbn [length] in J; [|lia].
    destruct B as [A B]. cbn in A, B. injection A as <-. injection B as <-. cbn in X0, X1, Y0, Y1. injection X0 as <-. injection X1 as <-. injection Y0 as <-. injection Y1 as <-. unfold Qle; cbn; lia.
  - split; [vm_compute; reflexivity|]. split.
    + exists [], [[0; 0; 0]; [1; 2; 2]]%Q, 0. eexists. eexists. split; [eexists; split; [reflexivity|reflexivity]|]. split; [split; reflexivity|]. do 4 eexists. do 4 (split; [reflexivity|]). unfold Qle; cbn; lia.
    + intros (path & l & c & [E|[]] & _). discriminate.
Qed.

(** Points not filled by a path, decided. *)
Definition clear_of (p : pt) (e : pt * pt) : bool :=
  let '((ax, ay), (bx, by_)) := e in
  (* the point is not on the line of the edge, or beyond its ends *)
  negb (Qeq_bool ((bx - ax) * (snd p - ay)) ((by_ - ay) * (fst p - ax))) || (Qle_bool ax bx && negb (Qle_bool ax (fst p) && Qle_bool (fst p) bx)) || (Qle_bool bx ax && negb (Qle_bool bx (fst p) && Qle_bool (fst p) ax))
  || (Qle_bool ay by_ && negb (Qle_bool ay (snd p) && Qle_bool (snd p) by_)) || (Qle_bool by_ ay && negb (Qle_bool by_ (snd p) && Qle_bool (snd p) ay)).
Lemma clear_of_ok p e : clear_of p e = true -> ~ on_edge p e.
Proof.
  destruct e as [[ax ay] [bx by_]], p as [px py]. unfold clear_of. cbn [fst snd]. intros H (s & S0 & S1 & X & Y). cbn [fst snd] in X, Y.
  assert (Le : forall u v, Qle_bool u v = true -> (u <= v)%Q) by (intros; apply Qle_bool_iff; assumption).
  assert (B : forall u v z, (u <= v)%Q -> (z == u + s * (v - u))%Q -> (Qle_bool u z && Qle_bool z v) = true).
  { intros u v z L E. apply andb_true_intro. split; apply Qle_bool_iff; rewrite E; nra. }
  assert (B' : forall u v z, (v <= u)%Q -> (z == u + s * (v - u))%Q -> (Qle_bool v z && Qle_bool z u) = true).
  { intros u v z L E. apply andb_true_intro. split; apply Qle_bool_iff; rewrite E; nra. }
  repeat rewrite Bool.orb_true_iff in H. rewrite !Bool.andb_true_iff in H. destruct H as [[[[H|[A H]]|[A H]]|[A H]]|[A H]]; apply Bool.negb_true_iff in H.
  - apply Qeq_bool_neq in H. apply H. rewrite X, Y. ring.
  - rewrite (B _ _ _ (Le _ _ A) X) in H. discriminate.
  - rewrite (B' _ _ _ (Le _ _ A) X) in H. discriminate.
  - rewrite (B _ _ _ (Le _ _ A) Y) in H. discriminate.
  - rewrite (B' _ _ _ (Le _ _ A) Y) in H. discriminate.
Qed.
Definition outside (path : list pt) (p : pt) : bool := forallb (clear_of p) (edges path) && (winding p path =? 0)%Z.
Lemma outside_ok path p : outside path p = true -> ~ filled path p.
Proof.
  unfold outside. intros H [E|E].
  - apply andb_prop in H. destruct H as [H _]. apply Exists_exists in E. destruct E as (e & I & O). rewrite forallb_forall in H. exact (@clear_of_ok p e (H e I) O).
  - apply andb_prop in H. destruct H as [_ H]. apply Z.eqb_eq in H. contradiction.
Qed.

(** With [combine_rect=None] the outline of a node is one path along the lower corners and back along the upper ones: with two
    boxes moving up and to the right it leaves out the corners of the boxes. *)
Theorem C101_outline_refuted : exists tr fig', complete (one tr) 1 2 /\ varies tr 1 2 /\
  reachtube_tree (one tr) [] blank 1 2 true false 1 None colors = Some (one tr, fig') /\
  reached (one tr) 1 2 name_a (0, 1)%Q /\ ~ shown fig' (0, 1)%Q.
Proof.
  exists [[0; 0; 0]; [1; 1; 1]; [1; 2; 2]; [2; 3; 3]]%Q. eexists. split; [apply one_complete; [discriminate|repeat constructor; cbn; lia]|]. split.
  - exists 0, 1. eexists. eexists. exists 1. eexists. eexists. split; [auto|]. do 2 (split; [cbn; lia|]). do 4 (split; [reflexivity|]). unfold Qeq; cbn; lia.
  - split; [vm_compute; reflexivity|]. split.
    + exists [], [[0; 0; 0]; [1; 1; 1]; [1; 2; 2]; [2; 3; 3]]%Q, 0. eexists. eexists. split; [eexists; split; [reflexivity|reflexivity]|]. split; [split; reflexivity|]. do 4 eexists. do 4 (split; [reflexivity|]). unfold Qle; cbn; lia.
    + intros (path & l & c & [E|[]] & F). injection E as <- _ _. revert F. apply outside_ok. vm_compute. reflexivity.
Qed.
(** The same with [combine_rect=2], although a corner is added at both ends. *)
Theorem C101_combined_refuted : exists tr fig', complete (one tr) 1 2 /\ varies tr 1 2 /\
  reachtube_tree (one tr) [] blank 1 2 true false 1 (Some 2) colors = Some (one tr, fig') /\
  exists p, reached (one tr) 1 2 name_a p /\ ~ shown fig' p.
Proof.
  exists [[0; 0; 0]; [1; 1; 1]; [1; 2; 2]; [2; 3; 3]]%Q. eexists. split; [apply one_complete; [discriminate|repeat constructor; cbn; lia]|]. split.
  - exists 0, 1. eexists. eexists. exists 1. eexists. eexists. split; [auto|]. do 2 (split; [cbn; lia|]). do 4 (split; [reflexivity|]). unfold Qeq; cbn; lia.
  - split; [vm_compute; reflexivity|]. exists (0, 1)%Q. split.
    + exists [], [[0; 0; 0]; [1; 1; 1]; [1; 2; 2]; [2; 3; 3]]%Q, 0. eexists. eexists. split; [eexists; split; [reflexivity|reflexivity]|]. split; [split; reflexivity|]. do 4 eexists. do 4 (split; [reflexivity|]). unfold Qle; cbn; lia.
    + intros (path & l & c & [E|[]] & F). injection E as <- _ _. revert F. apply outside_ok. vm_compute. reflexivity.
Qed.
(** And with boxes that move to the right only, the last one of each group is left out. *)
Theorem C101_level_refuted : exists tr fig', complete (one tr) 1 2 /\ varies tr 1 2 /\
  reachtube_tree (one tr) [] blank 1 2 true false 1 (Some 2) colors = Some (one tr, fig') /\
  exists p, reached (one tr) 1 2 name_a p /\ ~ shown fig' p.
Proof.
  exists [[0; 0; 0]; [1; 1; 1]; [1; 1; 0]; [2; 2; 1]]%Q. eexists. split; [apply one_complete; [discriminate|repeat constructor; cbn; lia]|]. split.
  - exists 0, 1. eexists. eexists. exists 1. eexists. eexists. split; [auto|]. do 2 (split; [cbn; lia|]). do 4 (split; [reflexivity|]). unfold Qeq; cbn; lia.
  - split; [vm_compute; reflexivity|]. exists (2, 0)%Q. split.
    + exists [], [[0; 0; 0]; [1; 1; 1]; [1; 1; 0]; [2; 2; 1]]%Q, 1. eexists. eexists. split; [eexists; split; [reflexivity|reflexivity]|]. split; [split; reflexivity|]. do 4 eexists. do 4 (split; [reflexivity|]). unfold Qle; cbn; lia.
    + intros (path & l & c & [E|[]] & F). injection E as <- _ _. revert F. apply outside_ok. vm_compute. reflexivity.
Qed.
(** The hypotheses of the grouped case are met by two boxes moving right and down. *)
Module Example_falls.
Example falls : let tr := [[0; 0; 5]; [1; 1; 7]; [1; 1; 4]; [2; 2; 6]; [2; 2; 3]; [3; 3; 5]]%Q in complete (one tr) 1 2 /\ boxed (one tr) 1 2 /\ varies tr 1 2 /\ falling tr 1 2.
Proof.
  cbn zeta. split; [apply one_complete; [discriminate|repeat constructor; cbn; lia]|]. split; [|split].
  - intros q a tr Ht. apply one_trace in Ht. destruct Ht as (-> & -> & ->). split; [exists 3; reflexivity|]. intros j lo hi x0 x1 y0 y1 B X0 X1 Y0 Y1. pose proof (box_index B) as J. cbn [length] in J. destruct B as [A B].
    destruct j as [|[|[|j]]]; [| | |lia]; cbn in A, B; injection A as <-; injection B as <-; cbn in X0, X1, Y0, Y1; injection X0 as <-; injection X1 as <-; injection Y0 as <-; injection Y1 as <-; unfold Qle; cbn; lia.
  - exists 0, 1. eexists. eexists. exists 1. eexists. eexists. split; [auto|]. do 2 (split; [cbn; lia|]). do 4 (split; [reflexivity|]). unfold Qeq; cbn; lia.
  - left. intros i j lo hi lo' hi' x0 x1 y0 y1 x0' x1' y0' y1' Hij B B' X0 X1 Y0 Y1 X0' X1' Y0' Y1'. pose proof (box_index B) as J. pose proof (box_index B') as J'. cbn [length] in J, J'. destruct B as [A B], B' as [A' B'].
    do 3 (destruct i as [|i]; [do 3 (destruct j as [|j]; [first [lia|cbn in A, B, A', B'; injection A as <-; injection B as <-; injection A' as <-; injection B' as <-; cbn in X0, X1, Y0, Y1, X0', X1', Y0', Y1'; injection X0 as <-; injection X1 as <-; injection Y0 as <-; injection Y1 as <-; injection X0' as <-; injection X1' as <-; injection Y0' as <-; injection Y1' as <-; unfold Qlt; cbn; lia]|]); lia|]). lia.
Qed.
End Example_falls.
(** Without labels, the default, no violation is marked. *)
Theorem C101_hits_refuted : exists fig' texts, reachtube_tree tubes [] blank 1 2 true false 1 (Some 1) colors = Some (tubes, fig') /\
  violated tubes [0] name_a texts /\ texts <> [] /\ forall p txs, ~ In (Hit p txs) (f_shapes fig').
Proof.
  eexists. exists [w "unsafe"]. split; [vm_compute; reflexivity|]. split; [eexists; eexists; split; [reflexivity|split; reflexivity]|]. split; [discriminate|].
  intros p txs H. cbn in H. repeat (destruct H as [H|H]; [discriminate|]). destruct H.
Qed.
(** Without a figure, two calls draw into the same one: the second result also shows the first tree. *)
Theorem C101_shared_figure_refuted : exists t1 t2 d1 d2 f1 f2, complete t1 1 2 /\ complete t2 1 2 /\
  plot_call blank (t1, None) = Some (d1, f1) /\ plot_call d1 (t2, None) = Some (d2, f2) /\
  exists p, shown f2 p /\ forall a, ~ reached t2 1 2 a p.
Proof.
  exists (one [[0; 0; 0]; [1; 1; 1]; [1; 0; 0]; [2; 1; 1]]%Q), (one [[0; 5; 5]; [1; 6; 6]; [1; 5; 5]; [2; 6; 6]]%Q).
  eexists. eexists. eexists. eexists. split; [apply one_complete; [discriminate|repeat constructor; cbn; lia]|]. split; [apply one_complete; [discriminate|repeat constructor; cbn; lia]|].
  split; [vm_compute; reflexivity|]. split; [vm_compute; reflexivity|]. exists (0, 0)%Q. split.
  - eexists. eexists. eexists. split; [left; reflexivity|]. left. apply Exists_exists. eexists. split; [left; reflexivity|]. exists 0%Q. repeat split; unfold Qle, Qeq; cbn; lia.
  - intros a (q & tr & j & lo & hi & Ht & B & x0 & x1 & y0 & y1 & X0 & _ & _ & _ & L & _). apply one_trace in Ht. destruct Ht as (_ & _ & ->).
    pose proof (box_index B) as J. cbn [length] in J. destruct B as [A _]. destruct j as [|[|j]]; [| |lia]; cbn in A; injection A as <-; cbn in X0; injection X0 as <-; unfold Qle in L; cbn in L; lia.
Qed.
(** With eight agents two of them have the same colours. *)
Theorem C101_colours_refuted : exists l c, agent_colors colors 2 l c /\ agent_colors colors 7 l c.
Proof. do 2 eexists. split; eexists; split; [reflexivity|split; reflexivity|reflexivity|split; reflexivity]. Qed.
