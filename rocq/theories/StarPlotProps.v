(** C110: plots of stars. *)
From Coq Require Import Ascii String.
From Verif Require Import Base Dict PyText Tree TreeSpec Plot Star StarSpec StarProofs StarProps StarPlot StarPlotSpec StarPlotProofs StarPlotMain.
From Coq Require Import Lqa Lia.
Set Implicit Arguments.
Open Scope nat_scope.

(** A star that is bounded and not empty, with as many generators as dimensions, is drawn. *)
Theorem C110_succeeds linprog circle s dims : wf_star s -> solves linprog s -> bounded_star s -> (exists p, in_star s p) -> gens s = dim s ->
  fst (drawn_dims dims) < dim s -> snd (drawn_dims dims) < dim s -> circle <> [] -> exists path, get_verts linprog circle s dims = Some path.
Proof. apply verts_some. Qed.

(** The path is closed, has a vertex for every direction, and every vertex is the projection of a point of the star. *)
Theorem C110_vertices linprog circle s dims path : wf_star s -> C s <> [] -> solves linprog s -> get_verts linprog circle s dims = Some path ->
  length (fst path) = S (length circle) /\ length (snd path) = S (length circle) /\
  (forall x y, vertex path 0 x y <-> vertex path (length circle) x y) /\
  forall k x y, vertex path k x y -> projects s (fst (drawn_dims dims)) (snd (drawn_dims dims)) x y.
Proof.
  intros W C0 LP H. destruct (verts_inv _ _ _ _ H) as (L1 & L2 & L0 & Cl & V). split; [exact L1|]. split; [exact L2|]. split; [exact Cl|].
  assert (K : forall k x y, k < length circle -> vertex path k x y -> projects s (fst (drawn_dims dims)) (snd (drawn_dims dims)) x y).
  { intros k x y Hk Hv. destruct (V k x y Hk Hv) as (cs & d & p & _ & _ & M & N1 & N2). destruct (maximize_inv W C0 LP _ M) as (_ & _ & a & La & Oa & -> & _).
    exists (the_point s a). split; [apply the_point_in; assumption|]. split; [rewrite (nth_error_nth _ _ 0%Q N1)|rewrite (nth_error_nth _ _ 0%Q N2)]; reflexivity. }
  intros k x y Hv. destruct (Nat.lt_ge_cases k (length circle)) as [Hk|Hk]; [apply (K k); assumption|].
  assert (k = length circle) as ->. { destruct Hv as [Hx _]. assert (nth_error (fst path) k <> None) as X by congruence. apply nth_error_Some in X. lia. }
  apply (K 0); [exact L0|]. apply Cl, Hv.
Qed.

(** Each vertex is extreme in its direction, so that the star lies in the half planes that touch the path, when the matrix of the generators
    is symmetric (a box, for instance).  Missing: other stars, see below. *)
Theorem C110_extreme_partial linprog circle s dims path k c sn x y : wf_star s -> C s <> [] -> solves linprog s -> symmetric_star s ->
  fst (drawn_dims dims) <> snd (drawn_dims dims) -> get_verts linprog circle s dims = Some path -> nth_error circle k = Some (c, sn) -> vertex path k x y ->
  extreme s (fst (drawn_dims dims)) (snd (drawn_dims dims)) c sn x y.
Proof.
  intros W C0 LP Sy Dd H Hc Hv q Hq. destruct (verts_inv _ _ _ _ H) as (_ & _ & _ & _ & V).
  destruct (V k x y) as (cs & d & p & Hcs & Hd & M & N1 & N2); [apply nth_error_Some; congruence|exact Hv|]. rewrite Hc in Hcs. injection Hcs as <-.
  pose proof (extreme_point W C0 LP d Sy M Hq) as X. rewrite !(direction_inner _ _ _ _ Hd Dd) in X. cbn [fst snd] in X.
  rewrite (nth_error_nth _ _ 0%Q N1), (nth_error_nth _ _ 0%Q N2) in X. exact X.
Qed.

(** In three dimensions the path can miss most of the star: this one has points with y = 1 and y = -1, but for every exact solver and all
    directions that are not vertical the path has y = 0 only. *)
Module Flat.
  (** The point of (a1, a2, a3) is (a3, a1, a2); |a1| + |a2| <= 1 and |a3| <= 1. *)
  Definition s : star := Star [0; 0; 0]%Q [[0; 1; 0]; [0; 0; 1]; [1; 0; 0]]%Q
    [[1; 1; 0]; [1; -(1); 0]; [-(1); 1; 0]; [-(1); -(1); 0]; [0; 0; 1]; [0; 0; -(1)]]%Q [1; 1; 1; 1; 1; 1]%Q.
  Lemma wf : wf_star s.
  Proof. split; [intros v [<-|[<-|[<-|[]]]]; reflexivity|]. split; [|reflexivity]. intros r [<-|[<-|[<-|[<-|[<-|[<-|[]]]]]]]; reflexivity. Qed.
  Lemma obeys_iff a b c : obeys (C s) (g s) [a; b; c] <-> (a + b <= 1 /\ a - b <= 1 /\ b - a <= 1 /\ - a - b <= 1 /\ c <= 1 /\ - c <= 1)%Q.
  Proof.
    unfold obeys. cbn [C g s]. split.
    - intros H. repeat match goal with H : Forall2 _ (_ :: _) _ |- _ => inversion H; clear H; subst end. cbn in *. repeat split; lra.
    - intros (H1 & H2 & H3 & H4 & H5 & H6). repeat constructor; cbn; lra.
  Qed.
  Lemma bounded : bounded_star s.
  Proof. exists 1%Q. intros [|a [|b [|c [|]]]] L O; try discriminate. apply obeys_iff in O. repeat constructor; lra. Qed.
  Lemma member y : (-1 <= y)%Q -> (y <= 1)%Q -> in_star s [0; y; 0]%Q.
  Proof. intros H1 H2. exists [y; 0; 0]%Q. split; [reflexivity|]. split; [apply obeys_iff; repeat split; lra|]. split; [reflexivity|]. intros [|[|[|j]]] Hj; cbn in *; try lia; lra. Qed.
  Lemma verts linprog circle path k x y : solves linprog s -> Forall (fun cs => ~ fst cs == 0)%Q circle -> get_verts linprog circle s None = Some path -> vertex path k x y -> (y == 0)%Q.
  Proof.
    intros LP Hc H Hv. destruct (verts_inv _ _ _ _ H) as (L1 & _ & L0 & Cl & V).
    assert (K : forall k, k < length circle -> vertex path k x y -> (y == 0)%Q).
    { clear k Hv. intros k Hk Hv. destruct (V k x y Hk Hv) as ([cx cy] & d & p & Hcs & Hd & M & N1 & N2). apply nth_error_In in Hcs. rewrite Forall_forall in Hc. specialize (Hc _ Hcs). cbn [fst] in Hc.
      cbn in Hd. injection Hd as <-. destruct (maximize_inv wf ltac:(discriminate) LP _ M) as (_ & _ & a & La & Oa & -> & Opt). destruct a as [|a [|b [|c [|]]]]; try discriminate.
      cbn in N2. injection N2 as <-. pose proof (proj1 (obeys_iff a b c) Oa) as O. cbn zeta in Opt.
      assert (F : forall b', (-1 <= b')%Q -> (b' <= 1)%Q -> (- cx * b <= - cx * b')%Q).
      { intros b' H1 H2. pose proof (Opt [0; b'; c]%Q eq_refl (proj2 (obeys_iff 0 b' c) ltac:(repeat split; lra))) as X. cbn in X. lra. }
      pose proof (F 1%Q ltac:(lra) ltac:(lra)). pose proof (F (-1)%Q ltac:(lra) ltac:(lra)).
      assert (b == 1 \/ b == -1)%Q as Hb.
      { destruct (Qlt_le_dec 0 cx) as [P|P]; [left; nra|]. assert (cx < 0)%Q by (destruct (Qle_lt_or_eq _ _ P) as [|E]; [assumption|destruct (Hc E)]). right. nra. }
      destruct Hb as [Hb|Hb]; lra. }
    destruct (Nat.lt_ge_cases k (length circle)) as [Hk|Hk]; [apply (K k); assumption|].
    assert (k = length circle) as ->. { destruct Hv as [Hx _]. assert (nth_error (fst path) k <> None) as X by congruence. apply nth_error_Some in X. lia. }
    apply (K 0 L0). apply Cl, Hv.
  Qed.
  (** There are such solvers. *)
  Definition best (c : Q) : Q := if Qle_bool 0 c then (-1)%Q else 1%Q.
  Definition size (c : Q) : Q := if Qle_bool 0 c then c else (- c)%Q.
  Definition linprog (free : bool) (c : vec) (A : list vec) (b : vec) : lp :=
    match c with
    | [c1; c2; c3] => Optimal (if Qle_bool (size c2) (size c1) then [best c1; 0; best c3] else [0; best c2; best c3])%Q
    | _ => Infeasible
    end.
  Lemma solved : solves linprog s.
  Proof.
    intros c Lc. destruct c as [|c1 [|c2 [|c3 [|]]]]; try discriminate. unfold exact_lp, linprog.
    assert (Q1 : forall q, (Qle_bool 0 q = true -> 0 <= q)%Q /\ (Qle_bool 0 q = false -> q < 0)%Q) by (intros q; split; intros H; [apply Qle_bool_iff, H|apply Qnot_le_lt; intros X; apply Qle_bool_iff in X; congruence]).
    assert (Q2 : forall q r, (Qle_bool q r = true -> q <= r)%Q /\ (Qle_bool q r = false -> r < q)%Q) by (intros q r; split; intros H; [apply Qle_bool_iff, H|apply Qnot_le_lt; intros X; apply Qle_bool_iff in X; congruence]).
    split; [destruct (Qle_bool _ _); reflexivity|]. split.
    - split; [|discriminate]. assert (B : forall c, (best c == 1 \/ best c == -1)%Q) by (intros c; unfold best; destruct (Qle_bool 0 c); [right|left]; reflexivity).
      destruct (B c1), (B c2), (B c3), (Qle_bool (size c2) (size c1)); apply obeys_iff; repeat split; lra.
    - intros y Ly [Oy _]. destruct y as [|a [|b [|c [|]]]]; try discriminate. apply obeys_iff in Oy. destruct Oy as (O1 & O2 & O3 & O4 & O5 & O6).
      assert (M3 : (c3 * best c3 <= c3 * c)%Q) by (unfold best; destruct (Qle_bool 0 c3) eqn:E; apply Q1 in E; nra).
      assert (S : forall q, (0 <= size q)%Q /\ (size q == q \/ size q == - q)%Q /\ (q * best q == - size q)%Q) by (intros q; unfold size, best; destruct (Qle_bool 0 q) eqn:E; apply Q1 in E; (split; [lra|]; split; [|lra]); [left|right]; reflexivity).
      destruct (S c1) as (S1 & T1 & U1). destruct (S c2) as (S2 & T2 & U2).
      destruct (Qle_bool (size c2) (size c1)) eqn:E; apply Q2 in E; cbn [inner].
      + assert (- size c1 <= c1 * a + c2 * b)%Q; [|lra]. destruct T1 as [T1|T1], T2 as [T2|T2]; rewrite T1, T2 in *; nra.
      + assert (- size c2 <= c1 * a + c2 * b)%Q; [|lra]. destruct T1 as [T1|T1], T2 as [T2|T2]; rewrite T1, T2 in *; nra.
  Qed.
End Flat.
Theorem C110_extreme_refuted : exists s, wf_star s /\ gens s = dim s /\ in_star s [0; 1; 0]%Q /\ in_star s [0; -1; 0]%Q /\
  (exists linprog, solves linprog s) /\
  forall linprog circle, solves linprog s -> circle <> [] -> Forall (fun cs => ~ fst cs == 0)%Q circle ->
    exists path, get_verts linprog circle s None = Some path /\ forall k x y, vertex path k x y -> (y == 0)%Q.
Proof.
  exists Flat.s. split; [exact Flat.wf|]. split; [reflexivity|]. split; [apply Flat.member; lra|]. split; [apply Flat.member; lra|]. split; [exists Flat.linprog; exact Flat.solved|].
  intros linprog circle LP Hc Hz. destruct (@verts_some linprog circle Flat.s None) as [path E]; try (cbn; lia); try assumption; try reflexivity.
  - exact Flat.wf.
  - exact Flat.bounded.
  - exists [0; 1; 0]%Q. apply Flat.member; lra.
  - exists path. split; [exact E|]. intros k x y. apply (Flat.verts LP Hz E).
Qed.

(** The plot draws the path of every [filter]-th star of every trace, in the colour of the agent, and nothing else. *)
Theorem C110_plot linprog circle t x_dim y_dim filter t' lines : 0 < filter -> plot_reachtube_stars linprog circle t x_dim y_dim filter = Some (t', lines) ->
  forall colour path, In (colour, path) lines <->
    exists i a q tr k time st, nth_error (s_agents t) i = Some a /\ colour = i mod 7 /\ star_trace t q a tr /\ present_above t q a /\
      nth_error tr (k * filter) = Some (time, st) /\ get_verts linprog circle st None = Some path.
Proof.
  intros Hk H colour path. unfold plot_reachtube_stars in H. destruct (sample_ok t Hk) as (t1 & E1 & Ag & _ & Tr & Ev). rewrite E1 in H. cbn [obind] in H. bind H. injection H as <- <-.
  assert (Sh : forall a st, shown_from a (s_root t1) st <-> exists q tr k time, star_trace t q a tr /\ present_above t q a /\ nth_error tr (k * filter) = Some (time, st)).
  { intros a st. rewrite shown_path. split.
    - intros (q & n & tr' & [time st'] & Hq & Ht & Hr & Es & Up). cbn in Es. subst st'. destruct (proj2 (Tr q a)) as [tr Htr]; [exists tr', n; auto|].
      pose proof (Ev q a tr tr' Htr (ex_intro _ n (conj Hq Ht))) as Ee. destruct (take_every_ok tr Hk) as (l' & El & P). rewrite Ee in El. injection El as <-. apply P in Hr. destruct Hr as [k Hkk].
      exists q, tr, k, time. split; [exact Htr|]. split; [|exact Hkk]. intros q1 i q2 Eq. destruct (Up q1 i q2 Eq) as (m & tr2 & A & B). apply Tr. exists tr2, m. auto.
    - intros (q & tr & k & time & Htr & Up & Hkk). destruct (proj1 (Tr q a) (ex_intro _ tr Htr)) as [tr' Htr']. pose proof (Ev q a tr tr' Htr Htr') as Ee.
      destruct (take_every_ok tr Hk) as (l' & El & P). rewrite Ee in El. injection El as <-. destruct Htr' as (n & A & B). exists q, n, tr', (time, st). split; [exact A|]. split; [exact B|]. split; [apply P; exists k; exact Hkk|]. split; [reflexivity|].
      intros q1 i q2 Eq. destruct (proj1 (Tr q1 a) (Up q1 i q2 Eq)) as (tr2 & m & A2 & B2). exists m, tr2. auto. }
  assert (D : forall ia ps, (do ps <- draw_agent linprog circle (size (s_root t1)) [s_root t1] (snd ia) x_dim y_dim; Some (map (fun p => (fst ia mod 7, p)) ps)) = Some ps ->
    forall c p, In (c, p) ps <-> c = fst ia mod 7 /\ exists st, shown_from (snd ia) (s_root t1) st /\ get_verts linprog circle st None = Some p).
  { intros [i a] ps Hd c p. cbn [fst snd] in *. bind Hd. injection Hd as <-. destruct (draw_inv _ _ _ _ _ _ _ E0) as [A B]. rewrite in_map_iff. split.
    - intros (p' & [= <- ->] & Hp). split; [reflexivity|]. destruct (A p Hp) as (n & st & [<-|[]] & Hs & G). exists st. auto.
    - intros (-> & st & Hs & G). destruct (B (s_root t1) st (or_introl eq_refl) Hs) as (p' & Hp & G'). exists p'. split; [rewrite G' in G; injection G as ->; reflexivity|exact Hp]. }
  rewrite in_concat. split.
  - intros (ps & Hps & Hin). apply In_nth_error in Hps. destruct Hps as [j Hj]. destruct (StarPlotProofs.mapM_nth _ _ _ E Hj) as ([i a] & Hi & F). apply (D _ _ F) in Hin. cbn [fst snd] in Hin. destruct Hin as (-> & st & Hs & G).
    apply Sh in Hs. destruct Hs as (q & tr & k & time & X1 & X2 & X3). exists i, a, q, tr, k, time, st.
    assert (Ni : nth_error (s_agents t) i = Some a).
    { rewrite Ag in Hi. clear - Hi. assert (Gn : forall (l : list word) b j, nth_error (combine (seq b (length l)) l) j = Some (i, a) -> i = b + j /\ nth_error l j = Some a).
      { induction l as [|x l IH]; intros b [|j'] H; cbn in H; try discriminate; [injection H as <- <-; split; [lia|reflexivity]|]. destruct (IH _ _ H). split; [lia|assumption]. }
      destruct (Gn _ _ _ Hi) as [-> N]. exact N. }
    auto 7.
  - intros (i & a & q & tr & k & time & st & Ni & -> & X1 & X2 & X3 & G).
    assert (Hs : shown_from a (s_root t1) st) by (apply Sh; exists q, tr, k, time; auto).
    assert (Hi : nth_error (combine (seq 0 (length (s_agents t1))) (s_agents t1)) i = Some (i, a)).
    { rewrite Ag. clear - Ni. assert (Gn : forall (l : list word) b j, nth_error l j = Some a -> nth_error (combine (seq b (length l)) l) j = Some (b + j, a)).
      { induction l as [|x l IH]; intros b [|j] H; cbn in H |- *; try discriminate; [injection H as ->; f_equal; f_equal; lia|]. rewrite (IH _ _ H). f_equal. f_equal. lia. }
      apply (Gn _ 0 _ Ni). }
    destruct (nth_error l i) as [ps|] eqn:El; [|apply nth_error_None in El; rewrite (mapM_len _ _ E) in El; assert (nth_error (combine (seq 0 (length (s_agents t1))) (s_agents t1)) i <> None) as X by congruence; apply nth_error_Some in X; lia].
    exists ps. split; [eapply nth_error_In, El|]. destruct (StarPlotProofs.mapM_nth _ _ _ E El) as (ia & Hia & F). rewrite Hi in Hia. injection Hia as <-. apply (D _ _ F). split; [reflexivity|]. exists st. auto.
Qed.

(** The dimensions that are asked for make no difference: the first two are drawn. *)
Module Side.
  (** [0,1] x [5,6] *)
  Definition s : star := Box_solver.boxed [0; 5]%Q (eye 2) [(0, 1); (0, 1)]%Q.
  Definition t : stree := mkst [w "car"] ReachTube (Node [(w "car", [(0%Q, s)])] []).
  Lemma wf : wf_star s.
  Proof. apply Box_solver.boxed_wf; [|reflexivity]. intros v [<-|[<-|[]]]; reflexivity. Qed.
  Lemma pts p : in_star s p -> (0 <= nth 0 p 0 <= 1 /\ 5 <= nth 1 p 0 <= 6)%Q.
  Proof.
    intros (al & La & O & Lp & P). apply box2poly_exact in O; [|exact La]. destruct al as [|a [|b [|]]]; try discriminate. cbn in O. pose proof (P 0 ltac:(cbn; lia)) as P0. pose proof (P 1 ltac:(cbn; lia)) as P1. cbn in P0, P1. lra.
  Qed.
  Lemma member : in_star s [1; 6]%Q.
  Proof. exists [1; 1]%Q. split; [reflexivity|]. split; [apply box2poly_exact; [reflexivity|]; cbn; lra|]. split; [reflexivity|]. intros [|[|j]] Hj; cbn in *; try lia; lra. Qed.
End Side.
Theorem C110_dimensions_refuted : exists t st time, (forall q a tr r, star_trace t q a tr -> In r tr -> r = (time, st)) /\ (exists linprog, solves linprog st) /\
  forall linprog circle, solves linprog st -> circle <> [] -> exists t' lines, plot_reachtube_stars linprog circle t 1 0 1 = Some (t', lines) /\ lines <> [] /\
    forall colour path k x y, In (colour, path) lines -> vertex path k x y -> ~ projects st 1 0 x y.
Proof.
  exists Side.t, Side.s, 0%Q. split; [|split; [exists Box_solver.linprog; apply Box_solver.boxed_solved; reflexivity|]].
  - intros q a tr r (n & Hq & Hn) Hr. destruct q as [|i q]; [|destruct i; vm_compute in Hq; discriminate Hq]. assert (n = s_root Side.t) as -> by (cbn [at_path] in Hq; congruence). change ((if word_eqb a (w "car") then Some [(0%Q, Side.s)] else None) = Some tr) in Hn. destruct (word_eqb a (w "car")); [|discriminate]. injection Hn as <-. destruct Hr as [<-|[]]. reflexivity.
  - intros linprog circle LP Hc.
    assert (NE : exists p, in_star Side.s p) by (eexists; exact Side.member).
    destruct (@verts_some linprog circle Side.s None Side.wf LP (Box_solver.boxed_bounded [0; 5]%Q (eye 2) [(0, 1); (0, 1)]%Q eq_refl) NE eq_refl) as [path E]; try (cbn; lia); [exact Hc|].
    assert (Pl : plot_reachtube_stars linprog circle Side.t 1 0 1 = Some (Side.t, [(0, path)])).
    { unfold plot_reachtube_stars. replace (sample_stars Side.t 1) with (Some Side.t) by reflexivity. cbn [obind s_agents Side.t length seq combine mapM snd fst s_root size map child list_sum draw_agent content app].
      replace (dget word_eqb (w "car") [(w "car", [(0%Q, Side.s)])]) with (Some [(0%Q, Side.s)]) by reflexivity. cbn [mapM obind snd]. rewrite E. reflexivity. }
    exists Side.t, [(0, path)]. split; [exact Pl|]. split; [discriminate|]. intros colour p k x y [[= <- <-]|[]] Hv (pt & Hp & Hx & Hy).
    destruct (@C110_vertices linprog circle Side.s None path Side.wf ltac:(discriminate) LP E) as (_ & _ & _ & V). destruct (V k x y Hv) as (p1 & Hp1 & Hx1 & Hy1). cbn [drawn_dims fst snd] in *.
    apply Side.pts in Hp. apply Side.pts in Hp1. lra.
Qed.

(** Plotting changes the tree: only the rows that are drawn are left in it. *)
Theorem C110_tree_refuted : exists t t' lines, plot_reachtube_stars Box_solver.linprog [(1, 0); (0, 1)]%Q t 0 1 2 = Some (t', lines) /\
  star_trace t [] (w "car") [(0%Q, Side.s); (1%Q, Side.s)] /\ star_trace t' [] (w "car") [(0%Q, Side.s)].
Proof.
  exists (mkst [w "car"] ReachTube (Node [(w "car", [(0%Q, Side.s); (1%Q, Side.s)])] [])), Side.t. eexists. split; [vm_compute; reflexivity|]. split; eexists; split; reflexivity.
Qed.

(** The square [0,1] x [5,6] in four directions. *)
Module Example_square.
  Definition circle : list (Q * Q) := [(1, 0); (0, 1); (-1, 0); (0, -1)]%Q.
  Definition path : vec * vec := ([1; 0; 0; 0; 1], [5; 6; 5; 5; 5])%Q.
  Example ex_path : option_map (fun p => (map Qred (fst p), map Qred (snd p))) (get_verts Box_solver.linprog circle Side.s None) = Some path.
  Proof. vm_compute. reflexivity. Qed.
  Lemma solved : solves Box_solver.linprog Side.s.
  Proof. apply Box_solver.boxed_solved. reflexivity. Qed.
  Lemma symm : symmetric_star Side.s.
  Proof. split; [reflexivity|]. intros [|[|i]] [|[|j]] Hi Hj; cbn in *; try lia; reflexivity. Qed.
  Example ex_C110 : exists p, get_verts Box_solver.linprog circle Side.s None = Some p /\ forall k c sn x y, nth_error circle k = Some (c, sn) -> vertex p k x y ->
    projects Side.s 0 1 x y /\ extreme Side.s 0 1 c sn x y.
  Proof.
    destruct (get_verts Box_solver.linprog circle Side.s None) as [p|] eqn:E; [|vm_compute in E; discriminate]. exists p. split; [reflexivity|]. intros k c sn x y Hc Hv. split.
    - destruct (@C110_vertices Box_solver.linprog circle Side.s None p Side.wf ltac:(discriminate) solved E) as (_ & _ & _ & V). apply (V k x y Hv).
    - apply (@C110_extreme_partial Box_solver.linprog circle Side.s None p k c sn x y Side.wf ltac:(discriminate) solved symm ltac:(discriminate) E Hc Hv).
  Qed.
  (** A tree of two nodes and two agents: four paths with the second row of each trace left out. *)
  Definition node (c : list (tree (dict word (list (Q * star))))) := Node [(w "car", [(0%Q, Side.s); (1%Q, Side.s)]); (w "bus", [(0%Q, Side.s)])] c.
  Definition t : stree := mkst [w "car"; w "bus"] ReachTube (node [node []]).
  Example ex_plot : exists t' lines, plot_reachtube_stars Box_solver.linprog circle t 0 1 2 = Some (t', lines) /\ map fst lines = [0; 0; 1; 1].
  Proof. eexists _, _. split; [vm_compute; reflexivity|reflexivity]. Qed.
End Example_square.
