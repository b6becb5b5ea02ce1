(** Sampling and slices. *)
From Coq Require Import Ascii String Lqa.
From Verif Require Import Base BaseFacts Dict PyText Guard Tree TreeSpec TreeProofs TreeProps ResetProofs Plot PlotSpec PlotGeom PlotProofs PlotMain.
Set Implicit Arguments.
Open Scope nat_scope.

Lemma nth_eq {A} (l m : list A) : (forall j, nth_error l j = nth_error m j) -> l = m.
Proof.
  revert m. induction l as [|a l IH]; intros [|b m] H; [reflexivity|specialize (H 0); discriminate..|]. f_equal; [specialize (H 0); cbn in H; congruence|]. apply IH. intros j. exact (H (S j)).
Qed.
Lemma Forall2_mono {X Y} (P Q : X -> Y -> Prop) l m : (forall x y, P x y -> Q x y) -> Forall2 P l m -> Forall2 Q l m.
Proof. intros H. induction 1; constructor; auto. Qed.
Lemma mapM_Forall2 {A B} (f : A -> option B) l r : mapM f l = Some r -> Forall2 (fun a b => f a = Some b) l r.
Proof.
  revert r. induction l as [|a l IH]; cbn; intros r H; [injection H as <-; constructor|].
  destruct (f a) as [b|] eqn:E; [|discriminate]. cbn in H. destruct (mapM f l) as [r0|]; [|discriminate]. cbn in H. injection H as <-. constructor; [exact E|apply IH; reflexivity].
Qed.

Lemma treeM_at {A B} (f : A -> option B) : (forall a, f a <> None) -> forall t, exists t', treeM f t = Some t' /\
  forall q, (at_path t q = None /\ at_path t' q = None) \/ exists n n', at_path t q = Some n /\ at_path t' q = Some n' /\ f (content n) = Some (content n').
Proof.
  intros H t. induction t as [a ch IH] using tree_ind'. destruct (f a) as [b|] eqn:Ea; [|destruct (H a Ea)].
  assert (E : exists ch', (fix go (l : list (tree A)) : option (list (tree B)) := match l with [] => Some [] | c :: r => do c' <- treeM f c; do r' <- go r; Some (c' :: r') end) ch = Some ch' /\
    Forall2 (fun c c' => forall q, (at_path c q = None /\ at_path c' q = None) \/ exists n n', at_path c q = Some n /\ at_path c' q = Some n' /\ f (content n) = Some (content n')) ch ch').
  { induction IH as [|c r (c' & Hc & P) _ (r' & Hr & F)]; [exists []; split; [reflexivity|constructor]|]. exists (c' :: r'). rewrite Hc. cbn [obind]. rewrite Hr. split; [reflexivity|constructor; assumption]. }
  destruct E as (ch' & E & F). exists (Node b ch'). split; [cbn [treeM]; rewrite Ea; cbn [obind]; rewrite E; reflexivity|].
  intros [|i q]; [right; exists (Node a ch), (Node b ch'); auto|]. cbn [at_path child].
  destruct (nth_error ch i) as [c|] eqn:Ei.
  - destruct (@Forall2_nth_l _ _ _ _ _ i _ F Ei) as (c' & -> & P). cbn [obind]. apply P.
  - left. split; [reflexivity|]. assert (nth_error ch' i = None) as ->; [|reflexivity]. apply nth_error_None. apply nth_error_None in Ei. rewrite <- (Forall2_len F). exact Ei.
Qed.

Lemma sample_sim_every tr k : 0 < k -> exists tr', sample_sim tr k = Some tr' /\ every k tr tr'.
Proof.
  intros Hk. unfold sample_sim. destruct (Nat.eqb_spec k 0) as [->|_]; [lia|]. unfold take_rows.
  destruct (@mapM_ok _ _ (nth_error tr) (range_by 0 (length tr) k)) as [tr' E].
  { intros i Hi. apply range_by_In in Hi; [|exact Hk]. destruct Hi as (_ & _ & L). apply nth_error_Some. exact L. }
  exists tr'. split; [exact E|]. intros j. pose proof (mapM_length _ _ E) as L. unfold range_by in L, E. rewrite map_length, seq_length in L.
  assert (M : j < (length tr - 0 + (k - 1)) / k <-> j * k < length tr).
  { split; intros H.
    - assert (k * ((length tr - 0 + (k - 1)) / k) <= length tr - 0 + (k - 1)) by (apply Nat.mul_div_le; lia). nia.
    - apply Nat.div_le_lower_bound with (a := length tr - 0 + (k - 1)) (b := k) (q := S j); nia. }
  destruct (Nat.lt_ge_cases j (length tr')) as [Hj|Hj].
  - assert (S : nth_error (map (fun i => 0 + i * k) (seq 0 ((length tr - 0 + (k - 1)) / k))) j = Some (j * k)).
    { rewrite nth_error_map. rewrite nth_error_nth' with (d := 0) by (rewrite seq_length; lia). rewrite seq_nth by lia. reflexivity. }
    destruct (mapM_nth _ _ _ E S) as (b & -> & ->). reflexivity.
  - rewrite (proj2 (nth_error_None _ _)) by exact Hj. symmetry. apply nth_error_None. lia.
Qed.
Lemma sampled_ok t k : 0 < k -> exists t', sample_trace t k = Some t' /\ sampled k t t'.
Proof.
  intros Hk. unfold sample_trace, eq_str.
  assert (O : forall n, exists n', on_traces (fun tr => sample_sim tr k) n = Some n' /\ p_mode n' = p_mode n /\ p_hits n' = p_hits n /\ Forall2 (fun kv kv' => fst kv' = fst kv /\ every k (snd kv) (snd kv')) (p_trace n) (p_trace n')).
  { intros n. unfold on_traces. destruct (@mapM_ok _ _ (fun kv : word * list vec => do tr <- sample_sim (snd kv) k; Some (fst kv, tr)) (p_trace n)) as [d E].
    { intros kv _. destruct (sample_sim_every (snd kv) Hk) as (tr' & -> & _). discriminate. }
    rewrite E. cbn [obind]. eexists. split; [reflexivity|]. cbn [p_mode p_hits p_trace]. split; [reflexivity|]. split; [reflexivity|]. apply mapM_Forall2 in E.
    revert E. apply Forall2_mono. intros [a tr] [a' tr'] H. cbn [fst snd] in *. destruct (sample_sim_every tr Hk) as (tr2 & Es & Ev). rewrite Es in H. injection H as <- <-. auto. }
  destruct (@treeM_at _ _ (on_traces (fun tr => sample_sim tr k)) ltac:(intros n; destruct (O n) as (n' & -> & _); discriminate) (t_root t)) as (r & -> & P). cbn [obind].
  eexists. split; [reflexivity|]. split; [reflexivity|]. split; [reflexivity|]. cbn [t_root]. intros q. destruct (P q) as [H|(n & n' & Q & Q' & E)]; [left; exact H|]. right. exists n, n'.
  split; [exact Q|]. split; [exact Q'|]. destruct (O (content n)) as (n2 & E2 & X). rewrite E in E2. injection E2 as <-. exact X.
Qed.

Lemma every_In k tr tr' r : every k tr tr' -> In r tr' -> In r tr.
Proof. intros E H. apply In_nth_error in H. destruct H as [j H]. rewrite E in H. eapply nth_error_In; exact H. Qed.
Lemma sampled_keys k (d d' : dict word (list vec)) : Forall2 (fun kv kv' => fst kv' = fst kv /\ every k (snd kv) (snd kv')) d d' -> map fst d' = map fst d.
Proof. induction 1 as [|[a u] [a' u'] d d' [H _] _ IH]; [reflexivity|]. cbn in *. congruence. Qed.
Lemma sampled_get k (d d' : dict word (list vec)) a : Forall2 (fun kv kv' => fst kv' = fst kv /\ every k (snd kv) (snd kv')) d d' ->
  match dget word_eqb a d, dget word_eqb a d' with Some tr, Some tr' => every k tr tr' | None, None => True | _, _ => False end.
Proof.
  induction 1 as [|[b u] [b' u'] d d' [H E] _ IH]; [exact I|]. cbn [fst snd dget] in *. subst b'. destruct (word_eqb a b); [exact E|exact IH].
Qed.
Lemma sampled_trace k t t' : sampled k t t' -> forall q a,
  (forall tr, trace_at t q a tr -> exists tr', trace_at t' q a tr' /\ every k tr tr') /\
  (forall tr', trace_at t' q a tr' -> exists tr, trace_at t q a tr /\ every k tr tr').
Proof.
  intros (_ & _ & P) q a. split; intros tr (n & Q & D); destruct (P q) as [[A B]|(m & m' & A & B & _ & _ & F)]; try congruence; pose proof (sampled_get a F) as G.
  - rewrite Q in A. injection A as <-. rewrite D in G. destruct (dget word_eqb a (p_trace (content m'))) as [tr'|] eqn:D'; [|destruct G]. exists tr'. split; [exists m'; auto|exact G].
  - rewrite Q in B. injection B as <-. rewrite D in G. destruct (dget word_eqb a (p_trace (content m))) as [tr'|] eqn:D'; [|destruct G]. exists tr'. split; [exists m; auto|exact G].
Qed.
Lemma sampled_complete k t t' x y : 0 < k -> sampled k t t' -> complete t x y -> complete t' x y.
Proof.
  intros Hk S [Ne C]. pose proof S as (Ag & _ & P). split; [rewrite Ag; exact Ne|]. intros q n' Q'. destruct (P q) as [[A B]|(n & m' & A & B & _ & _ & F)]; [congruence|].
  rewrite Q' in B. injection B as <-. destruct (C q n A) as (ND & Ks & T). rewrite (sampled_keys F). split; [exact ND|]. split; [rewrite Ag; exact Ks|].
  intros a tr' D'. pose proof (sampled_get a F) as G. rewrite D' in G. destruct (dget word_eqb a (p_trace (content n))) as [tr|] eqn:D; [|destruct G]. destruct (T a tr D) as [Nt Ft]. split.
  - intros ->. specialize (G 0). cbn in G. destruct tr; [contradiction|discriminate].
  - apply Forall_forall. intros r Hr. rewrite Forall_forall in Ft. apply Ft. eapply every_In; eassumption.
Qed.
Lemma sampled_named k t t' : sampled k t t' -> named t -> named t'.
Proof.
  intros (Ag & _ & P) N q n' a Q' Ia. destruct (P q) as [[A B]|(n & m' & A & B & M & _)]; [congruence|]. rewrite Q' in B. injection B as <-. rewrite M. apply (N q n a A). rewrite <- Ag. exact Ia.
Qed.
Lemma sampled_violated k t t' q a texts : sampled k t t' -> (violated t' q a texts <-> violated t q a texts).
Proof.
  intros (_ & _ & P). split; intros (n & h & Q & H & D); destruct (P q) as [[A B]|(m & m' & A & B & _ & Hh & _)]; try congruence.
  - rewrite Q in B. injection B as <-. exists m, h. repeat split; [exact A|congruence|exact D].
  - rewrite Q in A. injection A as <-. exists m', h. repeat split; [exact B|congruence|exact D].
Qed.

(** ** Slices *)
Section Slice.
  Variables (x_dim y_dim : nat) (line fill : word) (lower : Q) (upper : option Q).

  Lemma until_ok q : until upper q = true <-> forall u, upper = Some u -> (q <= u)%Q.
  Proof.
    unfold until. destruct upper as [u|]; [|split; [discriminate|reflexivity]]. rewrite Qle_bool_iff. split; [intros H u' [= <-]; exact H|intros H; apply H; reflexivity].
  Qed.
  Lemma dims_time tr i : Forall (has_dims x_dim y_dim) tr -> i < length tr -> exists r t0, nth_error tr i = Some r /\ nth_error r 0 = Some t0 /\ cell tr i 0 = Some t0.
  Proof.
    intros F H. destruct (nth_error tr i) as [r|] eqn:E; [|apply nth_error_None in E; lia]. rewrite Forall_forall in F. destruct (F r (nth_error_In _ _ E)) as [A _].
    destruct r as [|t0 r]; [cbn in A; lia|]. exists (t0 :: r), t0. unfold cell. rewrite E. auto.
  Qed.
  Definition in_slice (tr : list vec) (j : nat) : Prop :=
    exists lo hi t0 t1, box_at tr j lo hi /\ nth_error lo 0 = Some t0 /\ nth_error hi 0 = Some t1 /\ (lower <= t0)%Q /\ forall u, upper = Some u -> (t1 <= u)%Q.

  Lemma slice_rects_ok tr m : Forall (has_dims x_dim y_dim) tr -> length tr = 2 * m -> timed tr ->
    forall n j, j + n = m -> exists l, slice_rects x_dim y_dim line fill lower upper tr (map (fun i => i * 2) (seq j n)) = Some l /\
      forall sh, In sh l <-> exists i, j <= i /\ in_slice tr i /\ rectangle x_dim y_dim line fill tr (i * 2) = Some sh.
  Proof.
    intros F L T. induction n as [|n IH]; intros j Hj; cbn [seq map slice_rects].
    - exists []. split; [reflexivity|]. intros sh. split; [intros []|]. intros (i & Hi & (lo & hi & t0 & t1 & [_ B] & _) & _). assert (2 * i + 1 < length tr) by (apply nth_error_Some; congruence). lia.
    - destruct (IH (S j)) as (l & E & S); [lia|]. destruct (@dims_time tr (j * 2) F) as (lo & t0 & Rl & T0 & ->); [lia|]. destruct (@dims_time tr (j * 2 + 1) F) as (hi & t1 & Rh & T1 & C1); [lia|]. cbn [obind].
      assert (B : box_at tr j lo hi) by (unfold box_at; rewrite (Nat.mul_comm 2 j); auto).
      assert (Un : in_slice tr j -> (lower <= t0)%Q /\ until upper t1 = true).
      { intros (lo' & hi' & t0' & t1' & [B1 B2] & T0' & T1' & X & Y). destruct B as [B3 B4]. rewrite B1 in B3. rewrite B2 in B4. injection B3 as ->. injection B4 as ->. rewrite T0 in T0'. rewrite T1 in T1'. injection T0' as <-. injection T1' as <-. split; [exact X|apply until_ok; exact Y]. }
      destruct (Qle_bool lower t0) eqn:El; cbn [negb].
      + rewrite C1. cbn [obind]. destruct (until upper t1) eqn:Eu; cbn [negb].
        * destruct (@rectangle_ok x_dim y_dim line fill tr (j * 2) F) as (lo2 & hi2 & x0 & x1 & y0 & y1 & _ & _ & _ & _ & _ & _ & Er); [lia|]. rewrite Er. cbn [obind]. rewrite E. cbn [obind]. eexists. split; [reflexivity|].
          assert (In_ : in_slice tr j). { exists lo, hi, t0, t1. split; [exact B|]. split; [exact T0|]. split; [exact T1|]. split; [apply Qle_bool_iff; exact El|apply until_ok; exact Eu]. }
          intros sh. cbn [In]. rewrite S. split.
          -- intros [<-|(i & Hi & X)]; [exists j; auto|exists i; split; [lia|exact X]].
          -- intros (i & Hi & X & Y). destruct (Nat.eq_dec i j) as [->|N]; [left; congruence|right; exists i; split; [lia|auto]].
        * exists []. split; [reflexivity|]. intros sh. split; [intros []|]. intros (i & Hi & (lo' & hi' & t0' & t1' & B' & T0' & T1' & _ & Y) & _). exfalso. revert Eu. unfold until. destruct upper as [u|]; [|discriminate].
          intros Eu. specialize (Y u eq_refl). pose proof (T j i _ _ _ _ _ _ Hi B B' T1 T1') as O. assert (t1 <= u)%Q as W by (eapply Qle_trans; eassumption). apply Qle_bool_iff in W. congruence.
      + exists l. split; [exact E|]. intros sh. rewrite S. split.
        * intros (i & Hi & X). exists i. split; [lia|exact X].
        * intros (i & Hi & X & Y). destruct (Nat.eq_dec i j) as [->|N]; [|exists i; split; [lia|auto]]. destruct (Un X) as [W _]. apply Qle_bool_iff in W. congruence.
  Qed.
  Lemma slice_default k tr m : k <= 1 -> Forall (has_dims x_dim y_dim) tr -> length tr = 2 * m -> 0 < m -> timed tr ->
    exists l, slice_shapes x_dim y_dim line fill lower upper (Some k) tr = Some l /\
      (still x_dim y_dim tr = Some true ->
         exists r p, nth_error tr 0 = Some r /\ point_of x_dim y_dim r p /\ l = [Dot p line]) /\
      (still x_dim y_dim tr <> Some true ->
         forall sh, In sh l <-> exists j lo hi x0 x1 y0 y1, box_at tr j lo hi /\ in_slice tr j /\
           nth_error lo x_dim = Some x0 /\ nth_error hi x_dim = Some x1 /\ nth_error lo y_dim = Some y0 /\ nth_error hi y_dim = Some y1 /\
           sh = Filled (corners x0 x1 y0 y1) line fill).
  Proof.
    intros Hk F L Hm T. unfold slice_shapes. destruct (@still_ok x_dim y_dim tr F) as [[|] Es]; rewrite Es; cbn [obind].
    - destruct (@cell_ok x_dim y_dim tr 0 F) as (r & x & y & R & X & Y & CX & CY); [lia|]. rewrite CX, CY. cbn [obind]. eexists. split; [reflexivity|]. split; [|congruence].
      intros _. exists r, (x, y). split; [exact R|]. split; [split; assumption|reflexivity].
    - rewrite (proj2 (Nat.leb_le k 1) Hk). assert (Er : range_by 0 (length tr) 2 = map (fun i => i * 2) (seq 0 m)). { unfold range_by. rewrite L. replace ((2 * m - 0 + (2 - 1)) / 2) with m; [reflexivity|]. replace (2 * m - 0 + (2 - 1)) with (1 + m * 2) by lia. rewrite Nat.div_add by lia. reflexivity. }
      rewrite Er. destruct (@slice_rects_ok tr m F L T m 0 eq_refl) as (l & E & S). exists l. split; [exact E|]. split; [discriminate|]. intros _ sh. rewrite S. split.
      + intros (i & _ & I & R). pose proof I as (lo & hi & t0 & t1 & B & _). assert (Hi : i * 2 + 1 < length tr) by (destruct B as [_ B]; rewrite Nat.mul_comm; apply nth_error_Some; congruence).
        destruct (@rectangle_ok x_dim y_dim line fill tr (i * 2) F Hi) as (lo2 & hi2 & x0 & x1 & y0 & y1 & R1 & R2 & X0 & X1 & Y0 & Y1 & Er2). rewrite R in Er2. injection Er2 as ->.
        exists i, lo2, hi2, x0, x1, y0, y1. split; [unfold box_at; rewrite (Nat.mul_comm 2 i); auto|]. auto 10.
      + intros (i & lo & hi & x0 & x1 & y0 & y1 & B & I & X0 & X1 & Y0 & Y1 & ->). exists i. split; [lia|]. split; [exact I|]. destruct B as [B1 B2]. unfold rectangle, cell. rewrite (Nat.mul_comm i 2), B1, B2. cbn [obind]. rewrite X0, X1, Y0, Y1. reflexivity.
  Qed.
End Slice.

Section SliceFig.
  Variables (t : ptree) (x_dim y_dim : nat) (labels scale : bool) (plot_color : list (list word)) (lower upper : option Q).
  Hypothesis C : complete t x_dim y_dim.
  Hypothesis Nm : labels = true -> named t.
  Hypothesis En : enough plot_color (length (t_agents t)).
  Let low := match lower with None => 0%Q | Some q => q end.

  Lemma slice_fig lanes fig comb : (forall q a tr l c, trace_at t q a tr -> slice_shapes x_dim y_dim l c low upper comb tr <> None) ->
    exists fig' s l, reachtube_tree_slice t lanes fig x_dim y_dim scale labels 1 comb plot_color lower upper = Some (t, fig') /\
      (forall sh, In sh (f_shapes fig') <-> In sh (f_shapes fig) \/ In sh lanes \/ drawn t plot_color (fun l c => slice_shapes x_dim y_dim l c low upper comb) sh \/ In sh (a_new s)) /\
      known t x_dim y_dim labels true l s /\ (forall n kv, In (n, kv) l <-> (exists q, at_path (t_root t) q = Some n) /\ In kv (p_trace (content n))).
  Proof.
    intros Hf. unfold reachtube_tree_slice. rewrite sample_trace_1. cbn [obind]. destruct (num_dim_ok C) as (d & -> & Cd). cbn [obind]. rewrite Cd. cbn [obind]. fold low.
    destruct (@agents_fold t plot_color (fun f ia => do c <- scheme_of (fst ia); reachtube_tree_single_slice (t_root t) (snd ia) x_dim y_dim c comb plot_color low upper f) (fun l c => slice_shapes x_dim y_dim l c low upper comb)) as (ss & E & S).
    { intros i a I. destruct (@single_ok t x_dim y_dim plot_color C En (fun l c => slice_shapes x_dim y_dim l c low upper comb) i a I Hf) as (c & line & fill & s & E1 & E2 & E3 & _ & _).
      destruct (nodes_In (t_root t)) as (ns & En_ & N). assert (Li : i < length (t_agents t)) by (apply nth_error_Some; congruence).
      assert (Ac : agent_colors plot_color i line fill). { destruct (shade_ok En Li) as (c' & l' & f' & A1 & A2 & A3 & Ac). rewrite E1 in A1. injection A1 as <-. rewrite E2 in A2. rewrite E3 in A3. injection A2 as <-. injection A3 as <-. exact Ac. }
      destruct (@mapM_ok _ _ (fun n : tree pnode => do tr <- dget word_eqb a (p_trace (content n)); slice_shapes x_dim y_dim line fill low upper comb tr) ns) as [ls Els].
      { intros n Hn. destruct (proj1 (N n) Hn) as [q Q]. destruct (@complete_trace t x_dim y_dim q n a C Q) as [tr D]; [eapply nth_error_In; exact I|]. rewrite D. cbn [obind]. apply (Hf q a). exists n. auto. }
      exists (concat ls). split.
      - intros g. cbn [fst snd]. rewrite E1. cbn [obind]. unfold reachtube_tree_single_slice. rewrite E3, E2. cbn [obind]. rewrite En_. cbn [obind]. rewrite Els. reflexivity.
      - intros sh. rewrite in_concat. split.
        + intros (s' & I' & X). apply (mapM_In _ _ Els) in I'. destruct I' as (n & Hn & Y). destruct (dget word_eqb a (p_trace (content n))) as [tr|] eqn:D; [|discriminate]. cbn [obind] in Y.
          destruct (proj1 (N n) Hn) as [q Q]. exists q, tr, s', line, fill. split; [exact Ac|]. split; [exists n; auto|]. auto.
        + intros (q & tr & s' & l & c' & Ac' & (n & Q & D) & Y & X). destruct (agent_colors_fun Ac Ac') as [<- <-]. exists s'. split; [|exact X]. apply (mapM_In _ _ Els). exists n. split; [apply N; eauto|]. rewrite D. exact Y. }
    rewrite E. cbn [obind]. destruct (@marks_ok t x_dim y_dim labels true plot_color C Nm En) as (s & l & -> & K & L). cbn [obind].
    eexists. exists s, l. split; [reflexivity|]. split; [|auto].
    intros sh. rewrite <- S. unfold scaled. destruct scale; cbn [f_shapes adds]; rewrite !in_app_iff; tauto.
  Qed.
End SliceFig.
