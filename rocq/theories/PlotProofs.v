(** Proofs about the static plots. *)
From Coq Require Import Ascii String Lqa.
From Verif Require Import Base BaseFacts Dict PyText Guard Tree TreeSpec TreeProofs TreeProps ResetProofs Plot PlotSpec PlotGeom.
Set Implicit Arguments.
Open Scope nat_scope.

(** ** Lists *)
Lemma mapM_ok {A B} (f : A -> option B) l : (forall a, In a l -> f a <> None) -> exists r, mapM f l = Some r.
Proof.
  induction l as [|a l IH]; intros H; cbn; [eexists; reflexivity|].
  destruct (f a) as [b0|] eqn:E; [|exfalso; apply (H a); cbn; auto]. cbn. destruct IH as [r ->]; [intros b1 Hb; apply H; cbn; auto|]. cbn. eexists; reflexivity.
Qed.
Lemma mapM_In {A B} (f : A -> option B) l r : mapM f l = Some r -> forall b, In b r <-> exists a, In a l /\ f a = Some b.
Proof.
  revert r. induction l as [|a l IH]; cbn; intros r H b.
  - injection H as <-. cbn. split; [tauto|]. intros (a & [] & _).
  - destruct (f a) as [b0|] eqn:E; [|discriminate]. cbn in H. destruct (mapM f l) as [r0|]; [|discriminate]. cbn in H. injection H as <-.
    cbn. rewrite (IH r0 eq_refl). split.
    + intros [<-|(a' & Ha & E')]; [exists a; auto|exists a'; auto].
    + intros (a' & [<-|Ha] & E'); [left; congruence|right; exists a'; auto].
Qed.
Lemma mapM_nth {A B} (f : A -> option B) l r k a : mapM f l = Some r -> nth_error l k = Some a -> exists b, nth_error r k = Some b /\ f a = Some b.
Proof.
  revert r k. induction l as [|x l IH]; intros r k H K; [destruct k; discriminate|]. cbn in H. destruct (f x) eqn:E; [|discriminate]. cbn in H.
  destruct (mapM f l) as [r0|] eqn:E2; [|discriminate]. cbn in H. injection H as <-. destruct k as [|k]; cbn in *; [injection K as ->; eauto|]. apply (IH r0 k eq_refl K).
Qed.
Lemma range_by_In a b k i : 0 < k -> (In i (range_by a b k) <-> exists j, i = a + j * k /\ i < b).
Proof.
  intros Hk. unfold range_by. rewrite in_map_iff.
  assert (M : forall j, j < (b - a + (k - 1)) / k <-> a + j * k < b).
  { intros j. split; intros H.
    - assert (k * ((b - a + (k - 1)) / k) <= b - a + (k - 1)) by (apply Nat.mul_div_le; lia). nia.
    - apply Nat.div_le_lower_bound with (a := b - a + (k - 1)) (b := k) (q := S j); nia. }
  split.
  - intros (j & <- & H). apply in_seq in H. exists j. split; [reflexivity|]. apply M. lia.
  - intros (j & -> & H). exists j. split; [reflexivity|]. apply in_seq. apply M in H. lia.
Qed.
Lemma range_by_1 n : range_by 0 n 1 = seq 0 n.
Proof.
  unfold range_by. rewrite Nat.sub_0_r, Nat.sub_diag, Nat.add_0_r, Nat.div_1_r. rewrite <- (map_id (seq 0 n)) at 2. apply map_ext. intros a. lia.
Qed.

Lemma rows_all_from : forall (tr pre : list vec), take_rows (pre ++ tr) (seq (length pre) (length tr)) = Some tr.
Proof.
  induction tr as [|r tr IH]; intros pre; [reflexivity|]. unfold take_rows in *. cbn [length seq mapM].
  rewrite nth_error_app2, Nat.sub_diag by lia. cbn [obind nth_error].
  specialize (IH (pre ++ [r])). rewrite app_length in IH. cbn [length] in IH. rewrite Nat.add_1_r, <- app_assoc in IH. cbn [app] in IH. rewrite IH. reflexivity.
Qed.
Lemma sample_sim_1 tr : sample_sim tr 1 = Some tr.
Proof. unfold sample_sim. cbn [Nat.eqb]. rewrite range_by_1. apply (rows_all_from tr []). Qed.
Lemma on_traces_id f n : (forall tr, f tr = Some tr) -> on_traces f n = Some n.
Proof.
  intros H. unfold on_traces. destruct n as [d m h]. cbn [p_trace p_mode p_hits].
  assert (E : mapM (fun kv : word * list vec => do tr <- f (snd kv); Some (fst kv, tr)) d = Some d).
  { induction d as [|[a tr] d IH]; [reflexivity|]. cbn [mapM snd fst]. rewrite H. cbn [obind]. rewrite IH. reflexivity. }
  rewrite E. reflexivity.
Qed.
Lemma treeM_id {A} (f : A -> option A) : (forall a, f a = Some a) -> forall t, treeM f t = Some t.
Proof.
  intros H t. induction t as [a ch IH] using tree_ind'. cbn [treeM]. rewrite H. cbn [obind].
  assert (E : (fix go (l : list (tree A)) : option (list (tree A)) := match l with [] => Some [] | c :: r => do c' <- treeM f c; do r' <- go r; Some (c' :: r') end) ch = Some ch).
  { induction IH as [|c r Hc _ IHr]; [reflexivity|]. rewrite Hc. cbn [obind]. rewrite IHr. reflexivity. }
  rewrite E. reflexivity.
Qed.
Lemma sample_trace_1 t : sample_trace t 1 = Some t.
Proof.
  unfold sample_trace, eq_str. rewrite treeM_id by (intros n; apply on_traces_id; apply sample_sim_1). destruct t. reflexivity.
Qed.

(** ** Nodes *)
Lemma nodes_In {A} (t : tree A) : exists ns, nodes t = Some ns /\ forall n, In n ns <-> exists q, at_path t q = Some n.
Proof.
  destruct (C35_nodes t) as (ps & ns & E & _ & P & M & _). exists ns. split; [exact E|]. intros n. split.
  - intros H. assert (G : In (Some n) (map (at_path t) ps)) by (rewrite M; apply in_map; exact H). apply in_map_iff in G. destruct G as (q & Hq & _). eauto.
  - intros (q & H). assert (I : In q ps) by (apply P; unfold is_path; congruence).
    assert (G : In (Some n) (map Some ns)) by (rewrite <- M, <- H; apply in_map; exact I). apply in_map_iff in G. destruct G as (m & [= ->] & I'). exact I'.
Qed.

Lemma each_node_spec (t : tree pnode) a f :
  (forall q n, at_path t q = Some n -> exists tr, dget word_eqb a (p_trace (content n)) = Some tr /\ f tr <> None) ->
  exists l, each_node t a f = Some l /\
    forall sh, In sh l <-> exists q n tr s, at_path t q = Some n /\ dget word_eqb a (p_trace (content n)) = Some tr /\ f tr = Some s /\ In sh s.
Proof.
  intros H. unfold each_node. destruct (nodes_In t) as (ns & -> & N). cbn [obind].
  assert (G : forall l, (forall n, In n l -> In n ns) -> exists r,
    (fix go l := match l with [] => Some [] | n :: l' => match dget word_eqb a (p_trace (content n)) with None => Some [] | Some tr => do s <- f tr; do r <- go l'; Some (s ++ r) end end) l = Some r /\
    forall sh : shape, In sh r <-> exists n tr s, In n l /\ dget word_eqb a (p_trace (content n)) = Some tr /\ f tr = Some s /\ In sh s).
  { induction l as [|n l IH]; intros Hl.
    - exists []. split; [reflexivity|]. intros sh. split; [intros []|]. intros (n & ? & ? & [] & _).
    - destruct IH as (r & E & R); [intros m Hm; apply Hl; cbn; auto|].
      destruct (proj1 (N n)) as [q Hq]; [apply Hl; cbn; auto|]. destruct (H q n Hq) as (tr & D & F). destruct (f tr) as [s|] eqn:Ef; [|contradiction].
      exists (s ++ r). rewrite D, Ef. cbn [obind]. rewrite E. cbn [obind]. split; [reflexivity|]. intros sh. rewrite in_app_iff, R. split.
      + intros [I|(n' & tr' & s' & I & X)]; [exists n, tr, s; cbn; auto|exists n', tr', s'; cbn; tauto].
      + intros (n' & tr' & s' & [<-|I] & D' & F' & X); [left; congruence|right; exists n', tr', s'; auto]. }
  destruct (G ns (fun n i => i)) as (l & E & L). exists l. split; [exact E|]. intros sh. rewrite L. split.
  - intros (n & tr & s & I & X). apply N in I. destruct I as [q Hq]. exists q, n, tr, s. auto.
  - intros (q & n & tr & s & Hq & X). exists n, tr, s. split; [apply N; eauto|exact X].
Qed.

Lemma foldM_adds {A} (step : figure -> A -> option figure) (P : A -> list shape -> Prop) l :
  (forall a, In a l -> exists s, P a s /\ forall f, step f a = Some (adds s f)) ->
  exists ss, Forall2 P l ss /\ forall f, foldM step l f = Some (adds (concat ss) f).
Proof.
  induction l as [|a l IH]; intros H.
  - exists []. split; [constructor|]. intros [s x y]. unfold adds. cbn. rewrite app_nil_r. reflexivity.
  - destruct (H a (or_introl eq_refl)) as (s & Ps & Es). destruct IH as (ss & F & E); [intros b Hb; apply H; cbn; auto|].
    exists (s :: ss). split; [constructor; assumption|]. intros f. cbn [foldM]. rewrite Es. cbn [obind]. rewrite E. unfold adds. cbn. rewrite app_assoc. reflexivity.
Qed.

(** ** One node of a tube *)
Lemma cell_ok x_dim y_dim tr i : Forall (has_dims x_dim y_dim) tr -> i < length tr -> exists r x y,
  nth_error tr i = Some r /\ nth_error r x_dim = Some x /\ nth_error r y_dim = Some y /\ cell tr i x_dim = Some x /\ cell tr i y_dim = Some y.
Proof.
  intros F H. destruct (nth_error tr i) as [r|] eqn:E; [|apply nth_error_None in E; lia].
  rewrite Forall_forall in F. destruct (F r (nth_error_In _ _ E)) as [A B].
  destruct (nth_error r x_dim) as [x|] eqn:Ex; [|apply nth_error_None in Ex; lia]. destruct (nth_error r y_dim) as [y|] eqn:Ey; [|apply nth_error_None in Ey; lia].
  exists r, x, y. unfold cell. rewrite E. cbn [obind]. auto.
Qed.
Lemma column_ok x_dim y_dim tr idxs d : Forall (has_dims x_dim y_dim) tr -> (d = x_dim \/ d = y_dim) -> (forall i, In i idxs -> i < length tr) ->
  exists l, column tr d idxs = Some l.
Proof.
  intros F D H. apply mapM_ok. intros i Hi. destruct (@cell_ok x_dim y_dim tr i F (H i Hi)) as (r & x & y & _ & _ & _ & A & B). destruct D as [-> | ->]; congruence.
Qed.
Lemma unique1_In l u v : unique1 l = true -> In u l -> In v l -> (u == v)%Q.
Proof.
  destruct l as [|a l]; [discriminate|]. cbn [unique1]. rewrite forallb_forall. intros H.
  assert (G : forall z, In z (a :: l) -> (a == z)%Q) by (intros z [<-|I]; [reflexivity|apply Qeq_bool_iff; apply H; exact I]).
  intros U V. rewrite <- (G u U). apply G. exact V.
Qed.
Lemma still_varies x_dim y_dim tr : varies tr x_dim y_dim -> still x_dim y_dim tr <> Some true.
Proof.
  intros (i & j & ri & rj & d & u & v & D & Li & Lj & Ri & Rj & U & V & N) H. unfold still in H.
  rewrite range_by_1 in H.
  destruct (column tr x_dim _) as [xs|] eqn:Ex; [|discriminate]. cbn [obind] in H. destruct (column tr y_dim _) as [ys|] eqn:Ey; [|discriminate]. cbn [obind] in H.
  injection H as H. apply andb_prop in H. destruct H as [Hx Hy].
  assert (Ci : cell tr i d = Some u) by (unfold cell; rewrite Ri; exact U). assert (Cj : cell tr j d = Some v) by (unfold cell; rewrite Rj; exact V).
  assert (Si : In i (seq 0 (length tr - 1))) by (apply in_seq; lia). assert (Sj : In j (seq 0 (length tr - 1))) by (apply in_seq; lia).
  destruct D as [-> | ->]; apply N.
  - apply (unique1_In xs); [exact Hx| |]; apply (mapM_In _ _ Ex); eauto.
  - apply (unique1_In ys); [exact Hy| |]; apply (mapM_In _ _ Ey); eauto.
Qed.
Lemma still_ok x_dim y_dim tr : Forall (has_dims x_dim y_dim) tr -> exists b, still x_dim y_dim tr = Some b.
Proof.
  intros F. unfold still. rewrite range_by_1.
  destruct (@column_ok x_dim y_dim tr (seq 0 (length tr - 1)) x_dim F (or_introl eq_refl)) as [xs ->]; [intros i Hi; apply in_seq in Hi; lia|].
  destruct (@column_ok x_dim y_dim tr (seq 0 (length tr - 1)) y_dim F (or_intror eq_refl)) as [ys ->]; [intros i Hi; apply in_seq in Hi; lia|]. cbn. eauto.
Qed.

Lemma rectangle_ok x_dim y_dim line fill tr i : Forall (has_dims x_dim y_dim) tr -> i + 1 < length tr ->
  exists lo hi x0 x1 y0 y1, nth_error tr i = Some lo /\ nth_error tr (i + 1) = Some hi /\
    nth_error lo x_dim = Some x0 /\ nth_error hi x_dim = Some x1 /\ nth_error lo y_dim = Some y0 /\ nth_error hi y_dim = Some y1 /\
    rectangle x_dim y_dim line fill tr i = Some (Filled (corners x0 x1 y0 y1) line fill).
Proof.
  intros F H. destruct (@cell_ok x_dim y_dim tr i F) as (lo & x0 & y0 & L & X0 & Y0 & CX0 & CY0); [lia|].
  destruct (@cell_ok x_dim y_dim tr (i + 1) F H) as (hi & x1 & y1 & L1 & X1 & Y1 & CX1 & CY1).
  exists lo, hi, x0, x1, y0, y1. unfold rectangle. rewrite CX0, CX1, CY0, CY1. cbn [obind]. repeat (split; [assumption|]). reflexivity.
Qed.

(** Default grouping: one rectangle for every box, or a dot. *)
Lemma tube_default x_dim y_dim line fill k tr m : k <= 1 -> Forall (has_dims x_dim y_dim) tr -> length tr = 2 * m -> 0 < m ->
  exists l, tube_shapes x_dim y_dim line fill (Some k) tr = Some l /\
    (still x_dim y_dim tr = Some true ->
       exists r p, nth_error tr 0 = Some r /\ point_of x_dim y_dim r p /\ l = [Dot p line]) /\
    (still x_dim y_dim tr <> Some true ->
       forall sh, In sh l <-> exists j lo hi x0 x1 y0 y1, box_at tr j lo hi /\
         nth_error lo x_dim = Some x0 /\ nth_error hi x_dim = Some x1 /\ nth_error lo y_dim = Some y0 /\ nth_error hi y_dim = Some y1 /\
         sh = Filled (corners x0 x1 y0 y1) line fill).
Proof.
  intros K F E M. unfold tube_shapes. destruct (still_ok F) as [b Hb]. rewrite Hb. cbn [obind]. destruct b.
  - destruct (@cell_ok x_dim y_dim tr 0 F) as (r & x & y & R & X & Y & CX & CY); [lia|]. rewrite CX, CY. cbn [obind].
    eexists. split; [reflexivity|]. split; [|congruence]. intros _. exists r, (x, y). split; [exact R|]. split; [split; assumption|reflexivity].
  - assert (Kb : k <=? 1 = true) by (apply Nat.leb_le; exact K). rewrite Kb.
    assert (I : forall i, In i (range_by 0 (length tr) 2) <-> exists j, i = 2 * j /\ 2 * j + 1 < length tr).
    { intros i. rewrite range_by_In by lia. split; intros (j & -> & H); exists j; lia. }
    destruct (mapM_ok (rectangle x_dim y_dim line fill tr) (range_by 0 (length tr) 2)) as [l Hl].
    { intros i Hi. apply I in Hi. destruct Hi as (j & -> & H). destruct (@rectangle_ok x_dim y_dim line fill tr (2 * j) F H) as (? & ? & ? & ? & ? & ? & _ & _ & _ & _ & _ & _ & ->). discriminate. }
    exists l. split; [exact Hl|]. split; [congruence|]. intros _ sh. rewrite (mapM_In _ _ Hl). split.
    + intros (i & Hi & R). apply I in Hi. destruct Hi as (j & -> & H). destruct (@rectangle_ok x_dim y_dim line fill tr (2 * j) F H) as (lo & hi & x0 & x1 & y0 & y1 & A & B & C1 & C2 & C3 & C4 & R').
      exists j, lo, hi, x0, x1, y0, y1. split; [split; assumption|]. repeat (split; [assumption|]). congruence.
    + intros (j & lo & hi & x0 & x1 & y0 & y1 & [A B] & C1 & C2 & C3 & C4 & ->).
      assert (H : 2 * j + 1 < length tr) by (apply nth_error_Some; congruence).
      exists (2 * j). split; [apply I; eauto|]. destruct (@rectangle_ok x_dim y_dim line fill tr (2 * j) F H) as (lo' & hi' & x0' & x1' & y0' & y1' & A' & B' & D1 & D2 & D3 & D4 & R').
      rewrite R'. congruence.
Qed.

(** ** Labels, marks and ranges *)
Lemma foldM_nested {A B S} (g : A -> S -> B -> option S) (h : A -> list B) l s :
  foldM (fun s n => foldM (g n) (h n) s) l s = foldM (fun s x => g (fst x) s (snd x)) (flat_map (fun n => map (pair n) (h n)) l) s.
Proof.
  revert s. induction l as [|n l IH]; intros s; [reflexivity|]. cbn [foldM flat_map].
  assert (G : forall l1 l2 s, foldM (fun s x => g (fst x) s (snd x)) (map (pair n) l1 ++ l2) s = (do s' <- foldM (g n) l1 s; foldM (fun s x => g (fst x) s (snd x)) l2 s')).
  { induction l1 as [|b l1 IH1]; intros l2 s0; [reflexivity|]. cbn [map app foldM fst snd]. destruct (g n s0 b); [|reflexivity]. cbn [obind]. apply IH1. }
  rewrite G. destruct (foldM (g n) (h n) s) as [s'|]; [|reflexivity]. cbn [obind]. apply IH.
Qed.

Lemma fold_omin : forall xs m, (forall v, m = Some v -> exists r, fold_left omin xs m = Some r /\ (r <= v)%Q) /\
  (forall v, In v xs -> exists r, fold_left omin xs m = Some r /\ (r <= v)%Q).
Proof.
  induction xs as [|x xs IH]; intros m; cbn [fold_left].
  - split; [intros v ->; exists v; split; [reflexivity|lra]|intros v []].
  - destruct (IH (omin m x)) as [A B].
    assert (Hx : exists r, omin m x = Some r /\ (r <= x)%Q /\ forall v, m = Some v -> (r <= v)%Q).
    { unfold omin. destruct m as [p|]; [|exists x; repeat split; [lra|discriminate]]. destruct (Qle_bool p x) eqn:E.
      - apply Qle_bool_iff in E. exists p. repeat split; [exact E|]. intros v [= ->]. lra.
      - exists x. assert (H : (x < p)%Q) by (apply Qnot_le_lt; intros H; apply Qle_bool_iff in H; congruence). repeat split; [lra|]. intros v [= ->]. lra. }
    destruct Hx as (r & R & Rx & Rm). destruct (A r R) as (r2 & E2 & L2). split.
    + intros v Hv. exists r2. split; [exact E2|]. specialize (Rm v Hv). lra.
    + intros v [<-|I]; [exists r2; split; [exact E2|lra]|apply B; exact I].
Qed.
Lemma fold_omax : forall xs m, (forall v, m = Some v -> exists r, fold_left omax xs m = Some r /\ (v <= r)%Q) /\
  (forall v, In v xs -> exists r, fold_left omax xs m = Some r /\ (v <= r)%Q).
Proof.
  induction xs as [|x xs IH]; intros m; cbn [fold_left].
  - split; [intros v ->; exists v; split; [reflexivity|lra]|intros v []].
  - destruct (IH (omax m x)) as [A B].
    assert (Hx : exists r, omax m x = Some r /\ (x <= r)%Q /\ forall v, m = Some v -> (v <= r)%Q).
    { unfold omax. destruct m as [p|]; [|exists x; repeat split; [lra|discriminate]]. destruct (Qle_bool x p) eqn:E.
      - apply Qle_bool_iff in E. exists p. repeat split; [exact E|]. intros v [= ->]. lra.
      - exists x. assert (H : (p < x)%Q) by (apply Qnot_le_lt; intros H; apply Qle_bool_iff in H; congruence). repeat split; [lra|]. intros v [= ->]. lra. }
    destruct Hx as (r & R & Rx & Rm). destruct (A r R) as (r2 & E2 & L2). split.
    + intros v Hv. exists r2. split; [exact E2|]. specialize (Rm v Hv). lra.
    + intros v [<-|I]; [exists r2; split; [exact E2|lra]|apply B; exact I].
Qed.

Lemma index_ok a l : In a l -> exists i, index a l = Some i /\ i < length l.
Proof.
  intros H. unfold index.
  assert (G : forall l k, In a l -> exists i, (fix go i l := match l with [] => None | b :: l' => if word_eqb a b then Some i else go (S i) l' end) k l = Some i /\ i < k + length l).
  { clear. induction l as [|b l IH]; intros k H; [destruct H|]. cbn [length]. destruct (word_eqb a b) eqn:E; [exists k; split; [reflexivity|lia]|].
    destruct H as [->|H]; [rewrite (proj2 (word_eqb_eq a a) eq_refl) in E; discriminate|]. destruct (IH (S k) H) as (i & Ei & Li). exists i. split; [exact Ei|lia]. }
  destruct (G l 0 H) as (i & E & L). exists i. auto.
Qed.
Lemma back_1 (l : list Q) : back l 1 = nth_error l (length l - 1).
Proof.
  unfold back. cbn [Nat.sub]. destruct (rev l) as [|a r] eqn:E.
  - apply (f_equal (@length Q)) in E. rewrite rev_length in E. destruct l; [reflexivity|discriminate].
  - apply (f_equal (@rev Q)) in E. rewrite rev_involutive in E. subst l. cbn [rev]. rewrite app_length. cbn [length]. rewrite nth_error_app2 by lia.
    replace (length (rev r) + 1 - 1 - length (rev r)) with 0 by lia. reflexivity.
Qed.
Lemma column_nth tr d l i r v : column tr d (seq 0 (length tr)) = Some l -> nth_error tr i = Some r -> nth_error r d = Some v -> nth_error l i = Some v.
Proof.
  intros H R V. assert (L : i < length tr) by (apply nth_error_Some; congruence).
  assert (S : nth_error (seq 0 (length tr)) i = Some i) by (rewrite nth_error_nth' with (d := 0) by (rewrite seq_length; exact L); rewrite seq_nth by exact L; reflexivity).
  destruct (mapM_nth _ _ _ H S) as (b & B & C). unfold cell in C. rewrite R in C. cbn [obind] in C. congruence.
Qed.

Section Marks.
  Variables (t : ptree) (x_dim y_dim : nat) (labels need : bool) (plot_color : list (list word)).
  Hypothesis C : complete t x_dim y_dim.
  Hypothesis Nm : labels = true -> named t.
  Hypothesis En : enough plot_color (length (t_agents t)).

  Definition visible : Prop := need = true -> labels = true.
  Definition hit_of (n : tree pnode) (kv : word * list vec) (sh : shape) : Prop :=
    visible /\ exists h texts r p, p_hits (content n) = Some h /\ dget word_eqb (fst kv) h = Some texts /\ last_row (snd kv) r /\ point_of x_dim y_dim r p /\
      sh = Hit p (map hit_text texts).
  Definition label_of (n : tree pnode) (kv : word * list vec) (sh : shape) : Prop :=
    labels = true /\ exists m m0 r p c, dget word_eqb (fst kv) (p_mode (content n)) = Some m /\ nth_error m 0 = Some m0 /\ nth_error (snd kv) 0 = Some r /\ point_of x_dim y_dim r p /\
      sh = Label p (caption (fst kv) m0) c.
  (** What is known after the pairs of [l]. *)
  Record known (l : list (tree pnode * (word * list vec))) (s : acc) : Prop := {
    k_keys : labels = true -> forall a, In a (t_agents t) -> dget word_eqb a (a_prev s) <> None;
    k_prev : labels = true -> forall a m, dget word_eqb a (a_prev s) = Some m -> m = [] \/ exists p c m0, nth_error m 0 = Some m0 /\ In (Label p (caption a m0) c) (a_new s);
    k_sound : forall sh, In sh (a_new s) -> exists n kv, In (n, kv) l /\ (hit_of n kv sh \/ label_of n kv sh);
    k_hits : forall n kv sh, In (n, kv) l -> hit_of n kv sh -> In sh (a_new s);
    k_labels : labels = true -> forall n kv m m0, In (n, kv) l -> dget word_eqb (fst kv) (p_mode (content n)) = Some m -> nth_error m 0 = Some m0 ->
      exists p c, In (Label p (caption (fst kv) m0) c) (a_new s);
    k_x : forall n kv r v, In (n, kv) l -> In r (snd kv) -> nth_error r x_dim = Some v -> exists lo hi, fst (a_lo s) = Some lo /\ fst (a_hi s) = Some hi /\ (lo <= v <= hi)%Q;
    k_y : forall n kv r v, In (n, kv) l -> In r (snd kv) -> nth_error r y_dim = Some v -> exists lo hi, snd (a_lo s) = Some lo /\ snd (a_hi s) = Some hi /\ (lo <= v <= hi)%Q }.

  Lemma mark_ok l s n kv q : known l s -> at_path (t_root t) q = Some n -> In kv (p_trace (content n)) ->
    exists s', mark (t_agents t) x_dim y_dim labels plot_color need (content n) s kv = Some s' /\ known (l ++ [(n, kv)]) s'.
  Proof.
    intros K Q1 I. destruct kv as [a tr]. destruct C as [_ C']. destruct (C' q n Q1) as (ND & Ag & Tr).
    assert (D : dget word_eqb a (p_trace (content n)) = Some tr) by (apply In_dget; [exact word_eqb_eq|exact ND|exact I]).
    destruct (Tr a tr D) as [Ne F]. assert (Ia : In a (t_agents t)) by (apply Ag; apply in_map_iff; exists (a, tr); auto).
    assert (Lt : 0 < length tr) by (destruct tr; [contradiction|cbn; lia]).
    destruct (@column_ok x_dim y_dim tr (seq 0 (length tr)) x_dim F (or_introl eq_refl)) as [xs Ex]; [intros i Hi; apply in_seq in Hi; lia|].
    destruct (@column_ok x_dim y_dim tr (seq 0 (length tr)) y_dim F (or_intror eq_refl)) as [ys Ey]; [intros i Hi; apply in_seq in Hi; lia|].
    assert (Lx : length xs = length tr) by (apply mapM_length in Ex; rewrite seq_length in Ex; exact Ex). assert (Ly : length ys = length tr) by (apply mapM_length in Ey; rewrite seq_length in Ey; exact Ey).
    destruct (@cell_ok x_dim y_dim tr 0 F Lt) as (r0 & x0 & y0 & R0 & X0 & Y0 & _ & _).
    destruct (@cell_ok x_dim y_dim tr (length tr - 1) F) as (rl & xl & yl & Rl & Xl & Yl & _ & _); [lia|].
    destruct (index_ok _ _ Ia) as (i & Ei & Li).
    assert (Hm : i mod num_theme < num_theme) by (apply Nat.mod_upper_bound; discriminate).
    destruct (En (i := i mod num_theme)) as (row & Er & Lr); [pose proof (Nat.mod_le i num_theme ltac:(discriminate)); lia|exact Hm|].
    destruct (nth_error row 0) as [c|] eqn:Ec; [|apply nth_error_None in Ec; lia].
    unfold mark. rewrite Ex, Ey. cbn [obind].
    rewrite (@column_nth _ _ _ _ _ _ Ex R0 X0), (@column_nth _ _ _ _ _ _ Ey R0 Y0). cbn [obind]. rewrite !back_1, Lx, Ly, (@column_nth _ _ _ _ _ _ Ex Rl Xl), (@column_nth _ _ _ _ _ _ Ey Rl Yl). cbn [obind].
    rewrite Ei. cbn [obind]. rewrite Er. cbn [obind]. rewrite Ec. cbn [obind].
    set (hit := match p_hits (content n) with Some h => _ | None => _ end).
    assert (Hh : forall sh, In sh hit <-> hit_of n (a, tr) sh).
    { intros sh. unfold hit, hit_of, visible. cbn [fst snd]. split.
      - destruct (p_hits (content n)) as [h|]; [|intros []]. destruct (dget word_eqb a h) as [texts|] eqn:Dh; [|intros []].
        destruct (need && negb labels) eqn:B; [intros []|]. intros [<-|[]]. split.
        + intros ->. cbn in B. destruct labels; [reflexivity|discriminate].
        + exists h, texts, rl, (xl, yl). split; [reflexivity|]. split; [exact Dh|]. split; [exact Rl|]. split; [split; assumption|reflexivity].
      - intros (V & h & texts & r & p & -> & -> & Lr' & [Px Py] & ->). assert (B : need && negb labels = false) by (destruct need; [rewrite V; reflexivity|reflexivity]). rewrite B.
        unfold last_row in Lr'. rewrite Rl in Lr'. injection Lr' as <-. left. destruct p. cbn in *. congruence. }
    set (lab := if labels then _ else _).
    assert (Hl : exists prev new, lab = Some (prev, new) /\
      (labels = true -> forall b, In b (t_agents t) -> dget word_eqb b prev <> None) /\
      (labels = true -> forall b m, dget word_eqb b prev = Some m -> m = [] \/ exists p c' m0, nth_error m 0 = Some m0 /\ In (Label p (caption b m0) c') (a_new s ++ new)) /\
      (forall sh, In sh new -> label_of n (a, tr) sh) /\
      (labels = true -> forall m m0, dget word_eqb a (p_mode (content n)) = Some m -> nth_error m 0 = Some m0 -> exists p c', In (Label p (caption a m0) c') (a_new s ++ new))).
    { unfold lab. destruct labels eqn:El.
      - destruct (dget word_eqb a (a_prev s)) as [pm|] eqn:Ep; [|exfalso; exact (k_keys K El a Ia Ep)]. cbn [obind].
        pose proof (Nm eq_refl) as Nm'; unfold named in Nm'; destruct (Nm' q n a Q1 Ia) as (m & Em & Nem); clear Nm'. rewrite Em. cbn [obind]. destruct (list_eqb word_eqb pm m) eqn:Eq.
        + apply (list_eqb_eq word_eqb word_eqb_eq) in Eq. subst pm. exists (a_prev s), []. split; [reflexivity|]. split; [intros _; exact (k_keys K El)|]. split.
          * intros _ b m' Hb. destruct (k_prev K El b Hb) as [->|(p & c' & m0 & A & B)]; [left; reflexivity|right; exists p, c', m0; split; [exact A|apply in_or_app; left; exact B]].
          * split; [intros sh []|]. intros _ m' m0 H1 H2. injection H1 as <-. destruct (k_prev K El a Ep) as [->|(p & c' & m0' & A & B)]; [contradiction|].
            exists p, c'. apply in_or_app. left. congruence.
        + destruct m as [|m0 m']; [contradiction|]. cbn [nth_error obind]. exists (dset word_eqb a (m0 :: m') (a_prev s)), [Label (x0, y0) (caption a m0) c]. split; [reflexivity|].
          assert (Lb : label_of n (a, tr) (Label (x0, y0) (caption a m0) c)).
          { split; [exact El|]. exists (m0 :: m'), m0, r0, (x0, y0), c. cbn [fst snd]. split; [exact Em|]. split; [reflexivity|]. split; [exact R0|]. split; [split; assumption|reflexivity]. }
          split; [|split; [|split]].
          * intros _ b Hb. destruct (word_eqb a b) eqn:Eab; [apply word_eqb_eq in Eab; subst b; unfold dset; rewrite dget_alter_same by exact word_eqb_eq; discriminate|].
            assert (Nab : a <> b) by (intros ->; rewrite (proj2 (word_eqb_eq b b) eq_refl) in Eab; discriminate). unfold dset. rewrite dget_alter_other; [apply (k_keys K El); exact Hb|exact word_eqb_eq|exact Nab].
          * intros _ b mm Hb. destruct (word_eqb a b) eqn:Eab.
            -- apply word_eqb_eq in Eab. subst b. unfold dset in Hb. rewrite dget_alter_same in Hb by exact word_eqb_eq. injection Hb as <-. right. exists (x0, y0), c, m0. split; [reflexivity|apply in_or_app; right; left; reflexivity].
            -- assert (Nab : a <> b) by (intros ->; rewrite (proj2 (word_eqb_eq b b) eq_refl) in Eab; discriminate). unfold dset in Hb. rewrite dget_alter_other in Hb by (exact word_eqb_eq || exact Nab).
               destruct (k_prev K El b Hb) as [->|(p & c' & m0' & A & B)]; [left; reflexivity|right; exists p, c', m0'; split; [exact A|apply in_or_app; left; exact B]].
          * intros sh [<-|[]]. exact Lb.
          * intros _ m'' m0'' H1 H2. injection H1 as <-. cbn in H2. injection H2 as <-. exists (x0, y0), c. apply in_or_app. right. left. reflexivity.
      - exists (a_prev s), []. split; [reflexivity|]. split; [discriminate|]. split; [discriminate|]. split; [intros sh []|discriminate]. }
    destruct Hl as (prev & new & -> & Hk & Hp & Hs & Hla). cbn [obind fst snd].
    eexists. split; [reflexivity|]. clearbody hit.
    assert (App : forall (P : Prop) x (z : tree pnode * (word * list vec)), In x (l ++ [z]) -> (In x l -> P) -> (x = z -> P) -> P).
    { intros P x z Hin A B. apply in_app_or in Hin. destruct Hin as [Hin|[<-|[]]]; auto. }
    constructor; cbn [a_prev a_new a_lo a_hi fst snd].
    - exact Hk.
    - intros HL b m Hb. destruct (Hp HL b m Hb) as [->|(p & c' & m0 & A & B)]; [left; reflexivity|right; exists p, c', m0; split; [exact A|]]. rewrite app_assoc. apply in_or_app. left. exact B.
    - intros sh Hin. apply in_app_or in Hin. destruct Hin as [Hin|Hin].
      + destruct (k_sound K sh Hin) as (n' & kv' & A & B). exists n', kv'. split; [apply in_or_app; left; exact A|exact B].
      + exists n, (a, tr). split; [apply in_or_app; right; left; reflexivity|]. apply in_app_or in Hin. destruct Hin as [Hin|Hin]; [right; apply Hs; exact Hin|left; apply Hh; exact Hin].
    - intros n' kv' sh Hin Ho. apply (App _ _ _ Hin).
      + intros A. apply in_or_app. left. exact (@k_hits _ _ K n' kv' sh A Ho).
      + intros [= -> ->]. apply in_or_app. right. apply in_or_app. right. apply Hh. exact Ho.
    - intros HL n' kv' m m0 Hin A B. apply (App _ _ _ Hin).
      + intros Hin'. destruct (@k_labels _ _ K HL n' kv' m m0 Hin' A B) as (p & c' & G). exists p, c'. apply in_or_app. left. exact G.
      + intros [= -> ->]. cbn [fst] in *. destruct (Hla HL m m0 A B) as (p & c' & G). exists p, c'. rewrite app_assoc. apply in_or_app. left. exact G.
    - intros n' kv' r v Hin Hr Hv. apply (App _ _ _ Hin).
      + intros Hin'. destruct (@k_x _ _ K n' kv' r v Hin' Hr Hv) as (lo & hi & A & B & W). destruct (proj1 (fold_omin xs _) lo A) as (lo' & A' & A''). destruct (proj1 (fold_omax xs _) hi B) as (hi' & B' & B'').
        exists lo', hi'. split; [exact A'|]. split; [exact B'|lra].
      + intros [= -> ->]. cbn [snd] in Hr. apply In_nth_error in Hr. destruct Hr as [k Hr]. pose proof (@column_nth _ _ _ _ _ _ Ex Hr Hv) as Hn. apply nth_error_In in Hn.
        destruct (proj2 (fold_omin xs (fst (a_lo s))) v Hn) as (lo & A & A'). destruct (proj2 (fold_omax xs (fst (a_hi s))) v Hn) as (hi & B & B'). exists lo, hi. auto.
    - intros n' kv' r v Hin Hr Hv. apply (App _ _ _ Hin).
      + intros Hin'. destruct (@k_y _ _ K n' kv' r v Hin' Hr Hv) as (lo & hi & A & B & W). destruct (proj1 (fold_omin ys _) lo A) as (lo' & A' & A''). destruct (proj1 (fold_omax ys _) hi B) as (hi' & B' & B'').
        exists lo', hi'. split; [exact A'|]. split; [exact B'|lra].
      + intros [= -> ->]. cbn [snd] in Hr. apply In_nth_error in Hr. destruct Hr as [k Hr]. pose proof (@column_nth _ _ _ _ _ _ Ey Hr Hv) as Hn. apply nth_error_In in Hn.
        destruct (proj2 (fold_omin ys (snd (a_lo s))) v Hn) as (lo & A & A'). destruct (proj2 (fold_omax ys (snd (a_hi s))) v Hn) as (hi & B & B'). exists lo, hi. auto.
  Qed.

  Lemma marks_ok : exists s l, marks (t_agents t) x_dim y_dim labels plot_color need (t_root t) = Some s /\ known l s /\
    forall n kv, In (n, kv) l <-> (exists q, at_path (t_root t) q = Some n) /\ In kv (p_trace (content n)).
  Proof.
    unfold marks. destruct (nodes_In (t_root t)) as (ns & -> & N). cbn [obind]. rewrite foldM_nested.
    set (l := flat_map _ ns). set (s0 := mka _ _ _ _).
    assert (L : forall n kv, In (n, kv) l <-> (exists q, at_path (t_root t) q = Some n) /\ In kv (p_trace (content n))).
    { intros n kv. unfold l. rewrite in_flat_map. split.
      - intros (m & Hm & H). apply in_map_iff in H. destruct H as (kv' & [= -> ->] & H). split; [apply N; exact Hm|exact H].
      - intros [H1 H2]. exists n. split; [apply N; exact H1|]. apply in_map. exact H2. }
    assert (K0 : known [] s0).
    { constructor; cbn; try (intros; contradiction).
      - intros HL a Ha. pose proof (Nm HL) as Nm'; unfold named in Nm'; destruct (Nm' [] (t_root t) a eq_refl Ha) as (m & Em & _). rewrite dget_None by exact word_eqb_eq. intros X. apply X. rewrite map_map. cbn. apply dget_In in Em; [|exact word_eqb_eq]. apply in_map_iff. exists (a, m). auto.
      - intros HL a m H. apply dget_In in H; [|exact word_eqb_eq]. apply in_map_iff in H. destruct H as ([a' m'] & E & _). injection E as _ <-. left. reflexivity. }
    assert (G : forall suf pre s, l = pre ++ suf -> known pre s -> exists s', foldM (fun s x => mark (t_agents t) x_dim y_dim labels plot_color need (content (fst x)) s (snd x)) suf s = Some s' /\ known l s').
    { induction suf as [|[n kv] suf IH]; intros pre s E K.
      - rewrite app_nil_r in E. subst pre. exists s. split; [reflexivity|exact K].
      - assert (I : In (n, kv) l) by (rewrite E; apply in_or_app; right; left; reflexivity). apply L in I. destruct I as [[q Hq] I].
        destruct (@mark_ok pre s n kv q K Hq I) as (s' & Es & K'). cbn [foldM fst snd]. rewrite Es. cbn [obind]. apply (IH (pre ++ [(n, kv)])); [rewrite <- app_assoc; exact E|exact K']. }
    destruct (G l [] s0 eq_refl K0) as (s & Es & K). exists s, l. auto.
  Qed.
End Marks.
