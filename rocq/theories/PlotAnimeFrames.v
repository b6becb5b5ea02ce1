(** Proofs about the frames of reachtube_anime and simulation_anime. *)
From Coq Require Import Ascii String Sorted Permutation Lqa.
From Verif Require Import Base BaseFacts Dict PyText Round RoundProofs Tree TreeSpec TreeProofs ResetProofs Plot PlotSpec PlotGeom PlotProofs PlotMain PlotAnime PlotAnimeSpec PlotAnimeProofs PlotAnimeMain.
Set Implicit Arguments.
Open Scope nat_scope.

(** ** The nodes *)
Lemma dfs_total {A} : forall fuel (st : list (tree A)), list_sum (map (@size A) st) <= fuel -> exists ns, dfs fuel st = Some ns.
Proof.
  induction fuel as [|fuel IH]; intros [|[a ch] st] L; cbn [dfs]; try (eexists; reflexivity); rewrite map_cons in L; change (list_sum (size (Node a ch) :: map (@size A) st)) with (S (list_sum (map (@size A) ch)) + list_sum (map (@size A) st)) in L; [lia|].
  destruct (IH (rev ch ++ st)) as [ns E].
  - rewrite map_app, list_sum_app, map_rev. assert (R : forall l, list_sum (rev l) = list_sum l) by (induction l as [|x l IHl]; [reflexivity|]; cbn [rev]; rewrite list_sum_app; change (list_sum [x]) with (x + 0); change (list_sum (x :: l)) with (x + list_sum l); lia). rewrite R. lia.
  - cbn [child]. rewrite E. cbn [obind]. eexists. reflexivity.
Qed.
Lemma dfs_In {A} : forall fuel (st ns : list (tree A)), dfs fuel st = Some ns -> forall n, In n ns <-> exists m q, In m st /\ at_path m q = Some n.
Proof.
  induction fuel as [|fuel IH]; intros [|m st] ns E n; cbn in E.
  - injection E as <-. split; [intros []|intros (? & ? & [] & _)].
  - discriminate.
  - injection E as <-. split; [intros []|intros (? & ? & [] & _)].
  - destruct (dfs fuel (rev (child m) ++ st)) as [l|] eqn:El; [|discriminate]. cbn in E. injection E as <-. cbn [In]. rewrite (IH _ _ El n). split.
    + intros [<-|(m' & q & I & Q)]; [exists m, []; split; [left; reflexivity|reflexivity]|]. apply in_app_iff in I. destruct I as [I|I].
      * apply in_rev in I. destruct (In_nth_error _ _ I) as [k Hk]. exists m, (k :: q). split; [left; reflexivity|]. cbn. rewrite Hk. exact Q.
      * exists m', q. auto.
    + intros (m' & q & [<-|I] & Q).
      * destruct q as [|k q]; [cbn in Q; injection Q as <-; auto|]. right. cbn in Q. destruct (nth_error (child m) k) as [c|] eqn:Ec; [|discriminate]. cbn in Q.
        exists c, q. split; [apply in_or_app; left; rewrite <- in_rev; eapply nth_error_In; exact Ec|exact Q].
      * right. exists m', q. split; [apply in_or_app; auto|exact Q].
Qed.
Lemma nodes_dfs_In {A} (t : tree A) : exists ns, nodes_dfs t = Some ns /\ forall n, In n ns <-> exists q, at_path t q = Some n.
Proof.
  unfold nodes_dfs. destruct (@dfs_total A (size t) [t]) as [ns E]; [cbn; lia|]. exists ns. split; [exact E|]. intros n. rewrite (dfs_In _ _ E). split.
  - intros (m & q & [<-|[]] & Q). exists q. exact Q.
  - intros (q & Q). exists t, q. split; [left; reflexivity|exact Q].
Qed.

(** ** Grouping by time and agent *)
Lemma dalter_In {K V} (eqb : K -> K -> bool) (Eq : forall a b, eqb a b = true <-> a = b) (f : option V -> V) k d : NoDup (map fst d) ->
  forall k' v, In (k', v) (dalter eqb f k d) <-> (k' <> k /\ In (k', v) d) \/ (k' = k /\ v = f (dget eqb k d)).
Proof.
  intros N k' v. assert (N' := @dalter_nodup _ _ _ Eq f k d N). split.
  - intros I. apply (@In_dget _ _ _ Eq _ _ _ N') in I. assert (D : {k' = k} + {k' <> k}). { destruct (eqb k' k) eqn:E; [left; apply Eq; exact E|right; intros ->; rewrite (proj2 (Eq k k) eq_refl) in E; discriminate]. }
    destruct D as [->|Ne]; [rewrite (@dget_alter_same _ _ _ Eq) in I; injection I as <-; auto|]. rewrite (@dget_alter_other _ _ _ Eq) in I by congruence. left. split; [exact Ne|]. eapply dget_In; eassumption.
  - intros [[Ne I]|[-> ->]]; apply (@dget_In K V eqb Eq).
    + rewrite (@dget_alter_other _ _ _ Eq) by congruence. apply (@In_dget _ _ _ Eq); assumption.
    + apply (@dget_alter_same _ _ _ Eq).
Qed.
Section Put.
  Variables (X : Type) (keep : X -> list X -> bool) (eqv : X -> X -> Prop) (P : list X -> Prop).
  Hypothesis Refl : forall x, eqv x x.
  Hypothesis Keep : forall x l, keep x l = false -> exists y, In y l /\ eqv x y.
  Hypothesis P1 : forall x, P [x].
  Hypothesis P2 : forall x l, P l -> keep x l = true -> P (l ++ [x]).
  Notation event := (Z * (word * X))%type.
  Definition build2 (ev : list event) : dict Z (dict word (list X)) := fold_left (fun d e => put keep (fst e) (fst (snd e)) (snd (snd e)) d) ev [].
  Definition good_list (ev : list event) (T : Z) (a : word) (l : list X) : Prop :=
    P l /\ l <> [] /\ (forall x, In x l -> In (T, (a, x)) ev) /\ forall x, In (T, (a, x)) ev -> exists y, In y l /\ eqv x y.
  Record good (ev : list event) (d : dict Z (dict word (list X))) : Prop := mk_good {
    gd_nodup : NoDup (map fst d);
    gd_keys : forall T, In T (map fst d) <-> exists ax, In (T, ax) ev;
    gd_inner : forall T m, In (T, m) d -> NoDup (map fst m) /\ (forall a, In a (map fst m) <-> exists x, In (T, (a, x)) ev) /\ forall a l, In (a, l) m -> good_list ev T a l }.
  Lemma put_good ev d T a x : good ev d -> good (ev ++ [(T, (a, x))]) (put keep T a x d).
  Proof.
    intros [N K I]. unfold put. assert (N' := @dalter_nodup Z (dict word (list X)) _ Z.eqb_eq).
    assert (Other : forall T' m, T' <> T -> In (T', m) d -> NoDup (map fst m) /\ (forall b, In b (map fst m) <-> exists y, In (T', (b, y)) (ev ++ [(T, (a, x))])) /\ forall b l, In (b, l) m -> good_list (ev ++ [(T, (a, x))]) T' b l).
    { intros T' m Ne H. destruct (I _ _ H) as (A & B & D). split; [exact A|]. split.
      - intros b. rewrite B. split; [intros (y & Hy); exists y; apply in_or_app; auto|intros (y & Hy); apply in_app_iff in Hy; destruct Hy as [Hy|[[= -> _ _]|[]]]; [exists y; exact Hy|contradiction]].
      - intros b l Hl. destruct (D b l Hl) as (D1 & D2 & D3 & D4). split; [exact D1|]. split; [exact D2|]. split; [intros y Hy; apply in_or_app; auto|].
        intros y Hy. apply in_app_iff in Hy. destruct Hy as [Hy|[[= -> _ _]|[]]]; [auto|contradiction]. }
    split.
    - apply N'. exact N.
    - intros T'. split.
      + intros H. apply in_map_iff in H. destruct H as ([T1 m] & <- & H). cbn [fst]. apply (@dalter_In _ _ _ Z.eqb_eq) in H; [|exact N]. destruct H as [[Ne H]|[-> _]].
        * assert (In T1 (map fst d)) as HT by (apply in_map_iff; exists (T1, m); auto). apply K in HT. destruct HT as (ax & HT). exists ax. apply in_or_app. auto.
        * exists (a, x). apply in_or_app. right. left. reflexivity.
      + intros (ax & H). apply in_map_iff. apply in_app_iff in H. destruct (Z.eq_dec T' T) as [->|Ne].
        * eexists (T, _). split; [reflexivity|]. apply (@dalter_In _ _ _ Z.eqb_eq); [exact N|]. right. split; reflexivity.
        * destruct H as [H|[[= -> _]|[]]]; [|contradiction]. assert (HT : In T' (map fst d)) by (apply K; eauto). apply in_map_iff in HT. destruct HT as ([T1 m] & <- & HT). exists (T1, m). split; [reflexivity|].
          apply (@dalter_In _ _ _ Z.eqb_eq); [exact N|]. left. auto.
    - intros T' m H. apply (@dalter_In _ _ _ Z.eqb_eq) in H; [|exact N]. destruct H as [[Ne H]|[-> ->]]; [exact (Other T' m Ne H)|].
      destruct (dget Z.eqb T d) as [m|] eqn:E.
      + apply dget_In in E; [|exact Z.eqb_eq]. destruct (I _ _ E) as (A & B & D). split; [apply dalter_nodup; [exact word_eqb_eq|exact A]|]. split.
        * intros b. rewrite dalter_keys. unfold dmem. destruct (dget word_eqb a m) as [l|] eqn:Ea.
          -- apply dget_In in Ea; [|exact word_eqb_eq]. rewrite B. split; [intros (y & Hy); exists y; apply in_or_app; auto|]. intros (y & Hy). apply in_app_iff in Hy.
             destruct Hy as [Hy|[[= -> _]|[]]]; [exists y; exact Hy|]. apply B. apply in_map_iff. exists (b, l). auto.
          -- rewrite in_app_iff, B. split; [intros [(y & Hy)|[<-|[]]]; [exists y; apply in_or_app; auto|exists x; apply in_or_app; right; left; reflexivity]|].
             intros (y & Hy). apply in_app_iff in Hy. destruct Hy as [Hy|[[= -> _]|[]]]; [left; exists y; exact Hy|right; left; reflexivity].
        * intros b l Hl. apply (@dalter_In _ _ _ word_eqb_eq) in Hl; [|exact A]. destruct Hl as [[Ne Hl]|[-> ->]].
          -- destruct (D b l Hl) as (D1 & D2 & D3 & D4). split; [exact D1|]. split; [exact D2|]. split; [intros y Hy; apply in_or_app; auto|].
             intros y Hy. apply in_app_iff in Hy. destruct Hy as [Hy|[[= -> _]|[]]]; [auto|contradiction].
          -- destruct (dget word_eqb a m) as [l|] eqn:Ea.
             ++ apply dget_In in Ea; [|exact word_eqb_eq]. destruct (D a l Ea) as (D1 & D2 & D3 & D4). destruct (keep x l) eqn:Ek.
                ** split; [apply P2; assumption|]. split; [intros Z; apply app_eq_nil in Z; destruct Z; discriminate|]. split.
                   --- intros y Hy. apply in_app_iff in Hy. apply in_or_app. destruct Hy as [Hy|[<-|[]]]; [left; auto|right; left; reflexivity].
                   --- intros y Hy. apply in_app_iff in Hy. destruct Hy as [Hy|[[= ->]|[]]]; [|exists y; split; [apply in_or_app; right; left; reflexivity|apply Refl]].
                       destruct (D4 y Hy) as (z & Hz & Ez). exists z. split; [apply in_or_app; auto|exact Ez].
                ** split; [exact D1|]. split; [exact D2|]. split; [intros y Hy; apply in_or_app; auto|]. intros y Hy. apply in_app_iff in Hy. destruct Hy as [Hy|[[= ->]|[]]]; [auto|]. apply Keep. exact Ek.
             ++ split; [apply P1|]. split; [discriminate|]. split; [intros y [<-|[]]; apply in_or_app; right; left; reflexivity|].
                intros y Hy. apply in_app_iff in Hy. destruct Hy as [Hy|[[= ->]|[]]]; [|exists y; split; [left; reflexivity|apply Refl]].
                exfalso. apply dget_None in Ea; [|exact word_eqb_eq]. apply Ea. apply B. exists y. exact Hy.
      + apply dget_None in E; [|exact Z.eqb_eq]. assert (None_ : forall ax, ~ In (T, ax) ev) by (intros ax H; apply E; apply K; exists ax; exact H). split; [repeat constructor; intros []|]. split.
        * intros b. cbn. split; [intros [<-|[]]; exists x; apply in_or_app; right; left; reflexivity|]. intros (y & Hy). apply in_app_iff in Hy. destruct Hy as [Hy|[[= -> _]|[]]]; [destruct (None_ _ Hy)|auto].
        * intros b l [[= <- <-]|[]]. split; [apply P1|]. split; [discriminate|]. split; [intros y [<-|[]]; apply in_or_app; right; left; reflexivity|].
          intros y Hy. apply in_app_iff in Hy. destruct Hy as [Hy|[[= ->]|[]]]; [destruct (None_ _ Hy)|]. exists y. split; [left; reflexivity|apply Refl].
  Qed.
  Lemma good_nil : good [] [].
  Proof. split; cbn; [constructor|intros T; split; [intros []|intros (? & [])]|intros T m []]. Qed.
End Put.

(** ** reachtube_anime *)
Section Anime.
  Variables (t : ptree) (x_dim y_dim digits : nat).
  Hypothesis C : complete t x_dim y_dim.
  Notation event := (Z * (word * boxrow))%type.
  Notation GA := (@good boxrow eq (fun _ => True)).
  Lemma anime_box_ok a tr i ev d : Forall (has_dims x_dim y_dim) tr -> i + 1 < length tr -> GA ev d ->
    exists d' new, anime_box x_dim y_dim digits a tr d i = Some d' /\ GA (ev ++ new) d' /\ forall e, In e new <-> box_event digits a tr i e.
  Proof.
    intros F Hi Hg. destruct (@cell_ok x_dim y_dim tr i F ltac:(lia)) as (lo & x0 & y0 & Rl & X0 & Y0 & _). destruct (@cell_ok x_dim y_dim tr (i + 1) F Hi) as (hi & x1 & y1 & Rh & _).
    assert (exists t0, nth_error lo 0 = Some t0) as [t0 T0]. { destruct lo as [|t0 lo]; [destruct x_dim; discriminate|exists t0; reflexivity]. }
    unfold anime_box. rewrite Rl, Rh. cbn [obind]. rewrite X0, Y0, T0. cbn [obind]. do 2 eexists. split; [reflexivity|]. split.
    - apply put_good; [reflexivity|discriminate|trivial|trivial|exact Hg].
    - intros e. cbn. split; [intros [<-|[]]; exists lo, hi, t0; auto|]. intros (lo' & hi' & t0' & A & B & D & ->). left. congruence.
  Qed.
  Definition late_event (kv : word * list vec) (e : event) : Prop :=
    exists j r s, nth_error (snd kv) 0 = Some r /\ nth_error r 0 = Some s /\ ((s <= 0)%Q \/ 4 <= j) /\ box_event digits (fst kv) (snd kv) (2 * j) e.
  Lemma anime_trace_ok kv ev d : snd kv <> [] -> Forall (has_dims x_dim y_dim) (snd kv) -> GA ev d ->
    exists d' new, anime_trace x_dim y_dim digits d kv = Some d' /\ GA (ev ++ new) d' /\ forall e, In e new <-> late_event kv e.
  Proof.
    destruct kv as [a tr]. cbn [fst snd]. intros Ne F Hg. unfold anime_trace.
    assert (exists r s, nth_error tr 0 = Some r /\ nth_error r 0 = Some s) as (r & s & Er & Et).
    { destruct tr as [|r tr]; [contradiction|]. inversion F as [|? ? [Hx _] _]; subst. destruct r as [|s r]; [cbn in Hx; lia|]. exists (s :: r), s. auto. }
    unfold cell. rewrite Er. cbn [obind]. rewrite Et. cbn [obind].
    set (sk := if Qle_bool s 0 then 0 else 4). assert (Esk : (if Qle_bool s 0 then tr else skipn 8 tr) = skipn (2 * sk) tr) by (unfold sk; destruct (Qle_bool s 0); reflexivity).
    rewrite Esk. assert (Fs : Forall (has_dims x_dim y_dim) (skipn (2 * sk) tr)). { rewrite Forall_forall in F |- *. intros x Hx. apply F. rewrite <- (firstn_skipn (2 * sk) tr). apply in_or_app. auto. }
    destruct (@foldM_grow _ _ _ (anime_box x_dim y_dim digits a (skipn (2 * sk) tr)) GA (box_event digits a (skipn (2 * sk) tr)) (range_by 0 (length (skipn (2 * sk) tr) - 1) 2)) with (ev := ev) (s := d) as (d' & new & E & G' & N); [|exact Hg|].
    - intros i ev' d' I G'. apply range_by_In in I; [|lia]. destruct I as (j & -> & L). apply anime_box_ok; [exact Fs|lia|exact G'].
    - exists d', new. split; [exact E|]. split; [exact G'|]. intros e. rewrite N. split.
      + intros (i & I & lo & hi & t0 & A & B & D & ->). apply range_by_In in I; [|lia]. destruct I as (j & -> & L). rewrite nth_error_skipn in A, B. exists (sk + j), r, s. split; [exact Er|]. split; [exact Et|]. split.
        * unfold sk. destruct (Qle_bool s 0) eqn:Es; [left; apply Qle_bool_iff; exact Es|right; lia].
        * exists lo, hi, t0. cbn [fst snd]. replace (2 * (sk + j)) with (2 * sk + (0 + j * 2)) by lia. rewrite <- Nat.add_assoc. auto.
      + intros (j & r' & s' & Er' & Et' & H & lo & hi & t0 & A & B & D & ->). cbn [fst snd] in *. assert (s' = s) by congruence. subst s'. assert (Ls : sk <= j).
        { unfold sk. destruct (Qle_bool s 0) eqn:Es; [lia|]. destruct H as [H|H]; [apply Qle_bool_iff in H; congruence|exact H]. }
        assert (2 * j + 1 < length tr) by (apply nth_error_Some; congruence).
        exists ((j - sk) * 2). split; [apply range_by_In; [lia|]; exists (j - sk); split; [lia|rewrite skipn_length; lia]|]. exists lo, hi, t0. rewrite !nth_error_skipn.
        replace (2 * sk + (j - sk) * 2) with (2 * j) by lia. replace (2 * sk + ((j - sk) * 2 + 1)) with (2 * j + 1) by lia. auto.
  Qed.
  Lemma anime_collect_ok : exists d ev, anime_collect x_dim y_dim digits (t_root t) = Some d /\ GA ev d /\
    forall e, In e ev <-> exists a lo hi t0, late_box t a t0 lo hi /\ e = (tick digits t0, (a, (lo, hi))).
  Proof.
    unfold anime_collect. destruct (nodes_dfs_In (t_root t)) as (ns & -> & In_). cbn [obind].
    destruct (@foldM_grow _ _ _ (fun s n => foldM (anime_trace x_dim y_dim digits) (p_trace (content n)) s) GA (fun n e => exists kv, In kv (p_trace (content n)) /\ late_event kv e) ns)
      with (ev := @nil event) (s := @nil (Z * dict word (list boxrow))) as (d & ev & E & G' & N).
    - intros n ev d I Hg. apply In_ in I. destruct I as (q & Q). apply foldM_grow; [|exact Hg]. intros kv ev' d' I' Hg'. destruct (@node_trace t x_dim y_dim C q n kv Q I') as (_ & Ne & F). apply anime_trace_ok; assumption.
    - apply good_nil.
    - exists d, ev. split; [exact E|]. split; [exact G'|]. intros e. rewrite N. split.
      + intros (n & I & kv & Ik & j & r & s & Er & Et & H & lo & hi & t0 & A & B & D & ->). apply In_ in I. destruct I as (q & Q). destruct (@node_trace t x_dim y_dim C q n kv Q Ik) as (Ht & _).
        exists (fst kv), lo, hi, t0. split; [|reflexivity]. exists q, (snd kv), j, r, s. split; [exact Ht|]. split; [split; assumption|]. auto.
      + intros (a & lo & hi & t0 & (q & tr & j & r & s & (n & Q & Dg) & [A B] & D & Er & Et & H) & ->). exists n. split; [apply In_; exists q; exact Q|]. exists (a, tr).
        split; [apply dget_In in Dg; [exact Dg|exact word_eqb_eq]|]. exists j, r, s. split; [exact Er|]. split; [exact Et|]. split; [exact H|]. exists lo, hi, t0. auto.
  Qed.
End Anime.

(** ** simulation_anime *)
Lemma row_eqb r s : list_eqb Qeq_bool r s = true <-> same_row r s.
Proof.
  revert s. induction r as [|x r IH]; intros [|y s]; cbn; try (split; [discriminate|intros H; inversion H]); [split; constructor|].
  rewrite andb_true_iff, IH. split; [intros [A B]; constructor; [apply Qeq_bool_iff; exact A|exact B]|intros H; inversion H; subst; split; [apply Qeq_bool_iff; assumption|assumption]].
Qed.
Lemma same_row_refl r : same_row r r.
Proof. induction r; constructor; [reflexivity|assumption]. Qed.
Lemma absent_false r l : absent r l = false -> exists s, In s l /\ same_row r s.
Proof. unfold absent. intros H. apply negb_false_iff in H. apply existsb_exists in H. destruct H as (s & I & E). apply row_eqb in E. exists s. auto. Qed.
Lemma absent_true r l : absent r l = true -> forall s, In s l -> ~ same_row r s.
Proof. unfold absent. intros H s I E. apply negb_true_iff in H. assert (existsb (list_eqb Qeq_bool r) l = true) by (apply existsb_exists; exists s; split; [exact I|apply row_eqb; exact E]). congruence. Qed.
Section Motion.
  Variables (t : ptree) (x_dim y_dim digits : nat).
  Hypothesis C : complete t x_dim y_dim.
  Notation event := (Z * (word * vec))%type.
  Notation GM := (@good vec same_row distinct_rows).
  Definition row_event (a : word) (tr : list vec) (i : nat) (e : event) : Prop :=
    exists r t0, nth_error tr i = Some r /\ nth_error r 0 = Some t0 /\ e = (tick digits t0, (a, r)).
  Lemma motion_row_ok a tr i ev d : Forall (has_dims x_dim y_dim) tr -> i < length tr -> GM ev d ->
    exists d' new, motion_row x_dim y_dim digits a tr d i = Some d' /\ GM (ev ++ new) d' /\ forall e, In e new <-> row_event a tr i e.
  Proof.
    intros F Hi Hg. destruct (@cell_ok x_dim y_dim tr i F Hi) as (r & x0 & y0 & Rl & X0 & Y0 & _).
    assert (exists t0, nth_error r 0 = Some t0) as [t0 T0]. { destruct r as [|t0 r]; [destruct x_dim; discriminate|exists t0; reflexivity]. }
    unfold motion_row. rewrite Rl. cbn [obind]. rewrite X0, Y0, T0. cbn [obind]. do 2 eexists. split; [reflexivity|]. split.
    - apply put_good; [exact same_row_refl|exact absent_false| | |exact Hg].
      + intros x [|i'] [|j] u v L A B; cbn in *; try lia; [destruct j; discriminate|destruct i'; discriminate].
      + intros x l Pl Ab i' j u v L A B. destruct (Nat.lt_ge_cases j (length l)) as [Lj|Lj].
        * rewrite nth_error_app1 in A, B by lia. exact (Pl i' j u v L A B).
        * assert (j < length (l ++ [x])) by (apply nth_error_Some; congruence). rewrite app_length in H. cbn in H. assert (j = length l) by lia. subst j. rewrite nth_error_app2 in B by lia. rewrite Nat.sub_diag in B. cbn in B. injection B as <-.
          rewrite nth_error_app1 in A by lia. eapply absent_true; [exact Ab|]. eapply nth_error_In; exact A.
    - intros e. cbn. split; [intros [<-|[]]; exists r, t0; auto|]. intros (r' & t0' & A & B & ->). left. congruence.
  Qed.
  Lemma motion_trace_ok kv ev d : Forall (has_dims x_dim y_dim) (snd kv) -> GM ev d ->
    exists d' new, motion_trace x_dim y_dim digits d kv = Some d' /\ GM (ev ++ new) d' /\ forall e, In e new <-> exists i, row_event (fst kv) (snd kv) i e.
  Proof.
    destruct kv as [a tr]. cbn [fst snd]. intros F Hg. unfold motion_trace.
    destruct (@foldM_grow _ _ _ (motion_row x_dim y_dim digits a tr) GM (row_event a tr) (seq 0 (length tr))) with (ev := ev) (s := d) as (d' & new & E & G' & N); [|exact Hg|].
    - intros i ev' d' I G'. apply in_seq in I. apply motion_row_ok; [exact F|lia|exact G'].
    - exists d', new. split; [exact E|]. split; [exact G'|]. intros e. rewrite N. split; [intros (i & _ & X); exists i; exact X|]. intros (i & X). exists i. split; [|exact X].
      destruct X as (r & t0 & A & _). apply in_seq. assert (i < length tr) by (apply nth_error_Some; congruence). lia.
  Qed.
  Lemma motion_collect_ok : exists d ev, motion_collect x_dim y_dim digits (t_root t) = Some d /\ GM ev d /\
    forall e, In e ev <-> exists a r t0, has_state t a t0 r /\ e = (tick digits t0, (a, r)).
  Proof.
    unfold motion_collect. destruct (nodes_dfs_In (t_root t)) as (ns & -> & In_). cbn [obind].
    destruct (@foldM_grow _ _ _ (fun s n => foldM (motion_trace x_dim y_dim digits) (p_trace (content n)) s) GM (fun n e => exists kv, In kv (p_trace (content n)) /\ exists i, row_event (fst kv) (snd kv) i e) ns)
      with (ev := @nil event) (s := @nil (Z * dict word (list vec))) as (d & ev & E & G' & N).
    - intros n ev d I Hg. apply In_ in I. destruct I as (q & Q). apply foldM_grow; [|exact Hg]. intros kv ev' d' I' Hg'. destruct (@node_trace t x_dim y_dim C q n kv Q I') as (_ & Ne & F). apply motion_trace_ok; assumption.
    - apply good_nil.
    - exists d, ev. split; [exact E|]. split; [exact G'|]. intros e. rewrite N. split.
      + intros (n & I & kv & Ik & i & r & t0 & A & D & ->). apply In_ in I. destruct I as (q & Q). destruct (@node_trace t x_dim y_dim C q n kv Q Ik) as (Ht & _).
        exists (fst kv), r, t0. split; [|reflexivity]. exists q, (snd kv). split; [exact Ht|]. split; [eapply nth_error_In; exact A|exact D].
      + intros (a & r & t0 & (q & tr & (n & Q & Dg) & I & D) & ->). exists n. split; [apply In_; exists q; exact Q|]. exists (a, tr).
        split; [apply dget_In in Dg; [exact Dg|exact word_eqb_eq]|]. destruct (In_nth_error _ _ I) as [i Hi]. exists i, r, t0. auto.
  Qed.
End Motion.
