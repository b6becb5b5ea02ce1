(** Proofs about the animations. *)
From Coq Require Import Ascii String Sorted Permutation.
From Verif Require Import Base BaseFacts Dict PyText Round RoundProofs Tree TreeSpec TreeProofs ResetProofs Plot PlotSpec PlotGeom PlotProofs PlotAnime PlotAnimeSpec.
Set Implicit Arguments.
Open Scope nat_scope.

Lemma foldM_grow {A S E} (f : S -> A -> option S) (G : list E -> S -> Prop) (ev_of : A -> E -> Prop) : forall l,
  (forall a ev s, In a l -> G ev s -> exists s' new, f s a = Some s' /\ G (ev ++ new) s' /\ forall e, In e new <-> ev_of a e) ->
  forall ev s, G ev s -> exists s' new, foldM f l s = Some s' /\ G (ev ++ new) s' /\ forall e, In e new <-> exists a, In a l /\ ev_of a e.
Proof.
  induction l as [|a l IH]; intros H ev s Hg; cbn.
  - exists s, []. split; [reflexivity|]. rewrite app_nil_r. split; [exact Hg|]. intros e. split; [intros []|intros (a & [] & _)].
  - destruct (H a ev s (or_introl eq_refl) Hg) as (s1 & n1 & E1 & G1 & N1). rewrite E1. cbn [obind].
    destruct (IH (fun a' ev' s' I => H a' ev' s' (or_intror I)) _ _ G1) as (s2 & n2 & E2 & G2 & N2). exists s2, (n1 ++ n2).
    split; [exact E2|]. rewrite app_assoc. split; [exact G2|]. intros e. rewrite in_app_iff, N1, N2. split.
    + intros [X|(b & I & X)]; [exists a; auto|exists b; auto].
    + intros (b & [<-|I] & X); [auto|right; exists b; auto].
Qed.

(** ** Sorting *)
Lemma insert_perm z l : Permutation (insert z l) (z :: l).
Proof. induction l as [|y l IH]; cbn; [reflexivity|]. destruct (z <=? y)%Z; [reflexivity|]. rewrite IH. constructor. Qed.
Lemma sorted_perm l : Permutation (sorted l) l.
Proof. induction l as [|z l IH]; cbn; [constructor|]. rewrite insert_perm. constructor. exact IH. Qed.
Lemma insert_sorted z l : increasing l -> ~ In z l -> increasing (insert z l).
Proof.
  intros S. induction S as [|y l S IH F]; cbn; intros N; [repeat constructor|]. destruct (Z.leb_spec z y) as [L|L].
  - assert (z < y)%Z by (enough (z <> y) by lia; intros ->; apply N; left; reflexivity).
    constructor; [constructor; assumption|]. constructor; [lia|]. eapply Forall_impl; [|exact F]. cbn. intros; lia.
  - constructor; [apply IH; intros I; apply N; right; exact I|]. apply Forall_forall. intros x Hx. apply (Permutation_in _ (insert_perm z l)) in Hx.
    destruct Hx as [<-|Hx]; [lia|]. rewrite Forall_forall in F. apply F. exact Hx.
Qed.
Lemma sorted_increasing l : NoDup l -> increasing (sorted l).
Proof.
  induction 1 as [|z l N ND IH]; cbn; [constructor|]. apply insert_sorted; [exact IH|]. intros I. apply N. apply (Permutation_in _ (sorted_perm l)). exact I.
Qed.

(** ** Grouping by time *)
Definition build {X} (ev : list (Z * X)) : dict Z (list X) := fold_left (fun d e => dappend Z.eqb (fst e) (snd e) d) ev [].
Lemma build_app {X} (ev : list (Z * X)) e : build (ev ++ [e]) = dappend Z.eqb (fst e) (snd e) (build ev).
Proof. unfold build. rewrite fold_left_app. reflexivity. Qed.
Lemma build_ok {X} (ev : list (Z * X)) : NoDup (map fst (build ev)) /\ (forall T, In T (map fst (build ev)) <-> exists x, In (T, x) ev) /\
  (forall T l, dget Z.eqb T (build ev) = Some l -> forall x, In x l <-> In (T, x) ev).
Proof.
  induction ev as [|[T x] ev IH] using rev_ind.
  - cbn. split; [constructor|]. split; [intros T; split; [intros []|intros (x & [])]|discriminate].
  - rewrite build_app. cbn [fst snd]. destruct IH as (N & K & D). unfold dappend. split; [apply dalter_nodup; [exact Z.eqb_eq|exact N]|]. split.
    + intros T'. rewrite dalter_keys. unfold dmem. destruct (dget Z.eqb T (build ev)) eqn:E.
      * rewrite K. split; [intros (y & I); exists y; apply in_or_app; auto|]. intros (y & I). apply in_app_iff in I. destruct I as [I|[[= <- <-]|[]]]; [exists y; exact I|].
        apply dget_In in E; [|exact Z.eqb_eq]. apply (proj1 (K T)). apply in_map_iff. exists (T, l). auto.
      * rewrite in_app_iff, K. split; [intros [(y & I)|[<-|[]]]; [exists y; apply in_or_app; auto|exists x; apply in_or_app; right; left; reflexivity]|].
        intros (y & I). apply in_app_iff in I. destruct I as [I|[[= <- <-]|[]]]; [left; exists y; exact I|right; left; reflexivity].
    + intros T' l. destruct (Z.eq_dec T T') as [<-|Ne].
      * rewrite dget_alter_same by exact Z.eqb_eq. destruct (dget Z.eqb T (build ev)) as [l0|] eqn:E; intros [= <-] y.
        -- rewrite !in_app_iff. rewrite (D T l0 E y). cbn. split; [intros [H|[->|[]]]; auto|intros [H|[[= ->]|[]]]; auto].
        -- rewrite in_app_iff. cbn. split; [intros [->|[]]; auto|intros [H|[[= ->]|[]]]; [|auto]]. exfalso.
           apply dget_None in E; [|exact Z.eqb_eq]. apply E. apply K. exists y. exact H.
      * rewrite dget_alter_other by (try exact Z.eqb_eq; exact Ne). intros E y. rewrite (D T' l E y), in_app_iff. cbn. split; [auto|intros [H|[[= <- _]|[]]]; [exact H|contradiction]].
Qed.

(** ** Ranges *)
Definition bounds (o1 o2 : option Q) (v : Q) : Prop := exists l h, o1 = Some l /\ o2 = Some h /\ (l <= v /\ v <= h)%Q.
Lemma omin_le m q : exists r, omin m q = Some r /\ (r <= q)%Q /\ forall v, m = Some v -> (r <= v)%Q.
Proof.
  unfold omin. destruct m as [p|]; [|exists q; repeat split; [apply Qle_refl|discriminate]]. destruct (Qle_bool p q) eqn:E.
  - exists p. apply Qle_bool_iff in E. repeat split; [exact E|]. intros v [= <-]. apply Qle_refl.
  - exists q. repeat split; [apply Qle_refl|]. intros v [= <-]. apply Qlt_le_weak. apply Qnot_le_lt. intros H. apply Qle_bool_iff in H. congruence.
Qed.
Lemma omax_ge m q : exists r, omax m q = Some r /\ (q <= r)%Q /\ forall v, m = Some v -> (v <= r)%Q.
Proof.
  unfold omax. destruct m as [p|]; [|exists q; repeat split; [apply Qle_refl|discriminate]]. destruct (Qle_bool q p) eqn:E.
  - exists p. apply Qle_bool_iff in E. repeat split; [exact E|]. intros v [= <-]. apply Qle_refl.
  - exists q. repeat split; [apply Qle_refl|]. intros v [= <-]. apply Qlt_le_weak. apply Qnot_le_lt. intros H. apply Qle_bool_iff in H. congruence.
Qed.
Lemma bounds_new o1 o2 q : bounds (omin o1 q) (omax o2 q) q.
Proof. destruct (omin_le o1 q) as (l & -> & A & _). destruct (omax_ge o2 q) as (h & -> & B & _). exists l, h. auto. Qed.
Lemma bounds_old o1 o2 q v : bounds o1 o2 v -> bounds (omin o1 q) (omax o2 q) v.
Proof.
  intros (l & h & -> & -> & A & B). destruct (omin_le (Some l) q) as (l' & -> & _ & A'). destruct (omax_ge (Some h) q) as (h' & -> & _ & B').
  exists l', h'. repeat split; [eapply Qle_trans; [apply A'; reflexivity|exact A]|eapply Qle_trans; [exact B|apply B'; reflexivity]].
Qed.

(** ** Collecting the boxes *)
Section Collect.
  Variables (t : ptree) (x_dim y_dim digits : nat).
  Hypothesis C : complete t x_dim y_dim.
  Notation event := (Z * (word * boxrow))%type.
  Definition row_bounds (s : vacc) (r : vec) : Prop :=
    forall x y, nth_error r x_dim = Some x -> nth_error r y_dim = Some y -> bounds (fst (v_lo s)) (fst (v_hi s)) x /\ bounds (snd (v_lo s)) (snd (v_hi s)) y.
  Definition G (ev : list event) (s : vacc) : Prop :=
    v_timed s = build ev /\ forall T a lo hi, In (T, (a, (lo, hi))) ev -> row_bounds s lo /\ row_bounds s hi.
  Definition box_event (a : word) (tr : list vec) (i : nat) (e : event) : Prop :=
    exists lo hi t0, nth_error tr i = Some lo /\ nth_error tr (i + 1) = Some hi /\ nth_error lo 0 = Some t0 /\ e = (tick digits t0, (a, (lo, hi))).

  Lemma video_box_ok a tr i ev s : Forall (has_dims x_dim y_dim) tr -> i + 1 < length tr -> G ev s ->
    exists s' new, video_box x_dim y_dim digits a tr s i = Some s' /\ G (ev ++ new) s' /\ forall e, In e new <-> box_event a tr i e.
  Proof.
    intros F Hi [Gt Gb]. destruct (@cell_ok x_dim y_dim tr i F ltac:(lia)) as (lo & x0 & y0 & Rl & X0 & Y0 & _). destruct (@cell_ok x_dim y_dim tr (i + 1) F Hi) as (hi & x1 & y1 & Rh & X1 & Y1 & _).
    assert (exists t0, nth_error lo 0 = Some t0) as [t0 T0]. { destruct lo as [|t0 lo]; [destruct x_dim; discriminate|exists t0; reflexivity]. }
    unfold video_box. rewrite Rl, Rh. cbn [obind]. rewrite X0, X1, Y0, Y1, T0. cbn [obind]. do 2 eexists. split; [reflexivity|].
    assert (Old : forall r, row_bounds s r -> row_bounds (mkv (dappend Z.eqb (tick digits t0) (a, (lo, hi)) (v_timed s))
              (omin (omin (fst (v_lo s)) x0) x1, omin (omin (snd (v_lo s)) y0) y1)
              (omax (omax (fst (v_hi s)) x0) x1, omax (omax (snd (v_hi s)) y0) y1)) r).
    { intros r H x y Hx Hy. destruct (H x y Hx Hy). cbn [v_lo v_hi fst snd]. split; do 2 apply bounds_old; assumption. }
    split; [instantiate (1 := [(tick digits t0, (a, (lo, hi)))])|].
    - split; [cbn [v_timed]; rewrite build_app, Gt; reflexivity|]. intros T b l h I. apply in_app_iff in I. destruct I as [I|[[= <- <- <- <-]|[]]].
      + destruct (Gb _ _ _ _ I). split; apply Old; assumption.
      + split; intros x y Hx Hy; cbn [v_lo v_hi fst snd].
        * assert (x = x0) by congruence. assert (y = y0) by congruence. subst. split; apply bounds_old, bounds_new.
        * assert (x = x1) by congruence. assert (y = y1) by congruence. subst. split; apply bounds_new.
    - intros e. cbn. split.
      + intros [<-|[]]. exists lo, hi, t0. auto.
      + intros (lo' & hi' & t0' & A & B & D & ->). left. congruence.
  Qed.
  Definition trace_event (kv : word * list vec) (e : event) : Prop := exists j, box_event (fst kv) (snd kv) (2 * j) e.
  Lemma video_trace_ok kv ev s : Forall (has_dims x_dim y_dim) (snd kv) -> G ev s ->
    exists s' new, video_trace x_dim y_dim digits s kv = Some s' /\ G (ev ++ new) s' /\ forall e, In e new <-> trace_event kv e.
  Proof.
    destruct kv as [a tr]. intros F Hg. unfold video_trace. cbn [fst snd] in *. destruct (Nat.ltb_spec (length tr) 2) as [Hs|Hl].
    - exists s, []. split; [reflexivity|]. rewrite app_nil_r. split; [exact Hg|]. intros e. split; [intros []|]. intros (j & lo & hi & t0 & A & B & _).
      assert (2 * j + 1 < length tr) by (apply nth_error_Some; cbn [fst snd] in *; congruence). lia.
    - destruct (@foldM_grow _ _ _ (video_box x_dim y_dim digits a tr) G (box_event a tr) (range_by 0 (length tr - 1) 2)) with (ev := ev) (s := s) as (s' & new & E & G' & N); [|exact Hg|].
      + intros i ev' s' I G'. apply range_by_In in I; [|lia]. destruct I as (j & -> & L). apply video_box_ok; [exact F|lia|exact G'].
      + exists s', new. split; [exact E|]. split; [exact G'|]. intros e. rewrite N. split.
        * intros (i & I & X). apply range_by_In in I; [|lia]. destruct I as (j & -> & L). exists j. cbn [fst snd]. replace (2 * j) with (0 + j * 2) by lia. exact X.
        * intros (j & X). cbn [fst snd] in X. exists (2 * j). split; [|exact X]. apply range_by_In; [lia|]. exists j. split; [lia|]. destruct X as (lo & hi & t0 & _ & B & _).
          assert (2 * j + 1 < length tr) by (apply nth_error_Some; congruence). lia.
  Qed.
  (** All boxes of the tree. *)
  Definition tree_event (e : event) : Prop := exists a lo hi t0, has_box t a t0 lo hi /\ e = (tick digits t0, (a, (lo, hi))).
  Lemma node_trace q n kv : at_path (t_root t) q = Some n -> In kv (p_trace (content n)) ->
    trace_at t q (fst kv) (snd kv) /\ snd kv <> [] /\ Forall (has_dims x_dim y_dim) (snd kv).
  Proof.
    intros Q I. destruct C as [_ C']. destruct (C' q n Q) as (N & _ & T). destruct kv as [a tr]. assert (D : dget word_eqb a (p_trace (content n)) = Some tr) by (apply In_dget; [exact word_eqb_eq|exact N|exact I]).
    split; [exists n; auto|]. apply (T a tr D).
  Qed.
  Lemma video_collect_ok : exists s ev, video_collect x_dim y_dim digits (t_root t) = Some s /\ G ev s /\ forall e, In e ev <-> tree_event e.
  Proof.
    unfold video_collect. destruct (nodes_In (t_root t)) as (ns & -> & In_). cbn [obind].
    destruct (@foldM_grow _ _ _ (fun s n => foldM (video_trace x_dim y_dim digits) (p_trace (content n)) s) G (fun n e => exists kv, In kv (p_trace (content n)) /\ trace_event kv e) ns)
      with (ev := @nil event) (s := mkv [] (None, None) (None, None)) as (s & ev & E & G' & N).
    - intros n ev s I Hg. apply In_ in I. destruct I as (q & Q). apply foldM_grow; [|exact Hg]. intros kv ev' s' I' Hg'. destruct (@node_trace q n kv Q I') as (_ & _ & F). apply video_trace_ok; assumption.
    - split; [reflexivity|intros ? ? ? ? []].
    - exists s, ev. split; [exact E|]. split; [exact G'|]. intros e. rewrite N. split.
      + intros (n & I & kv & Ik & j & lo & hi & t0 & A & B & D & ->). apply In_ in I. destruct I as (q & Q). destruct (@node_trace q n kv Q Ik) as (Ht & _).
        exists (fst kv), lo, hi, t0. split; [|reflexivity]. exists q, (snd kv), j. split; [exact Ht|]. split; [split; assumption|exact D].
      + intros (a & lo & hi & t0 & (q & tr & j & (n & Q & Dg) & [A B] & D) & ->). exists n. split; [apply In_; exists q; exact Q|]. exists (a, tr).
        split; [apply dget_In in Dg; [exact Dg|exact word_eqb_eq]|]. exists j, lo, hi, t0. auto.
  Qed.
End Collect.

(** ** The rectangles and their times *)
Section Data.
  Variables (x_dim y_dim : nat) (agents : list word) (plot_color : list (list word)) (timed : dict Z (list (word * boxrow))).
  Hypothesis Total : forall T l ar, dget Z.eqb T timed = Some l -> In ar l -> video_rect x_dim y_dim agents plot_color ar <> None.
  (** [tags] has the time of every rectangle. *)
  Record tagged (ts : list Z) (d : list shape * dict Z (list nat)) (ld : list (Z * shape)) : Prop := mk_tagged {
    tg_data : map snd ld = fst d;
    tg_in : forall e, In e ld -> In (fst e) ts;
    tg_keys : forall T, dget Z.eqb T (snd d) <> None <-> In T ts;
    tg_idx : forall T is, dget Z.eqb T (snd d) = Some is -> forall k, In k is <-> nth_error (map fst ld) k = Some T }.
  Lemma video_add_ok T ts d ld ar : In T ts -> tagged ts d ld -> video_rect x_dim y_dim agents plot_color ar <> None ->
    exists d' sh, video_rect x_dim y_dim agents plot_color ar = Some sh /\ video_add x_dim y_dim agents plot_color T d ar = Some d' /\ tagged ts d' (ld ++ [(T, sh)]).
  Proof.
    intros IT [D N K X] H. unfold video_add. destruct (video_rect x_dim y_dim agents plot_color ar) as [sh|]; [|contradiction]. cbn [obind].
    destruct (dget Z.eqb T (snd d)) as [is|] eqn:E; [|destruct (proj2 (K T) IT E)]. cbn [obind]. do 2 eexists. split; [reflexivity|]. split; [reflexivity|].
    assert (Ln : length (fst d) = length ld) by (rewrite <- D, map_length; reflexivity).
    split; cbn [fst snd].
    - rewrite map_app, D. reflexivity.
    - intros e I. apply in_app_iff in I. destruct I as [I|[<-|[]]]; [apply N; exact I|exact IT].
    - intros T'. unfold dset. destruct (Z.eq_dec T T') as [<-|Ne]; [rewrite dget_alter_same by exact Z.eqb_eq; split; [auto|discriminate]|]. rewrite dget_alter_other by (try exact Z.eqb_eq; exact Ne). apply K.
    - intros T' is'. unfold dset. rewrite map_app. cbn [map fst]. destruct (Z.eq_dec T T') as [<-|Ne].
      + rewrite dget_alter_same by exact Z.eqb_eq. intros [= <-] k. rewrite in_app_iff. rewrite (X T is E k). cbn. destruct (Nat.lt_trichotomy k (length ld)) as [L|[L|L]].
        * rewrite nth_error_app1 by (rewrite map_length; lia). split; [intros [H0|[H0|[]]]; [exact H0|lia]|auto].
        * rewrite nth_error_app2 by (rewrite map_length; lia). rewrite map_length. replace (k - length ld) with 0 by lia. cbn. split; [reflexivity|right; left; lia].
        * rewrite nth_error_app2 by (rewrite map_length; lia). rewrite map_length. replace (k - length ld) with (S (k - length ld - 1)) by lia. cbn.
          replace (nth_error (@nil Z) (k - length ld - 1)) with (@None Z) by (destruct (k - length ld - 1); reflexivity).
          split; [intros [H0|[H0|[]]]; [apply nth_error_In in H0 as ?|lia]|discriminate]. assert (k < length (map fst ld)) by (apply nth_error_Some; congruence). rewrite map_length in *. lia.
      + rewrite dget_alter_other by (try exact Z.eqb_eq; exact Ne). intros E' k. rewrite (X T' is' E' k). destruct (Nat.lt_ge_cases k (length ld)) as [L|L].
        * rewrite nth_error_app1 by (rewrite map_length; lia). tauto.
        * rewrite nth_error_app2 by (rewrite map_length; lia). rewrite (proj2 (nth_error_None _ _)) by (rewrite map_length; lia). split; [discriminate|].
          rewrite map_length. destruct (k - length ld) as [|[|z]]; cbn; intros [=]; contradiction.
  Qed.
  Lemma video_adds_ok T ts : In T ts -> forall l d ld, tagged ts d ld -> (forall ar, In ar l -> video_rect x_dim y_dim agents plot_color ar <> None) ->
    exists d' new, foldM (video_add x_dim y_dim agents plot_color T) l d = Some d' /\ tagged ts d' (ld ++ new) /\
      forall e, In e new <-> exists ar sh, In ar l /\ video_rect x_dim y_dim agents plot_color ar = Some sh /\ e = (T, sh).
  Proof.
    intros IT. induction l as [|ar l IH]; intros d ld Tg H; cbn.
    - exists d, []. split; [reflexivity|]. rewrite app_nil_r. split; [exact Tg|]. intros e. split; [intros []|intros (? & ? & [] & _)].
    - destruct (@video_add_ok T ts d ld ar IT Tg (H ar (or_introl eq_refl))) as (d1 & sh & E & E1 & T1). rewrite E1. cbn [obind].
      destruct (IH _ _ T1 (fun a I => H a (or_intror I))) as (d2 & new & E2 & T2 & N). exists d2, ((T, sh) :: new). split; [exact E2|].
      split; [rewrite <- app_assoc in T2; exact T2|]. intros e. cbn. rewrite N. split.
      + intros [<-|(b & s & I & R & ->)]; [exists ar, sh; auto|exists b, s; auto].
      + intros (b & s & [<-|I] & R & ->); [left; congruence|right; exists b, s; auto].
  Qed.
  Lemma video_time_ok T ts d ld : ~ In T ts -> dget Z.eqb T timed <> None -> tagged ts d ld ->
    exists d' new, video_time x_dim y_dim agents plot_color timed d T = Some d' /\ tagged (ts ++ [T]) d' (ld ++ new) /\
      forall e, In e new <-> exists l ar sh, dget Z.eqb T timed = Some l /\ In ar l /\ video_rect x_dim y_dim agents plot_color ar = Some sh /\ e = (T, sh).
  Proof.
    intros NT Ht [D N K X]. unfold video_time. destruct (dget Z.eqb T timed) as [l|] eqn:El; [|contradiction].
    assert (E0 : dget Z.eqb T (snd d) = None) by (destruct (dget Z.eqb T (snd d)) eqn:E; [destruct NT; apply K; congruence|reflexivity]).
    unfold dmem. rewrite E0. cbn [obind]. destruct (@video_adds_ok T (ts ++ [T]) ltac:(apply in_or_app; right; left; reflexivity) l (fst d, dset Z.eqb T [] (snd d)) ld) as (d' & new & E & Tg & N').
    - split; cbn [fst snd]; [exact D|intros e I; apply in_or_app; left; apply N; exact I| |].
      + intros T'. unfold dset. destruct (Z.eq_dec T T') as [<-|Ne]; [rewrite dget_alter_same by exact Z.eqb_eq; split; [intros _; apply in_or_app; right; left; reflexivity|discriminate]|].
        rewrite dget_alter_other by (try exact Z.eqb_eq; exact Ne). rewrite K, in_app_iff. cbn. split; [auto|intros [H|[H|[]]]; [exact H|contradiction]].
      + intros T' is. unfold dset. destruct (Z.eq_dec T T') as [<-|Ne].
        * rewrite dget_alter_same by exact Z.eqb_eq. intros [= <-] k. split; [intros []|]. intros H. exfalso. apply nth_error_In in H as I. apply in_map_iff in I. destruct I as ([T' sh] & <- & I). cbn [fst] in *. apply NT. exact (N _ I).
        * rewrite dget_alter_other by (try exact Z.eqb_eq; exact Ne). apply X.
    - intros ar I. exact (@Total T l ar El I).
    - exists d', new. split; [exact E|]. split; [exact Tg|]. intros e. rewrite N'. split; [intros (ar & sh & I & R & ->); exists l, ar, sh; auto|].
      intros (l' & ar & sh & [= <-] & I & R & ->). exists ar, sh. auto.
  Qed.
  Lemma video_times_ok : forall todo ts d ld, NoDup (ts ++ todo) -> (forall T, In T todo -> dget Z.eqb T timed <> None) -> tagged ts d ld ->
    exists d' new, foldM (video_time x_dim y_dim agents plot_color timed) todo d = Some d' /\ tagged (ts ++ todo) d' (ld ++ new) /\
      forall e, In e new <-> exists T l ar sh, In T todo /\ dget Z.eqb T timed = Some l /\ In ar l /\ video_rect x_dim y_dim agents plot_color ar = Some sh /\ e = (T, sh).
  Proof.
    induction todo as [|T todo IH]; intros ts d ld ND H Tg; cbn.
    - exists d, []. split; [reflexivity|]. rewrite !app_nil_r. split; [exact Tg|]. intros e. split; [intros []|intros (? & ? & ? & ? & [] & _)].
    - assert (NT : ~ In T ts). { apply NoDup_remove_2 in ND. intros I. apply ND. apply in_or_app. auto. }
      destruct (@video_time_ok T ts d ld NT (H T (or_introl eq_refl)) Tg) as (d1 & n1 & E1 & T1 & N1). rewrite E1. cbn [obind].
      destruct (IH (ts ++ [T]) d1 (ld ++ n1)) as (d2 & n2 & E2 & T2 & N2); [rewrite <- app_assoc; exact ND|intros T' I; apply H; right; exact I|exact T1|].
      exists d2, (n1 ++ n2). split; [exact E2|]. rewrite <- !app_assoc in T2. split; [exact T2|]. intros e. rewrite in_app_iff, N1, N2. split.
      + intros [(l & ar & sh & A & B)|(T' & l & ar & sh & I & A)]; [exists T, l, ar, sh; auto|exists T', l, ar, sh; split; [right; exact I|exact A]].
      + intros (T' & l & ar & sh & [<-|I] & A); [left; exists l, ar, sh; exact A|right; exists T', l, ar, sh; auto].
  Qed.
End Data.

(** ** The frames *)
Section Frames.
  Variables (idx : dict Z (list nat)) (tags : list Z) (times : list Z).
  Hypothesis Inc : increasing times.
  Hypothesis Idx : forall T, In T times -> exists is, dget Z.eqb T idx = Some is /\ forall k, In k is <-> nth_error tags k = Some T.

  (** The rectangles of the times [done] are visible. *)
  Definition lit (done : list Z) (visible : list bool) : Prop :=
    length visible = length tags /\ forall k, nth_error visible k = Some true <-> exists T, nth_error tags k = Some T /\ In T done.
  Lemma set_all : forall is visible, length (fold_left (fun v i => set_nth i true v) is visible) = length visible /\
    forall k, nth_error (fold_left (fun v i => set_nth i true v) is visible) k = Some true <-> nth_error visible k = Some true \/ (In k is /\ k < length visible).
  Proof.
    induction is as [|i is IH]; intros visible; cbn; [split; [reflexivity|intros k; tauto]|]. destruct (IH (set_nth i true visible)) as [L H]. rewrite set_nth_length in *. split; [exact L|].
    intros k. rewrite H. destruct (Nat.eq_dec i k) as [<-|Ne].
    - destruct (Nat.lt_ge_cases i (length visible)) as [Hi|Hi].
      + rewrite nth_error_set_nth_same by exact Hi. tauto.
      + rewrite (proj2 (nth_error_None (set_nth i true visible) i)) by (rewrite set_nth_length; lia). rewrite (proj2 (nth_error_None visible i)) by lia.
        split; intros [X|[_ X]]; try lia; discriminate.
    - rewrite nth_error_set_nth_other by exact Ne. intuition congruence.
  Qed.
  Lemma advance_ok T : forall rest done visible, done ++ rest = times -> lit done visible ->
    exists done' rest' visible', advance idx rest T visible = Some (rest', visible') /\ done' ++ rest' = times /\ lit done' visible' /\
      (forall S, In S done' <-> In S done \/ (In S rest /\ (S <= T)%Z)).
  Proof.
    induction rest as [|S rest IH]; intros done visible E L; cbn.
    - exists done, [], visible. split; [reflexivity|]. split; [exact E|]. split; [exact L|]. intros S. split; [auto|intros [H|[[] _]]; exact H].
    - destruct (Z.leb_spec S T) as [Hs|Hs].
      + destruct (Idx S) as (is & Ei & Hi); [rewrite <- E; apply in_or_app; right; left; reflexivity|]. rewrite Ei. cbn [obind].
        destruct (IH (done ++ [S]) (fold_left (fun v i => set_nth i true v) is visible)) as (done' & rest' & visible' & E1 & E2 & L' & D).
        * rewrite <- app_assoc. exact E.
        * destruct L as [Ln Lv]. destruct (set_all is visible) as [Sl Sv]. split; [congruence|]. intros k. rewrite Sv, Lv, Hi. split.
          -- intros [(U & A & B)|[A _]]; [exists U; split; [exact A|apply in_or_app; auto]|exists S; split; [exact A|apply in_or_app; right; left; reflexivity]].
          -- intros (U & A & B). apply in_app_iff in B. destruct B as [B|[<-|[]]]; [left; exists U; auto|right; split; [exact A|]]. rewrite Ln. apply nth_error_Some. congruence.
        * exists done', rest', visible'. split; [exact E1|]. split; [exact E2|]. split; [exact L'|]. intros U. rewrite D, in_app_iff. cbn. split.
          -- intros [[H|[<-|[]]]|[H H']]; auto.
          -- intros [H|[[<-|H] H']]; auto.
      + exists done, (S :: rest), visible. split; [reflexivity|]. split; [exact E|]. split; [exact L|]. intros U. split; [auto|]. intros [H|[H HT]]; [exact H|]. exfalso.
        assert (Inc' := Inc). rewrite <- E in Inc'. clear - Inc' H HT Hs. induction done as [|d done IH]; cbn in Inc'.
        * inversion Inc' as [|? ? _ F]; subst. destruct H as [<-|H]; [lia|]. rewrite Forall_forall in F. specialize (F _ H). lia.
        * inversion Inc'; subst. auto.
  Qed.
  Lemma video_frames_ok : forall fts done rest visible, increasing fts -> done ++ rest = times -> lit done visible ->
    (forall S T, In S done -> In T fts -> (S <= T)%Z) ->
    exists fs, video_frames idx fts rest visible = Some fs /\ map fst fs = fts /\
      forall T vis, In (T, vis) fs -> length vis = length tags /\ forall k, nth_error vis k = Some true <-> exists S, nth_error tags k = Some S /\ In S times /\ (S <= T)%Z.
  Proof.
    induction fts as [|T fts IH]; intros done rest visible If E L B; cbn.
    - exists []. split; [reflexivity|]. split; [reflexivity|]. intros T vis [].
    - destruct (@advance_ok T rest done visible E L) as (done' & rest' & visible' & E1 & E2 & L' & D). rewrite E1. cbn [obind fst snd]. apply StronglySorted_inv in If. destruct If as [If' F]. rewrite Forall_forall in F.
      destruct (IH done' rest' visible' If' E2 L') as (fs & Ef & Mf & Hf).
      + intros S T' HS HT. apply D in HS. destruct HS as [HS|[_ HS]]; [apply B; [exact HS|right; exact HT]|specialize (F _ HT); lia].
      + rewrite Ef. cbn [obind]. exists ((T, visible') :: fs). split; [reflexivity|]. split; [cbn; congruence|]. intros T' vis [[= <- <-]|I]; [|exact (Hf _ _ I)].
        destruct L' as [Ln Lv]. split; [exact Ln|]. intros k. rewrite Lv. split.
        * intros (S & A & HS). exists S. split; [exact A|]. split; [rewrite <- E2; apply in_or_app; auto|]. apply D in HS. destruct HS as [HS|[_ HS]]; [apply B; [exact HS|left; reflexivity]|exact HS].
        * intros (S & A & HS & LS). exists S. split; [exact A|]. apply D. rewrite <- E in HS. apply in_app_iff in HS. destruct HS as [HS|HS]; auto.
  Qed.
End Frames.

(** ** The times of the frames *)
Lemma increasing_nth l i j a b : increasing l -> i < j -> nth_error l i = Some a -> nth_error l j = Some b -> (a < b)%Z.
Proof.
  intros S. revert i j. induction S as [|y l S IH F]; intros i j L A B; [destruct i; discriminate|]. rewrite Forall_forall in F. destruct i as [|i], j as [|j]; cbn in *; try lia.
  - injection A as <-. apply F. eapply nth_error_In; exact B.
  - apply (IH i j); auto. lia.
Qed.
Lemma increasing_of_nth l : (forall i j a b, i < j -> nth_error l i = Some a -> nth_error l j = Some b -> (a < b)%Z) -> increasing l.
Proof.
  induction l as [|y l IH]; intros H; constructor.
  - apply IH. intros i j a b L A B. apply (H (S i) (S j)); [lia|exact A|exact B].
  - apply Forall_forall. intros x Hx. destruct (In_nth_error _ _ Hx) as [j Hj]. apply (H 0 (S j)); [lia|reflexivity|exact Hj].
Qed.
Lemma linspace_nth n m i : 2 <= m -> i < m -> nth_error (linspace n m) i = Some (i * (n - 1) / (m - 1)).
Proof.
  intros Hm Hi. destruct m as [|[|m]]; [lia|lia|]. unfold linspace. rewrite nth_error_map. replace (S (S m) - 1) with (S m) by lia.
  rewrite (nth_error_nth' _ 0) by (rewrite seq_length; lia). rewrite seq_nth by lia. reflexivity.
Qed.
Lemma linspace_length n m : length (linspace n m) = m.
Proof. destruct m as [|[|m]]; [reflexivity|reflexivity|]. unfold linspace. rewrite map_length, seq_length. reflexivity. Qed.
Lemma thin_ok m times : increasing times -> exists fts, thin m times = Some fts /\ increasing fts /\ (forall T, In T fts -> In T times) /\
  (forall k, m = Some k -> length fts <= k) /\ (times <> [] -> m <> Some 0 -> fts <> []) /\
  ((forall k, m = Some k -> 2 <= k) -> forall T, greatest times T \/ least times T -> In T fts) /\
  ((forall k, m = Some k -> length times <= k) -> fts = times).
Proof.
  intros Inc. unfold thin. destruct m as [m|]; [|exists times; split; [reflexivity|]; split; [exact Inc|]; split; [auto|]; split; [discriminate|]; split; [auto|]; split; [intros _ T [[H _]|[H _]]; exact H|reflexivity]].
  destruct (Nat.ltb_spec m (length times)) as [L|L].
  2:{ exists times; split; [reflexivity|]; split; [exact Inc|]; split; [auto|]; split; [intros k [= <-]; exact L|]; split; [auto|]; split; [intros _ T [[H _]|[H _]]; exact H|reflexivity]. }
  assert (Hn : forall i, In i (linspace (length times) m) -> i < length times).
  { intros i I. destruct m as [|[|m]]; [destruct I|destruct I as [<-|[]]; lia|]. unfold linspace in I. apply in_map_iff in I. destruct I as (k & <- & I). apply in_seq in I.
    assert (k * (length times - 1) / S m <= length times - 1); [|lia]. apply Nat.div_le_upper_bound; [lia|]. apply Nat.mul_le_mono_r. lia. }
  destruct (@mapM_ok _ _ (nth_error times) (linspace (length times) m)) as [fts Ef]; [intros i I; apply nth_error_Some; auto|]. rewrite Ef. exists fts. split; [reflexivity|].
  assert (Lf : length fts = m) by (rewrite (mapM_length _ _ Ef), linspace_length; reflexivity).
  split; [|split; [|split; [|split; [|split]]]].
  - apply increasing_of_nth. intros i j a b Lt A B. assert (Hj : j < m) by (rewrite <- Lf; apply nth_error_Some; congruence). assert (2 <= m) by lia.
    destruct (@mapM_nth _ _ _ _ _ i _ Ef (@linspace_nth (length times) m i ltac:(lia) ltac:(lia))) as (a' & A' & Ea). destruct (@mapM_nth _ _ _ _ _ j _ Ef (@linspace_nth (length times) m j ltac:(lia) Hj)) as (b' & B' & Eb).
    rewrite A in A'. injection A' as <-. rewrite B in B'. injection B' as <-. eapply increasing_nth; [exact Inc| |exact Ea|exact Eb].
    assert (j * (length times - 1) = (j - i) * (length times - 1) + i * (length times - 1)) as -> by nia.
    assert (1 * (m - 1) + i * (length times - 1) <= (j - i) * (length times - 1) + i * (length times - 1)) as Le by nia.
    apply (Nat.div_le_mono _ _ (m - 1)) in Le; [|lia]. rewrite Nat.div_add_l in Le by lia. lia.
  - intros T I. apply (mapM_In _ _ Ef) in I. destruct I as (i & _ & E). eapply nth_error_In; exact E.
  - intros k [= <-]. lia.
  - intros _ Nz E. subst fts. cbn in Lf. congruence.
  - intros H T HT. specialize (H m eq_refl). destruct HT as [[I G]|[I G]]; destruct (In_nth_error _ _ I) as [i Hi]; assert (i < length times) by (apply nth_error_Some; congruence).
    + assert (Le := @linspace_nth (length times) m (m - 1) H ltac:(lia)). rewrite (Nat.mul_comm (m - 1)), Nat.div_mul in Le by lia.
      destruct (@mapM_nth _ _ _ _ _ _ _ Ef Le) as (z & Z1 & Z2). apply nth_error_In in Z1. replace T with z; [exact Z1|]. assert (z <= T)%Z by (apply G; eapply nth_error_In; exact Z2).
      destruct (Nat.eq_dec i (length times - 1)) as [->|Ne]; [congruence|]. assert (T < z)%Z by (eapply increasing_nth; [exact Inc| |exact Hi|exact Z2]; lia). lia.
    + assert (Le := @linspace_nth (length times) m 0 H ltac:(lia)). cbn [Nat.mul] in Le. rewrite Nat.div_0_l in Le by lia.
      destruct (@mapM_nth _ _ _ _ _ _ _ Ef Le) as (z & Z1 & Z2). apply nth_error_In in Z1. replace T with z; [exact Z1|]. assert (T <= z)%Z by (apply G; eapply nth_error_In; exact Z2).
      destruct (Nat.eq_dec i 0) as [->|Ne]; [congruence|]. assert (z < T)%Z by (eapply increasing_nth; [exact Inc| |exact Z2|exact Hi]; lia). lia.
  - intros H. specialize (H m eq_refl). lia.
Qed.

